(** What should be printed for the outputs of a program, in terms of the exact
    probabilities that its text says (IdealSpec.v). *)
From Coq Require Import String List ZArith QArith Qabs Bool.
From Verif Require Import PyBase Num Val UtilModel Spec RoundFacts PrintSpec FloatSpec IdealSpec.
Import ListNotations.
Open Scope Z_scope.
Open Scope list_scope.

(** ** Averages over a table of values with their probabilities *)

Definition on_average (f : Z -> Q) (t : table) : Q := fold_right (fun zq s => (f (fst zq) * snd zq + s)%Q) 0%Q t.
Definition mean_of (t : table) : Q := on_average inject_Z t.
Definition squares_of (t : table) : Q := on_average (fun z => inject_Z z * inject_Z z)%Q t.
Definition variance_of (t : table) : Q :=
  on_average (fun z => (inject_Z z - mean_of t) * (inject_Z z - mean_of t))%Q t.

(** ** Reports *)

(** the first line: the double [m] nearest to the mean, and a number [s] close to the
    standard deviation, both to hundredths *)
Definition mean_line (t : table) (line : string) : Prop :=
  exists m n s k text, line = (minus (negb (Qle_bool 0 m)) ++ hundredths_text (Z.abs n) ++ " ± " ++ text)%string /\
    nearest_double (mean_of t) m /\ (Qabs (inject_Z n / 100 - m) <= 1 # 200)%Q /\
    (0 <= s)%Q /\ (Qabs (s * s - variance_of t) <= squares_of t * p2 (-48))%Q /\ (Qabs (inject_Z k / 100 - s) <= 1 # 200)%Q /\
    (text = hundredths_text k \/ (text = "0"%string /\ (s == 0)%Q)).

(** a row (PrintSpec.v) for every value, from the lowest to the highest *)
Definition value_rows (t : table) (width : Z) (lines : list string) : Prop :=
  let w := longest (map (fun zq => str_of_Z (fst zq)) t) in
  Forall2 (fun zq line => row w (Z.max 0 (width - w)) (snd zq) (str_of_Z (fst zq)) line) t lines.

(** what an output is a table of, if of anything; texts and lists have no meaning here *)
Definition table_of (v : ival) : option table :=
  match v with
  | INum z => Some (sure z)
  | ISeq (z :: l) => Some (fair (z :: l))
  | IDice t _ => Some t
  | _ => None
  end.
Definition name_of (name : option ival) : option string :=
  match name with Some (IText s) => Some s | _ => None end.

(** values up to 10^12 in size, probabilities with a common denominator up to 2^400 *)
Definition moderate_table (t : table) : Prop := Forall (fun zq => Z.abs (fst zq) <= 10 ^ 12) t /\ lcd t <= 2 ^ 400.
Definition moderate_output (out : ival * option ival) : Prop :=
  match fst out with
  | IText _ | IList _ => False
  | v => match table_of v with Some t => moderate_table t | None => True end
  end /\
  match snd out with None | Some (IText _) => True | _ => False end.

(** the printed text of an output *)
Definition printed_as (width : Z) (out : ival * option ival) (text : string) : Prop :=
  match table_of (fst out) with
  | Some t => exists line lines, text = (heading (name_of (snd out)) ++ line ++ lines_text lines width)%string /\
      mean_line t line /\ value_rows t width lines
  | None => text = (heading (name_of (snd out)) ++ lines_text [] width)%string
  end.
