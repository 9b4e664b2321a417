(** The text of values inside a string of a program. *)
From Coq Require Import String List ZArith Bool Permutation Sorted.
From Verif Require Import PyBase Num Val UtilModel Obj TextSpec SynSpec MeanSpec.
Import ListNotations.
Open Scope string_scope.
Open Scope Z_scope.

(** ** Labels: sums of names with whole coefficients, and perhaps a number *)

(** the label made of [terms] and the number [c], in whatever order they were added *)
Definition is_sum (s : Val.sval) (terms : list (string * Z)) (c : option Z) : Prop :=
  Permutation s (map (fun t => (fst t, NI (snd t))) terms ++ match c with Some z => [(CONST_COEF, NI z)] | None => [] end) /\
  StronglySorted (fun t u => before (fst t) (fst u)) terms /\ Forall (fun t => fst t <> CONST_COEF) terms.

(** [2*a + b + 5] *)
Definition term_text (t : string * Z) : string := if snd t =? 1 then fst t else str_of_Z (snd t) ++ "*" ++ fst t.
Fixpoint with_plus (l : list string) : string :=
  match l with
  | [] => ""
  | [t] => t
  | t :: l' => t ++ " + " ++ with_plus l'
  end.
Definition sum_text (terms : list (string * Z)) (c : option Z) : string :=
  with_plus (map term_text terms) ++ match c with Some z => " + " ++ str_of_Z z | None => "" end.

(** ** Values in strings *)
Inductive shown_as : obj -> string -> Prop :=
| shown_number z : shown_as (OV (VN (NI z))) (str_of_Z z)
| shown_text s : shown_as (OStr s) s
| shown_sum s terms c : is_sum s terms c -> shown_as (OV (VS s)) (sum_text terms c)
| shown_seq l : shown_as (OSeq l) "{?}"
| shown_labels l : shown_as (OSSeq l) "{?}"
| shown_blank : shown_as (OBlank false) "d{}"
| shown_lost : shown_as (OBlank true) "d{?}"
| shown_nothing : shown_as ONone "None".

(** A string with the variables of [pl] in it. *)
Inductive string_at (pl : @place obj) : list part -> string -> Prop :=
| at_end : string_at pl [] ""
| at_any s ps t : string_at pl ps t -> string_at pl (PAny s :: ps) (s ++ t)
| at_nonvar s ps t : string_at pl ps t -> string_at pl (PNonvar s :: ps) (s ++ t)
| at_var x v s ps t : find_variable x pl = Ok v -> shown_as v s -> string_at pl ps t -> string_at pl (PVar x :: ps) (s ++ t).
