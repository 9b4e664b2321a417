(** Independent specification vocabulary.

    A (finite, integer-weighted) law is a list of outcomes with weights, in any
    order and with repetitions.  Nothing here refers to the algorithms of the
    library. *)
From Coq Require Import List ZArith QArith Qabs Bool.
From Verif Require Import PyBase Num Val Sorting.
Import ListNotations.
Open Scope Z_scope.

(** total weight of the outcomes satisfying [P] *)
Fixpoint mass {A : Type} (P : A -> bool) (l : list (A * Z)) : Z :=
  match l with
  | [] => 0
  | (a, w) :: l' => (if P a then w else 0) + mass P l'
  end.

(** weighted sum of [f] over the outcomes *)
Fixpoint wsum {A : Type} (f : A -> Z) (l : list (A * Z)) : Z :=
  match l with
  | [] => 0
  | (a, w) :: l' => f a * w + wsum f l'
  end.

Definition total {A : Type} (l : list (A * Z)) : Z := mass (fun _ => true) l.

(** weight of one value ([veqb]: Python equality, 1 == 1.0) *)
Definition wt (l : list (pval * Z)) (v : pval) : Z := mass (veqb v) l.

(** probability, as an exact rational number *)
Definition Pr (l : list (pval * Z)) (v : pval) : Q :=
  (inject_Z (wt l v) / inject_Z (total l))%Q.

Definition PrP {A : Type} (P : A -> bool) (l : list (A * Z)) : Q :=
  (inject_Z (mass P l) / inject_Z (total l))%Q.

(** two laws describe the same distribution *)
Definition same_law (a b : list (pval * Z)) : Prop := forall v, (Pr a v == Pr b v)%Q.

(** the value is listed as an outcome (possibly with weight 0) *)
Definition listed (v : pval) (l : list (pval * Z)) : bool :=
  existsb (fun x => veqb v (fst x)) l.

Definition nonneg {A : Type} (l : list (A * Z)) : Prop := Forall (fun x => 0 <= snd x) l.

(** a proper law: non-negative weights, not all zero *)
Definition proper {A : Type} (l : list (A * Z)) : Prop :=
  nonneg l /\ 0 < total l.

(** law of [f x] when [x] follows [l] *)
Definition image {A B : Type} (f : A -> B) (l : list (A * Z)) : list (B * Z) :=
  map (fun x => (f (fst x), snd x)) l.

(** law of an independent pair *)
Definition indep {A B : Type} (a : list (A * Z)) (b : list (B * Z)) : list ((A * B) * Z) :=
  flat_map (fun x => map (fun y => ((fst x, fst y), snd x * snd y)) b) a.

(** law of the ordered results of [n] independent rolls of [l] *)
Fixpoint tuples {A : Type} (n : nat) (l : list (A * Z)) : list (list A * Z) :=
  match n with
  | O => [([], 1)]
  | S n' => map (fun xy => (fst (fst xy) :: snd (fst xy), snd xy)) (indep l (tuples n' l))
  end.

(** a list of outcomes all of which are integers *)
Definition int_vals (l : list (pval * Z)) : Prop := Forall (fun x => v_is_int (fst x) = true) l.

Definition toZ (v : pval) : Z := match v with VN (NI z) => z | _ => 0 end.
Definition sumZ (l : list Z) : Z := fold_right Z.add 0 l.
Definition vsumZ (l : list pval) : pval := vint (sumZ (map toZ l)).

(** exact expectation of an integer-valued law *)
Definition expectation (l : list (pval * Z)) : Q :=
  (inject_Z (wsum toZ l) / inject_Z (total l))%Q.

(** the operation yields (a value equal to) z *)
Definition yields (r : res pval) (z : pval) : bool :=
  match r with Ok v => veqb z v | Err _ => false end.

(** the rational number denoted by a Python number *)
Definition numQ (n : num) : Q :=
  match n with
  | NI z => inject_Z z
  | NF m e => if 0 <=? e then inject_Z (m * 2 ^ e) else (inject_Z m / inject_Z (2 ^ (- e)))%Q
  end.

(** [k] is [x] with the fractional part removed, towards zero *)
Definition int_part (x : Q) (k : Z) : Prop :=
  ((0 <= x /\ inject_Z k <= x /\ x < inject_Z (k + 1)) \/
   (x <= 0 /\ x <= inject_Z k /\ inject_Z (k - 1) < x))%Q.

(** the rationals that are finite IEEE doubles *)
Definition is_double (x : Q) : Prop :=
  exists m e, Z.abs m < 2 ^ 53 /\ -1074 <= e <= 971 /\ (x == numQ (NF m e))%Q.

(** [r] is a double as close to [x] as any double *)
Definition nearest_double (x r : Q) : Prop :=
  is_double r /\ forall f, is_double f -> (Qabs (r - x) <= Qabs (f - x))%Q.

(** ties go to the even neighbour: [r] is [m * 2^e] with [m] of 53 bits (or [e]
    the smallest exponent), within half a unit of [x], and [m] is even if [x] lies
    exactly in the middle *)
Definition ties_to_even (x r : Q) : Prop :=
  exists m e, (r == numQ (NF m e))%Q /\ Z.abs m <= 2 ^ 53 /\ (2 ^ 52 <= Z.abs m \/ e = -1074) /\
    (Qabs (r - x) <= numQ (NF 1 (e - 1)))%Q /\
    ((Qabs (r - x) == numQ (NF 1 (e - 1)))%Q -> Z.even m = true).

(** ** Dice pools *)

(** law of the total of [n] dice; a negative number of dice counts negatively *)
Definition dice_total (n : Z) (d : list (pval * Z)) : list (pval * Z) :=
  image (fun t => vint (Z.sgn n * sumZ (map toZ t))) (tuples (Z.abs_nat n) d).

(** average of [f] over the outcomes of a law *)
Fixpoint qsum {A : Type} (f : A -> Q) (l : list (A * Z)) : Q :=
  match l with
  | [] => 0%Q
  | (a, w) :: l' => (inject_Z w * f a + qsum f l')%Q
  end.
Definition average {A : Type} (f : A -> Q) (l : list (A * Z)) : Q :=
  (qsum f l / inject_Z (total l))%Q.

(** the entries of a roll from the highest to the lowest, and from the lowest to the highest *)
Definition descending (t : list pval) : list pval := isort (fun a b => vleb b a) t.
Definition ascending (t : list pval) : list pval := isort vleb t.

(** the [k]-th entry, counting from 1; 0 when there is none *)
Definition entry (k : Z) (t : list pval) : pval :=
  if (1 <=? k) && (k <=? Z.of_nat (length t)) then nth (Z.to_nat (k - 1)) t (vint 0) else vint 0.
