(** What [round] with a number of digits should give. *)
From Coq Require Import List ZArith QArith Qabs Bool.
From Verif Require Import PyBase Num Val RVModel Obj Spec FloatSpec.
Import ListNotations.
Open Scope Z_scope.

(** [k * 10^-n] is the multiple of [10^-n] nearest to [x]; half-way, [k] is even *)
Definition nearest_multiple (n : Z) (x : Q) (k : Z) : Prop :=
  (Qabs (decQ k (- n) - x) <= decQ 1 (- n) / 2)%Q /\
  ((Qabs (decQ k (- n) - x) == decQ 1 (- n) / 2)%Q -> Z.even k = true).

(** [b] is [a] rounded to [n] decimals: exactly if [a] is an int, and then [b] is an int
    as well; otherwise it is the float that is read from the rounded decimal *)
Definition rounded_to (n : Z) (a b : num) : Prop :=
  exists k, nearest_multiple n (numQ a) k /\ is_int b = is_int a /\
    if is_int a then (numQ b == decQ k (- n))%Q else reads_as (decQ k (- n)) (numQ b).

(** ints, and floats that are doubles *)
Definition is_python (a : num) : Prop := is_int a = true \/ is_double (numQ a).

(** the die whose outcomes are those of [x], each replaced by what [R] relates it to *)
Definition image_law (R : num -> num -> Prop) (x y : list (pval * Z)) : Prop :=
  exists pairs : list (num * num * Z),
    x = map (fun p => (VN (fst (fst p)), snd p)) pairs /\
    Forall (fun p => R (fst (fst p)) (snd (fst p))) pairs /\
    same_law y (map (fun p => (VN (snd (fst p)), snd p)) pairs).
