(** How Python writes a float: the shortest decimal that reads back as it. *)
From Coq Require Import String List ZArith QArith Qabs Bool.
From Verif Require Import PyBase Num UtilModel PrintSpec Spec.
Import ListNotations.
Open Scope Z_scope.

(** the decimal [n * 10^k] *)
Definition decQ (n k : Z) : Q := (inject_Z n * (10 # 1) ^ k)%Q.

(** a numeral for [x] is read as the double [r]: the nearest one, ties to even *)
Definition reads_as (x r : Q) : Prop := nearest_double x r /\ ties_to_even x r.

(** [n] has [d] decimal digits *)
Definition has_digits (n d : Z) : Prop := 1 <= d /\ 10 ^ (d - 1) <= n < 10 ^ d.

(** [n * 10^k], of [d] digits, reads as [x], no decimal with fewer digits does, and none
    with as many digits is closer to [x] *)
Record shortest (x : Q) (n k d : Z) : Prop := {
  sh_digits : has_digits n d;
  sh_reads : reads_as (decQ n k) x;
  sh_least : forall n' k' d', has_digits n' d' -> reads_as (decQ n' k') x -> d <= d';
  sh_closest : forall n' k', has_digits n' d -> reads_as (decQ n' k') x -> (Qabs (decQ n k - x) <= Qabs (decQ n' k' - x))%Q }.

(** [n] with zeros before it, to [w] characters *)
Definition padded (w : Z) (n : Z) : string :=
  (copies "0" (Z.to_nat w - String.length (str_of_Z n)) ++ str_of_Z n)%string.

(** [n * 10^k] with a point *)
Definition positional (n k : Z) : string :=
  if 0 <=? k then (str_of_Z (n * 10 ^ k) ++ ".0")%string
  else (str_of_Z (n / 10 ^ (- k)) ++ "." ++ padded (- k) (n mod 10 ^ (- k)))%string.

(** [n * 10^k] as a digit, perhaps decimals, and a power of ten *)
Definition scientific (n k d : Z) : string :=
  let e := d + k - 1 in
  (str_of_Z (n / 10 ^ (d - 1)) ++ (if Z.eqb d 1 then "" else "." ++ padded (d - 1) (n mod 10 ^ (d - 1))) ++
   "e" ++ (if Z.ltb e 0 then "-" else "+") ++ padded 2 (Z.abs e))%string.

Definition minus (negative : bool) : string := if negative then "-"%string else ""%string.

(** [s] is [str] of the float [x] whose sign bit is [negative] *)
Inductive float_text (negative : bool) (x : Q) : string -> Prop :=
| float_zero : (x == 0)%Q -> float_text negative x (minus negative ++ "0.0")
| float_other n k d : ~ (x == 0)%Q -> shortest (Qabs x) n k d ->
    float_text negative x (minus negative ++ (if (-4 <? d + k) && (d + k <=? 16) then positional n k else scientific n k d)).

(** [ftext] writes floats like Python *)
Definition writes_floats (ftext : bool -> num -> string) : Prop :=
  forall negative a, is_int a = false -> (exists s, float_text negative (numQ a) s) ->
  float_text negative (numQ a) (ftext negative a).

(** [n] hundredths with one or two decimals: 12.0, 12.3, 12.34 *)
Definition hundredths_text (n : Z) : string :=
  (str_of_Z (n / 100) ++ "." ++ str_of_Z (n mod 100 / 10) ++ (if Z.eqb (n mod 10) 0 then "" else str_of_Z (n mod 10)))%string.

(** [ftext] writes the doubles nearest to a number of hundredths as that number *)
Definition writes_hundredths (ftext : bool -> num -> string) : Prop :=
  forall negative a n, is_int a = false -> reads_as (inject_Z n / 100) (numQ a) -> Z.abs n < 10 ^ 15 ->
  ftext negative a = (minus negative ++ hundredths_text (Z.abs n))%string.
