(** Python numbers: [int] (unbounded, [Z]) and finite [float].

    A float is a dyadic number [m * 2^e].  The results of float operations are
    rounded to 53 significant bits, ties to even, with gradual underflow at
    2^-1074 and overflow at 2^1024, exactly as IEEE double precision.  Results
    that would be inf or NaN are [Err Unmodelled].  Python [bool] is identified
    with the integers 0 and 1, and -0.0 with 0.0. *)
From Coq Require Import ZArith Bool.
From Verif Require Import PyBase.
Open Scope Z_scope.

Inductive num : Type :=
| NI (z : Z)            (* int *)
| NF (m e : Z).         (* float m * 2^e *)

(** ** Exact dyadic arithmetic *)

Definition shl (m k : Z) : Z := m * 2 ^ k.

(** Compare m1*2^e1 with m2*2^e2. *)
Definition dy_cmp (m1 e1 m2 e2 : Z) : comparison :=
  let e := Z.min e1 e2 in Z.compare (shl m1 (e1 - e)) (shl m2 (e2 - e)).

Definition mant (x : num) : Z := match x with NI z => z | NF m _ => m end.
Definition expo (x : num) : Z := match x with NI _ => 0 | NF _ e => e end.

(** Python compares int with float exactly. *)
Definition ncmp (a b : num) : comparison := dy_cmp (mant a) (expo a) (mant b) (expo b).

Definition neqb (a b : num) : bool := match ncmp a b with Eq => true | _ => false end.
Definition nltb (a b : num) : bool := match ncmp a b with Lt => true | _ => false end.
Definition nleb (a b : num) : bool := match ncmp a b with Gt => false | _ => true end.

Definition is_int (x : num) : bool := match x with NI _ => true | NF _ _ => false end.

(** Truth value of a number. *)
Definition ntruth (x : num) : bool := negb (mant x =? 0).

(** ** Rounding *)

(** Remove factors of two so that every finite float has one representation. *)
Fixpoint strip2 (p : positive) (e : Z) : positive * Z :=
  match p with
  | xO p' => strip2 p' (e + 1)
  | _ => (p, e)
  end.

Definition fnorm (m e : Z) : num :=
  match m with
  | Z0 => NF 0 0
  | Zpos p => let '(q, e') := strip2 p e in NF (Zpos q) e'
  | Zneg p => let '(q, e') := strip2 p e in NF (Zneg q) e'
  end.

(** Exponent of the last bit of the double nearest to n/d (n, d > 0):
    2^52 <= (n/d) / 2^e < 2^53, but not below -1074. *)
Definition ulp_exp (n d : Z) : Z :=
  let k := Z.log2 n - Z.log2 d in
  let ge := if 0 <=? k then d * 2 ^ k <=? n else d <=? n * 2 ^ (- k) in
  Z.max (-1074) (if ge then k - 52 else k - 53).

(** Round half to even of the quotient a/b (a >= 0, b > 0) to an integer. *)
Definition div_half_even (a b : Z) : Z :=
  let q := a / b in
  let r := a mod b in
  match Z.compare (2 * r) b with
  | Lt => q
  | Gt => q + 1
  | Eq => if Z.even q then q else q + 1
  end.

(** Nearest double to n/d with n >= 0, d > 0; None on overflow. *)
Definition round_nonneg (n d : Z) : option (Z * Z) :=
  if n =? 0 then Some (0, 0) else
  let e := ulp_exp n d in
  let q := if e <? 0 then div_half_even (n * 2 ^ (- e)) d
           else div_half_even n (d * 2 ^ e) in
  if (971 <? e) || ((e =? 971) && (2 ^ 53 <=? q)) then None else Some (q, e).

(** Nearest double to n/d, d <> 0. *)
Definition fround (n d : Z) (on_overflow : pyerr) : res num :=
  let '(n, d) := if d <? 0 then (- n, - d) else (n, d) in
  match round_nonneg (Z.abs n) d with
  | None => Err on_overflow
  | Some (q, e) => Ok (fnorm (Z.sgn n * q) e)
  end.

(** Nearest double to m * 2^e. *)
Definition fround_dy (m e : Z) (on_overflow : pyerr) : res num :=
  if e <? 0 then fround m (2 ^ (- e)) on_overflow
  else fround (shl m e) 1 on_overflow.

(** [float(x)]: int to float conversion raises OverflowError. *)
Definition to_float (x : num) : res num :=
  match x with
  | NI z => fround z 1 OverflowErr
  | NF m e => Ok (NF m e)
  end.

(** ** Operators *)

Definition lift2 (zop : Z -> Z -> Z) (fop : Z -> Z -> Z -> Z -> res num)
    (a b : num) : res num :=
  match a, b with
  | NI x, NI y => Ok (NI (zop x y))
  | _, _ =>
      x <- to_float a ;; y <- to_float b ;;
      fop (mant x) (expo x) (mant y) (expo y)
  end.

Definition fadd (m1 e1 m2 e2 : Z) : res num :=
  let e := Z.min e1 e2 in
  fround_dy (shl m1 (e1 - e) + shl m2 (e2 - e)) e Unmodelled.

Definition fmul (m1 e1 m2 e2 : Z) : res num := fround_dy (m1 * m2) (e1 + e2) Unmodelled.

Definition nadd : num -> num -> res num := lift2 Z.add fadd.
Definition nsub : num -> num -> res num :=
  lift2 Z.sub (fun m1 e1 m2 e2 => fadd m1 e1 (- m2) e2).
Definition nmul : num -> num -> res num := lift2 Z.mul fmul.

(** Quotient of two dyadics as a fraction of integers. *)
Definition fdiv (m1 e1 m2 e2 : Z) : res num :=
  let e := Z.min e1 e2 in
  fround (shl m1 (e1 - e)) (shl m2 (e2 - e)) Unmodelled.

(** int / int is correctly rounded (long_true_divide); overflow raises
    OverflowError. *)
Definition ntruediv (a b : num) : res num :=
  if mant b =? 0 then Err ZeroDivErr else
  match a, b with
  | NI x, NI y => fround x y OverflowErr
  | _, _ =>
      x <- to_float a ;; y <- to_float b ;;
      fdiv (mant x) (expo x) (mant y) (expo y)
  end.

(** floor of m*2^e *)
Definition dy_floor (m e : Z) : Z :=
  if e <? 0 then m / 2 ^ (- e) else shl m e.

(** C [fmod]: exact, sign of the dividend. *)
Definition ffmod (m1 e1 m2 e2 : Z) : Z * Z :=
  let e := Z.min e1 e2 in
  (Z.rem (shl m1 (e1 - e)) (shl m2 (e2 - e)), e).

(** CPython float_divmod (Objects/floatobject.c): returns (floordiv, mod). *)
Definition fdivmod (m1 e1 m2 e2 : Z) : res (num * num) :=
  let '(rm, re) := ffmod m1 e1 m2 e2 in
  t <- fadd m1 e1 (- rm) re ;;
  q <- fdiv (mant t) (expo t) m2 e2 ;;
  '(q, md) <-
    (if negb (rm =? 0) && xorb (m2 <? 0) (rm <? 0)
     then (md <- fadd rm re m2 e2 ;; q' <- fadd (mant q) (expo q) (-1) 0 ;; Ok (q', md))
     else Ok (q, fnorm rm re)) ;;
  if mant q =? 0 then Ok (NF 0 0, md) else
  let fl := dy_floor (mant q) (expo q) in
  fq <- fround fl 1 Unmodelled ;;
  df <- fadd (mant q) (expo q) (- mant fq) (expo fq) ;;
  match dy_cmp (mant df) (expo df) 1 (-1) with
  | Gt => r <- fadd (mant fq) (expo fq) 1 0 ;; Ok (r, md)
  | _ => Ok (fq, md)
  end.

Definition nfloordiv (a b : num) : res num :=
  if mant b =? 0 then Err ZeroDivErr else
  lift2 Z.div (fun m1 e1 m2 e2 => p <- fdivmod m1 e1 m2 e2 ;; Ok (fst p)) a b.

Definition nmod (a b : num) : res num :=
  if mant b =? 0 then Err ZeroDivErr else
  lift2 Z.modulo (fun m1 e1 m2 e2 => p <- fdivmod m1 e1 m2 e2 ;; Ok (snd p)) a b.

(** int ** int with a non-negative exponent; 0 ** negative raises
    ZeroDivisionError.  Everything else goes through libm's pow: unmodelled. *)
Definition npow (a b : num) : res num :=
  match a, b with
  | NI x, NI y =>
      if 0 <=? y then Ok (NI (x ^ y))
      else if x =? 0 then Err ZeroDivErr else Err Unmodelled
  | _, _ => Err Unmodelled
  end.

Definition nneg (a : num) : num :=
  match a with NI z => NI (- z) | NF m e => NF (- m) e end.
Definition nabs (a : num) : num :=
  match a with NI z => NI (Z.abs z) | NF m e => NF (Z.abs m) e end.

(** math.floor, math.ceil, int()/math.trunc: integers. *)
Definition nfloor (a : num) : Z := dy_floor (mant a) (expo a).
Definition nceil (a : num) : Z := - dy_floor (- mant a) (expo a).
Definition ntrunc (a : num) : Z := if mant a <? 0 then nceil a else nfloor a.

(** [sum(l)] for a list of numbers (CPython 3.9: left to right from 0). *)
Definition nsum (l : list num) : res num := foldM nadd (NI 0) l.
