(** Model of [round] with a number of digits (randvar.py 360-361) and of the built-in
    functions abs, round, math.floor, math.ceil and math.trunc on any object
    (randvar.py 357-370, blackrv.py 154-167). *)
From Coq Require Import String List ZArith Bool.
From Verif Require Import PyBase Num Val RVModel Obj.
Import ListNotations.
Open Scope Z_scope.

(** [m * 2^e] in units of [10^-n], as the nearest integer, ties to even (the dtoa of
    CPython for floats, long_round for ints) *)
Definition in_units (n m e : Z) : Z :=
  Z.sgn m * div_half_even (Z.abs m * 10 ^ Z.max n 0 * 2 ^ Z.max e 0) (10 ^ Z.max (- n) 0 * 2 ^ Z.max (- e) 0).

(** [round(x, n)].  An int stays an int.  A float is written with [n] decimals and read
    back; CPython takes a shortcut for more than 323 decimals and for fewer than
    -308, and raises OverflowError if the result is too large. *)
Definition round_to (n : Z) (a : num) : res num :=
  match a with
  | NI z => Ok (NI (if 0 <=? n then z else in_units n z 0 * 10 ^ (- n)))
  | NF m e =>
      if 323 <? n then Ok (NF m e)
      else if n <? -308 then Ok (NF 0 0)
      else fround (in_units n m e * 10 ^ Z.max (- n) 0) (10 ^ Z.max n 0) OverflowErr
  end.

(** randvar.py 360-361; [round(x)] has n = 0 *)
Definition rv_round (c : cfg) (n : Z) (x : dist) : res rv := rv_map c (vnum1 (round_to n)) x.

(** the functions; [round] here always has its number of digits (without it, dice take
    0, but a plain number becomes an int) *)
Inductive ufun : Type := UAbs | URound (n : Z) | UFloor | UCeil | UTrunc.

(** the function on a number *)
Definition unum (f : ufun) (a : num) : res num :=
  match f with
  | UAbs => Ok (nabs a)
  | URound n => round_to n a
  | UFloor => Ok (NI (nfloor a))
  | UCeil => Ok (NI (nceil a))
  | UTrunc => Ok (NI (ntrunc a))
  end.

(** the methods of RV: randvar.py 357-370 *)
Definition rv_unary (c : cfg) (f : ufun) (x : dist) : res rv :=
  match f with
  | UAbs => rv_abs c x
  | URound n => rv_round c n x
  | UFloor => rv_floor c x
  | UCeil => rv_ceil c x
  | UTrunc => rv_trunc c x
  end.

(** [f(o)].  BlankRV: blackrv.py 154-167.  Seq, StringSeq and StringVal define none of
    these methods, so for them as for texts, lists and None it is a TypeError. *)
Definition unary (c : cfg) (f : ufun) (o : obj) : res obj :=
  match o with
  | OV (VN a) => rmap (fun b => OV (VN b)) (unum f a)
  | ORV x => rmap ORV (rv_unary c f (rv_dist x))
  | OBlank b => Ok (OBlank b)
  | OV (VS _) | OStr _ | OSeq _ | OSSeq _ | OIter _ | ONone => Err TypeErr
  end.
