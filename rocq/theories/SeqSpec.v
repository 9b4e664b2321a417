(** Specification vocabulary for sequences and blanks. *)
From Coq Require Import List ZArith QArith Bool.
From Verif Require Import PyBase Num Val RVModel Obj Spec.
Import ListNotations.
Open Scope Z_scope.

Definition numbers (l : list pval) : Prop := Forall (fun v => is_number v = true) l.
(** the rational value of a number *)
Definition vq (v : pval) : Q := match v with VN n => numQ n | VS _ => 0%Q end.

(** the six comparisons of rational numbers *)
Definition related (o : binop) (x y : Q) : bool :=
  match o with
  | OEq => Qeq_bool x y
  | ONe => negb (Qeq_bool x y)
  | OLe => Qle_bool x y
  | OGe => Qle_bool y x
  | OLt => negb (Qle_bool y x)
  | OGt => negb (Qle_bool x y)
  | _ => false
  end.

Definition arithmetic (o : binop) : bool :=
  match o with OAdd | OSub | OMul | OFloorDiv | OTrueDiv | OPow | OMod => true | _ => false end.
Definition relational (o : binop) : bool :=
  match o with OEq | ONe | OLt | OLe | OGt | OGe => true | _ => false end.
Definition order_op (o : binop) : bool := match o with OLt | OLe | OGt | OGe => true | _ => false end.

(** how many entries satisfy [P] *)
Fixpoint how_many {A : Type} (P : A -> bool) (l : list A) : Z :=
  match l with
  | [] => 0
  | x :: l' => (if P x then 1 else 0) + how_many P l'
  end.

(** an ordering comparison at one position; a missing entry is minus infinity *)
Definition holds_at (o : binop) (x y : option Q) : Prop :=
  match x, y with
  | Some a, Some b => related o a b = true
  | None, Some _ => o = OLt \/ o = OLe
  | Some _, None => o = OGt \/ o = OGe
  | None, None => True
  end.

(** [decimal_length n k]: the decimal notation of [n] has [k] digits *)
Definition decimal_length (n k : Z) : Prop :=
  (n = 0 /\ k = 1) \/ (0 < k /\ 10 ^ (k - 1) <= n < 10 ^ k).
(** the [i]-th decimal digit of [n], from the left, of [k]; 0 outside *)
Definition decimal_digit (n k i : Z) : Z :=
  if (1 <=? i) && (i <=? k) then (n / 10 ^ (k - i)) mod 10 else 0.

(** the leaves of a nested structure, from left to right *)
Inductive leaves : obj -> list obj -> Prop :=
| leaves_iter os Ls : Forall2 leaves os Ls -> leaves (OIter os) (concat Ls)
| leaves_seq l : leaves (OSeq l) (map OV l)
| leaves_labels l : leaves (OSSeq l) (map OV l)
| leaves_value v : leaves (OV v) [OV v]
| leaves_text s : leaves (OStr s) [OStr s]
| leaves_die x : leaves (ORV x) [ORV x]
| leaves_blank b : leaves (OBlank b) [OBlank b]
| leaves_none : leaves ONone [ONone].

(** the plain entries among leaves (text is a label), and the faces of the dice *)
Definition plain_of (o : obj) : list pval :=
  match o with OV v => [v] | OStr s => [VS (s_str s)] | _ => [] end.
Definition faces_of (o : obj) : list pval := match o with ORV x => map fst (rv_dist x) | _ => [] end.
Definition contents (L : list obj) : list pval := flat_map plain_of L ++ flat_map faces_of L.

(** non-zero; labels count as true *)
Definition truthy (v : pval) : bool := match v with VN n => negb (Qeq_bool (numQ n) 0) | VS _ => true end.
(** conjunction and disjunction *)
Definition connect (o : binop) (a b : bool) : bool := match o with OOr => a || b | _ => a && b end.
