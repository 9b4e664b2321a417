(** Specification vocabulary for the function library. *)
From Coq Require Import String List ZArith QArith Bool.
From Verif Require Import PyBase Num Val RVModel Obj RollModel RollSpec CastModel Spec SeqSpec RVFacts.
Import ListNotations.
Open Scope Z_scope.

Definition integers (l : list pval) : Prop := Forall (fun v => v_is_int v = true) l.

(** [num_law o D]: the number a parameter of kind number stands for, given [o],
    follows [D] *)
Inductive num_law : obj -> dist -> Prop :=
| num_law_number n : num_law (OV (VN n)) [(VN n, 1)]
| num_law_die x : proper (rv_dist x) -> numbers (vals (rv_dist x)) -> num_law (ORV x) (rv_dist x).

(** [seq_law o D]: the sequence a parameter of kind sequence stands for, given
    [o], follows [D]; dice are rolled and sorted *)
Inductive seq_law : obj -> list (list pval * Z) -> Prop :=
| seq_law_seq l : numbers l -> seq_law (OSeq l) [(l, 1)]
| seq_law_int z : seq_law (oint z) [([vint z], 1)]
| seq_law_dice x : proper (rv_die x) -> strict (rv_die x) -> numbers (vals (rv_die x)) -> 0 <= rv_roll x ->
    seq_law (ORV x) (image descending (tuples (Z.to_nat (rv_roll x)) (rv_die x))).

Definition is_die (o : obj) : bool := match o with ORV _ => true | _ => false end.

(** how often two sequences agree: pairs of equal entries *)
Definition equal_pairs (vs s : list pval) : Z :=
  how_many (fun vw => Qeq_bool (vq (fst vw)) (vq (snd vw))) (list_prod vs s).
Definition occurs (x : pval) (l : list pval) : bool := existsb (fun v => Qeq_bool (vq v) (vq x)) l.

Definition larger (a b : pval) : pval := if Qle_bool (vq a) (vq b) then b else a.
Definition smaller (a b : pval) : pval := if Qle_bool (vq b) (vq a) then b else a.

(** [pool c n x r]: [r] is the roll of [n] dice [x], made after any other rolls
    of integer dice; one die is itself *)
Definition pool (c : cfg) (n : Z) (x r : rv) : Prop :=
  (2 <= n /\ exists calls, Forall int_call calls /\ roll_after c calls (oint n) (Some (ORV x)) = Ok (ORV r)) \/
  (n = 1 /\ r = x /\ rv_roll x = 1 /\ rv_src x = None).

(** the k largest, the k smallest and the k middle entries, the larger ones when
    the middle is not exact *)
Definition top (k : Z) (t : list pval) : list pval := firstn (Z.to_nat k) (descending t).
Definition bottom (k : Z) (t : list pval) : list pval := firstn (Z.to_nat k) (ascending t).
Definition middle (k : Z) (t : list pval) : list pval :=
  firstn (Z.to_nat k) (skipn (Z.to_nat ((Z.of_nat (length t) - k) / 2)) (descending t)).

(** the total of an exploding roll, given the faces in the order they are rolled:
    go on after each maximum *)
Fixpoint exploded (mx : Z) (t : list pval) : Z :=
  match t with
  | [] => 0
  | v :: t' => toZ v + (if toZ v =? mx then exploded mx t' else 0)
  end.

(** a roll that may be repeated once: the first, then the second *)
Definition rerolled (m : Z) (ab : pval * pval) : pval := if toZ (fst ab) <=? m then snd ab else fst ab.
