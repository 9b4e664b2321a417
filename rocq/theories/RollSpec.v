(** Vocabulary for the statements about rolls: histories of calls and integer
    arguments. *)
From Coq Require Import String List ZArith Bool.
From Verif Require Import PyBase Num Val RVModel Obj RollModel Spec.
Import ListNotations.
Open Scope Z_scope.

(** the table of known rolls after some calls of roll in a fresh interpreter *)
Definition call : Type := obj * option obj.
Fixpoint after_from (c : cfg) (calls : list call) (m : memo) : memo :=
  match calls with
  | [] => m
  | (n, d) :: calls' => after_from c calls' (snd (roll c n d m))
  end.
Definition after (c : cfg) (calls : list call) : memo := after_from c calls [].

(** the outcome of a call, made after some others *)
Definition roll_after (c : cfg) (calls : list call) (n : obj) (d : option obj) : res obj :=
  fst (roll c n d (after c calls)).

(** dice whose faces are all integers (nested iterables included) *)
Fixpoint int_obj (o : obj) : bool :=
  match o with
  | OV v => v_is_int v
  | OSeq l | OSSeq l => forallb v_is_int l
  | OIter l => forallb int_obj l
  | ORV x => forallb (fun vp => v_is_int (fst vp)) (rv_dist x)
  | OBlank _ => true
  | OStr _ | ONone => false
  end.
Definition int_call (nd : call) : Prop :=
  match nd with
  | (OStr _, _) => True
  | (n, None) => int_obj n = true
  | (_, Some d) => int_obj d = true
  end.

(** the fair die with faces lo, lo+1, ..., hi *)
Definition uniform (lo hi : Z) : dist :=
  map (fun i => (vint (lo + Z.of_nat i), 1)) (seq 0 (Z.to_nat (hi - lo + 1))).

(** the die an integer stands for: 1..m, m..-1 or the constant 0 *)
Definition int_die (m : Z) : dist :=
  if 0 <? m then uniform 1 m else if m =? 0 then [(vint 0, 1)] else uniform m (-1).

(** every entry equally likely *)
Definition fair (l : list pval) : dist := map (fun v => (v, 1)) l.

(** the sum of the entries at some positions, counted from the highest *)
Definition picked (S : list Z) (t : list pval) : pval :=
  vint (sumZ (map (fun i => toZ (entry i (descending t))) S)).
(** the positions 1, 2, ..., n *)
Definition one_to (n : Z) : list Z := map Z.of_nat (seq 1 (Z.to_nat n)).
