(** C96: the functions that compare values as a whole.  C97: dice in lists and
    dictionaries. *)
From Coq Require Import String List ZArith QArith Bool Lia.
From Verif Require Import PyBase Num Val RVModel Obj RollSpec SeqSpec Spec RVFacts ConstructFacts SeqFacts EqModel EqSpec EqFacts.
Import ListNotations.
Open Scope Z_scope.

(** ** C96 *)

(** Numbers, texts, lists, sequences and dice in any mixture: the answer is whether the
    two stand for the same law. *)
Theorem C96_dices : forall c a b x y, cfg_trunc c = false -> law_of a x -> law_of b y ->
  exists r, dices_are_equal c a b = Ok r /\ (r = true <-> same_law x y).
Proof. exact dices_equal_any. Qed.
Print Assumptions C96_dices.

(** A blank equals blanks and nothing else. *)
Theorem C96_blanks : forall c s o,
  dices_are_equal c (OBlank s) o = Ok (match o with OBlank _ => true | _ => false end) /\
  dices_are_equal c o (OBlank s) = Ok (match o with OBlank _ => true | _ => false end).
Proof.
  intros c s o. split.
  - rewrite dices_equal_blank by (left; reflexivity). destruct o; reflexivity.
  - rewrite dices_equal_blank by (right; reflexivity). destruct o; reflexivity.
Qed.
Print Assumptions C96_blanks.

(** None and labels taken out of dice are refused. *)
Theorem C96_refused : forall c a b y, cfg_trunc c = false -> law_of b y -> a = ONone \/ (exists s, a = OV (VS s)) ->
  dices_are_equal c a b = Err AttrErr /\ dices_are_equal c b a = Err AttrErr.
Proof.
  intros c a b y Ht B H. destruct (to_die_law c b y Ht B) as (q & Eb & _).
  assert (Nb : is_blank_rv b = false) by (destruct B as [? ? ?|o L Pl ? ?]; [reflexivity|]; destruct o; try destruct Pl; reflexivity).
  unfold dices_are_equal. destruct H as [-> | [s ->]]; cbn [is_blank_rv]; rewrite Nb; cbn [orb to_die bind]; rewrite Eb; split; reflexivity.
Qed.
Print Assumptions C96_refused.

(** seqs_are_equal compares the entries of two numbers, lists or sequences in order;
    dice are refused. *)
Theorem C96_sequences : forall a b L M, is_meta_rv a = false -> is_meta_rv b = false -> leaves a L -> leaves b M ->
  Forall number_like L -> Forall number_like M ->
  exists r, seqs_are_equal a b = Ok r /\ (r = true <-> Forall2 same_entry (contents L) (contents M)).
Proof. exact seqs_equal_any. Qed.
Print Assumptions C96_sequences.

Theorem C96_no_dice : forall a b, is_meta_rv a = true \/ is_meta_rv b = true -> seqs_are_equal a b = Err AssertErr.
Proof. exact seqs_equal_dice. Qed.
Print Assumptions C96_no_dice.

(** a die against a nested list of its faces; 2 against [2.0]; the order of entries *)
Definition two_sided : rv := rv_of [(vint 1, 1); (vint 2, 1)].
Definition nested : obj := OIter [OIter [oint 2; oint 1]; OSeq [vint 2; vint 1]].
Example C96_example :
  law_of (ORV two_sided) (rv_dist two_sided) /\ law_of nested (fair [vint 2; vint 1; vint 2; vint 1]) /\
  dices_are_equal default_cfg (ORV two_sided) nested = Ok true /\
  dices_are_equal default_cfg (oint 2) (OIter [OV (VN (NF 1 1))]) = Ok true /\
  dices_are_equal default_cfg (OIter []) (oint 0) = Ok true /\
  dices_are_equal default_cfg (oint 1) nested = Ok false /\
  seqs_are_equal (OIter [oint 2; OIter [oint 1]]) (OSeq [VN (NF 1 1); vint 1]) = Ok true /\
  seqs_are_equal (OIter [oint 1; oint 2]) (OSeq [vint 2; vint 1]) = Ok false.
Proof.
  split. { constructor; [|repeat constructor; cbn; lia]. split; [split; [discriminate|split; repeat constructor; cbn; lia]|left; reflexivity]. }
  split.
  { apply (law_of_plain nested (map OV [vint 2; vint 1; vint 2; vint 1])); [exact Logic.I|exact (leaves_flat nested)|].
    cbn. intros [H|[H|[H|[H|[]]]]]; discriminate. }
  repeat split; vm_compute; reflexivity.
Qed.

(** ** C97.  Hashes are any function that gives equal numbers equal hashes. *)

(** Equal dice have equal hashes. *)
Theorem C97_hash : forall hash hash_tuple x y,
  (forall a b, (numQ a == numQ b)%Q -> hash (VN a) = hash (VN b)) ->
  all_numbers (vals x) -> all_numbers (vals y) -> dists_equal x y = true -> rv_hash hash hash_tuple x = rv_hash hash hash_tuple y.
Proof.
  intros h ht x y H A B E. apply (equal_hash h ht x y); try assumption.
  intros [a|a] [b|b] Na Nb K; try discriminate. apply H. apply NumFacts.veqb_Q. exact K.
Qed.
Print Assumptions C97_hash.

(** But a die is found as a key only when it is the same object: with another object of
    the same hash the lookup raises, and so does any search in a list. *)
Theorem C97_keys : forall hash hash_tuple c x y,
  has_key hash hash_tuple c true x y = Ok true /\
  (rv_hash hash hash_tuple (rv_dist x) <> rv_hash hash hash_tuple (rv_dist y) -> has_key hash hash_tuple c false x y = Ok false) /\
  (rv_hash hash hash_tuple (rv_dist x) = rv_hash hash hash_tuple (rv_dist y) -> exists e, has_key hash hash_tuple c false x y = Err e).
Proof. exact key_cases. Qed.
Print Assumptions C97_keys.

Theorem C97_lists : forall c x y, in_list c true x y = Ok true /\ exists e, in_list c false x y = Err e.
Proof. intros c x y. split; [reflexivity|]. exact (eq_raises c x y). Qed.
Print Assumptions C97_lists.

Theorem C97_found_refuted : forall hash hash_tuple c, (forall a b, (numQ a == numQ b)%Q -> hash (VN a) = hash (VN b)) ->
  ~ (forall x y, all_numbers (vals (rv_dist x)) -> all_numbers (vals (rv_dist y)) -> dists_equal (rv_dist x) (rv_dist y) = true ->
       has_key hash hash_tuple c false x y = Ok true).
Proof.
  intros h ht c Hh H.
  assert (N : all_numbers (vals (rv_dist two_sided))) by (repeat (apply Forall_cons || apply Forall_nil); eexists; reflexivity).
  destruct (key_cases h ht c two_sided two_sided) as (_ & _ & K). destruct (K eq_refl) as (e & E).
  rewrite (H _ _ N N eq_refl) in E. discriminate.
Qed.
Print Assumptions C97_found_refuted.

Example C97_example :
  has_key (fun v => match v with VN a => Qnum (Qreduction.Qred (numQ a)) | VS _ => 0 end) (fold_right (fun a b => a + 1000003 * b) 0) default_cfg false two_sided two_sided = Err TypeErr.
Proof. vm_compute. reflexivity. Qed.
