(** The sort is a sorted permutation. *)
From Coq Require Import List Bool Permutation Sorted Lia.
From Verif Require Import Sorting.
Import ListNotations.

Section S.
  Context {A : Type} (leb : A -> A -> bool).
  Hypothesis total : forall x y, leb x y = true \/ leb y x = true.
  Hypothesis trans : forall x y z, leb x y = true -> leb y z = true -> leb x z = true.
  Let le x y := leb x y = true.

  Lemma insert_perm x l : Permutation (x :: l) (insert leb x l).
  Proof.
    induction l as [|y l IH]; cbn; [reflexivity|].
    destruct (leb x y); [reflexivity|].
    rewrite perm_swap. constructor. exact IH.
  Qed.

  Lemma isort_perm l : Permutation l (isort leb l).
  Proof.
    induction l as [|x l IH]; cbn; [reflexivity|].
    rewrite <- insert_perm. constructor. exact IH.
  Qed.

  Lemma isort_rev_perm l : Permutation l (isort_rev leb l).
  Proof.
    unfold isort_rev. rewrite <- Permutation_rev, <- isort_perm. apply Permutation_rev.
  Qed.

  Lemma insert_sorted x l : StronglySorted le l -> StronglySorted le (insert leb x l).
  Proof.
    induction l as [|y l IH]; cbn; intro H.
    - constructor; constructor.
    - inversion H as [|? ? Hs Hf]; subst.
      destruct (leb x y) eqn:E.
      + constructor; [exact H|]. constructor; [exact E|].
        eapply Forall_impl; [|exact Hf]. intros z Hz. eapply trans; eauto.
      + constructor; [apply IH, Hs|].
        eapply Permutation_Forall; [apply insert_perm|].
        constructor; [|exact Hf].
        destruct (total x y) as [K|K]; [congruence | exact K].
  Qed.

  Lemma isort_sorted l : StronglySorted le (isort leb l).
  Proof.
    induction l as [|x l IH]; cbn; [constructor|]. apply insert_sorted, IH.
  Qed.
End S.

(** Reversal of a sorted list. *)
Lemma StronglySorted_app {A} (R : A -> A -> Prop) l1 l2 :
  StronglySorted R l1 -> StronglySorted R l2 -> (forall x y, In x l1 -> In y l2 -> R x y) ->
  StronglySorted R (l1 ++ l2).
Proof.
  induction l1 as [|x l1 IH]; cbn; intros H1 H2 H; [exact H2|].
  inversion H1 as [|? ? S1 F1]; subst. constructor.
  - apply IH; auto.
  - apply Forall_app. split; [exact F1|]. apply Forall_forall. intros y Hy. apply H; auto.
Qed.

Lemma StronglySorted_rev {A} (R : A -> A -> Prop) l :
  StronglySorted R l -> StronglySorted (fun x y => R y x) (rev l).
Proof.
  induction l as [|x l IH]; cbn; intro H; [constructor|].
  inversion H as [|? ? S1 F1]; subst.
  apply StronglySorted_app; [apply IH, S1 | constructor; constructor |].
  intros a b Ha [<-|[]]. apply in_rev in Ha. rewrite Forall_forall in F1. apply F1, Ha.
Qed.

Lemma StronglySorted_map {A B} (R : A -> A -> Prop) (R' : B -> B -> Prop) (f : A -> B) l :
  (forall x y, R x y -> R' (f x) (f y)) -> StronglySorted R l -> StronglySorted R' (map f l).
Proof.
  intros H. induction l as [|x l IH]; cbn; intro Hs; [constructor|].
  inversion Hs as [|? ? S1 F1]; subst. constructor; [apply IH, S1|].
  apply Forall_map. eapply Forall_impl; [|exact F1]. cbn. intros; apply H; assumption.
Qed.

Lemma StronglySorted_impl {A} (R R' : A -> A -> Prop) l :
  (forall x y, R x y -> R' x y) -> StronglySorted R l -> StronglySorted R' l.
Proof.
  intros H Hs. rewrite <- (map_id l). eapply StronglySorted_map; [|exact Hs]. exact H.
Qed.

Lemma StronglySorted_filter {A} (R : A -> A -> Prop) (f : A -> bool) l :
  StronglySorted R l -> StronglySorted R (filter f l).
Proof.
  induction l as [|x l IH]; cbn; intro Hs; [constructor|].
  inversion Hs as [|? ? S1 F1]; subst.
  destruct (f x); [|apply IH, S1]. constructor; [apply IH, S1|].
  apply Forall_forall. intros y Hy. apply filter_In in Hy. rewrite Forall_forall in F1. apply F1, Hy.
Qed.
