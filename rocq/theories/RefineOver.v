(** A runtime that simulates another one, when functions work on copies of variables and
    when programs start with variables. *)
From Coq Require Import String Ascii List ZArith Bool.
From Verif Require Import PyBase LexModel ParseModel SynSpec SynInd NameSpec Runtime MeanSpec ScopeSpec StartSpec RefineFacts.
Import ListNotations.
Open Scope string_scope.
Open Scope list_scope.
Open Scope run_scope.

Section over.
  Context {V1 W1 V2 W2 : Type} (RV : V1 -> V2 -> Prop) (RW : W1 -> W2 -> Prop).
  Variables (rt1 : runtime V1 W1) (rt2 : runtime V2 W2).
  Hypothesis SM : simulates RV RW rt1 rt2.
  Variable oplib : bool.

  Lemma fo_body_over call1 call2 :
    (forall g g' fs d l l', vars_rel RV g g' -> Forall2 RV l l' -> follows RW RV (call1 g fs d l) (call2 g' fs d l')) ->
    forall g g' fs d l l', vars_rel RV g g' -> Forall2 RV l l' ->
    follows RW RV (body_over rt1 oplib call1 g fs d l) (body_over rt2 oplib call2 g' fs d l').
  Proof.
    intros HC g g' fs d l l' G Rl. unfold body_over. pose proof (give_all_rel RV (d_params d) _ _ Rl) as H.
    destruct (give_all (d_params d) l) as [a|], (give_all (d_params d) l') as [b|]; try contradiction; [|apply fo_raise].
    apply (fo_bnd RW (ending_rel RV)).
    - apply (fo_block RV RW).
      + apply Forall_forall. intros s _. exact (proj1 (fo_stmt RV RW rt1 rt2 SM oplib call1 call2 HC) s).
      + split; [apply Forall2_app; [exact H|exact G]|split; [reflexivity|exact Logic.I]].
    - intros [p|v] [q|v'] R; try contradiction; apply fo_ret; [apply (sm_none _ _ _ _ SM)|exact R].
  Qed.
  Lemma fo_call_over n : forall g g' fs d l l', vars_rel RV g g' -> Forall2 RV l l' ->
    follows RW RV (call_over rt1 oplib n g fs d l) (call_over rt2 oplib n g' fs d l').
  Proof.
    induction n as [|n IH]; intros g g' fs d l l' G Rl; [intros w1 w2 a1 w1' _ E; discriminate|].
    cbn [call_over]. apply (fo_bnd RW eq); [apply fo_lift; intros ks E; now exists ks|]. intros ks ? <-.
    apply (sm_call _ _ _ _ SM); [|exact Rl]. intros a a' Ra. exact (fo_body_over _ _ IH _ _ _ _ _ _ G Ra).
  Qed.

  Theorem over_follow : forall lib n p, follows RW eq (mean_over rt1 oplib lib n p) (mean_over rt2 oplib lib n p).
  Proof.
    intros lib n p. unfold mean_over. apply (fo_bnd RW (ending_rel RV)); [|intros; now apply fo_ret].
    apply (fo_block RV RW).
    - apply Forall_forall. intros s _. exact (proj1 (fo_stmt RV RW rt1 rt2 SM oplib _ _ (fo_call_over n)) s).
    - split; [constructor|split; [reflexivity|exact Logic.I]].
  Qed.
  Theorem with_follow : forall lib n gs gs' p, vars_rel RV gs gs' ->
    follows RW eq (mean_with rt1 oplib lib n gs p) (mean_with rt2 oplib lib n gs' p).
  Proof.
    intros lib n gs gs' p G. unfold mean_with. apply (fo_bnd RW (ending_rel RV)); [|intros; now apply fo_ret].
    apply (fo_block RV RW).
    - apply Forall_forall. intros s _. exact (proj1 (fo_stmt RV RW rt1 rt2 SM oplib _ _ (fo_call RV RW rt1 rt2 SM oplib n)) s).
    - split; [exact G|split; [reflexivity|exact Logic.I]].
  Qed.
End over.
