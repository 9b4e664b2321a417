(** Texts of programs that mean the same print the same. *)
From Coq Require Import String Bool List Permutation.
From Verif Require Import PyBase Num Val RVModel Obj LexModel ParseModel SynSpec SynInd NameSpec ResolveModel PySpec PyDet PyTrans PyProgLaws
  Runtime PySem ExecModel MeanSpec RunSpec SemLaws RunModel PrintModel ReportModel ReportLaws PlyParseModel PipeModel SessSpec
  MainModel MainSpec PropYacc SameSpec SameFacts.
Import ListNotations.
Open Scope list_scope.

Section texts.
  Variables (show : Val.sval -> string) (ftext : bool -> num -> string) (square : num -> res num).
  Variables (fl : flags) (n : nat).
  Hypotheses (C : fl_check fl = true) (P : fl_prefix fl = false).

  Lemma says_runs src p fl' : says fl src p fl' -> exists text q, compiles_with fl src (Text text) /\ py_program text q /\
    forall w, unsafe_exec library n q w = mean_program library (fl_oplib fl) (negb (fl_prefix fl')) n p w.
  Proof.
    intros [Wf Sc St A K R T]. destruct (written_runs fl src p fl' C P Wf Sc St A) as (text & E & H). destruct (H K R T) as ((q & Q) & X).
    exists text, q. split; [apply C94_compiler; now apply report_accepted|]. split; [exact Q|]. intros w. exact (X q Q obj world library n w).
  Qed.

  Lemma same_turns src src' p p' fl' : says fl src p fl' -> says fl src' p' fl' ->
    (forall w, mean_program library (fl_oplib fl) (negb (fl_prefix fl')) n p' w = mean_program library (fl_oplib fl) (negb (fl_prefix fl')) n p w) ->
    forall w r w', turn show ftext square fl n src w r w' -> turn show ftext square fl n src' w r w'.
  Proof.
    intros S S' E w r w' H. destruct (says_runs _ _ _ S) as (text & q & CO & Q & X). destruct (says_runs _ _ _ S') as (text' & q' & CO' & Q' & X').
    assert (EQ : forall w, unsafe_exec library n q' w = unsafe_exec library n q w) by (intros w0; rewrite X, X'; apply E).
    pose proof (proj1 (C94_compiler _ _ _) CO) as CO1.
    destruct H as [c Hc NN|e Hc|t q1 e u Hc Hq Hu|t q1 u Hc Hq Hu]; apply C94_compiler in Hc; rewrite CO1 in Hc.
    - subst c. destruct NN.
    - discriminate.
    - injection Hc as <-. rewrite (py_program_det _ _ _ Hq Q), <- EQ in Hu. exact (turn_failed _ _ _ fl n src' w text' q' e u CO' Q' Hu).
    - injection Hc as <-. rewrite (py_program_det _ _ _ Hq Q), <- EQ in Hu. exact (turn_outputs _ _ _ fl n src' w text' q' u CO' Q' Hu).
  Qed.
  Lemma same_prints src src' p p' fl' : says fl src p fl' -> says fl src' p' fl' ->
    (forall w, mean_program library (fl_oplib fl) (negb (fl_prefix fl')) n p' w = mean_program library (fl_oplib fl) (negb (fl_prefix fl')) n p w) ->
    forall r, prints show ftext square fl n src r -> prints show ftext square fl n src' r.
  Proof.
    intros S S' E r H. destruct (says_runs _ _ _ S) as (text & q & CO & Q & X). destruct (says_runs _ _ _ S') as (text' & q' & CO' & Q' & X').
    assert (EQ : forall w, unsafe_exec library n q' w = unsafe_exec library n q w) by (intros w0; rewrite X, X'; apply E).
    pose proof (proj1 (C94_compiler _ _ _) CO) as CO1.
    destruct H as [c Hc NN|e Hc|t q1 e u Hc Hq Hu|t q1 u Hc Hq Hu]; apply C94_compiler in Hc; rewrite CO1 in Hc.
    - subst c. destruct NN.
    - discriminate.
    - injection Hc as <-. rewrite (py_program_det _ _ _ Hq Q), <- EQ in Hu. exact (prints_failed _ _ _ fl n src' text' q' e u CO' Q' Hu).
    - injection Hc as <-. rewrite (py_program_det _ _ _ Hq Q), <- EQ in Hu. exact (prints_outputs _ _ _ fl n src' text' q' u CO' Q' Hu).
  Qed.

  Definition same_behaviour (src src' : string) : Prop :=
    (forall r, prints show ftext square fl n src r <-> prints show ftext square fl n src' r) /\
    (forall w r w', turn show ftext square fl n src w r w' <-> turn show ftext square fl n src' w r w').
  Theorem same_texts src src' p p' fl' : says fl src p fl' -> says fl src' p' fl' ->
    (forall w, mean_program library (fl_oplib fl) (negb (fl_prefix fl')) n p' w = mean_program library (fl_oplib fl) (negb (fl_prefix fl')) n p w) ->
    same_behaviour src src'.
  Proof.
    intros S S' E. split.
    - intros r. split; [exact (same_prints _ _ _ _ _ S S' E r)|exact (same_prints _ _ _ _ _ S' S (fun w => eq_sym (E w)) r)].
    - intros w r w'. split; [exact (same_turns _ _ _ _ _ S S' E w r w')|exact (same_turns _ _ _ _ _ S' S (fun w => eq_sym (E w)) w r w')].
  Qed.

  Lemma settled_same p p' fl1 fl2 : (takes_helper p <-> takes_helper p') -> settled fl p fl1 -> settled fl p' fl2 -> fl2 = fl1.
  Proof. intros T [[N ->]|[Y ->]] [[N' ->]|[Y' ->]]; try reflexivity; exfalso; tauto. Qed.
End texts.

Lemma defs_renamed name :
  (forall s, defs_s (new_s name (fun _ => false) s) = defs_s s) /\ (forall b, defs_b (new_b name (fun _ => false) b) = defs_b b).
Proof.
  assert (B : forall l, Forall (fun s => defs_s (new_s name (fun _ => false) s) = defs_s s) l ->
    flat_map defs_s (flat_map (fun s => if kept (fun _ => false) s then [new_s name (fun _ => false) s] else []) l) = flat_map defs_s l).
  { induction 1 as [|s l H F IH]; [reflexivity|]. cbn [flat_map]. rewrite kept_all. cbn [app flat_map]. now rewrite H, IH. }
  apply stmt_ind2; try reflexivity.
  - intros h hs body H. transitivity (header_shape (map (new_h name) (h :: hs)) :: flat_map defs_s (flat_map (fun s => if kept (fun _ => false) s then [new_s name (fun _ => false) s] else []) body)); [reflexivity|].
    rewrite header_new, (B body H). reflexivity.
  - intros x e body H. exact (B body H).
  - intros b bs els H K L. change (defs_b (new_b name (fun _ => false) b) ++ flat_map defs_b (map (new_b name (fun _ => false)) bs) ++
      match option_map (flat_map (fun s => if kept (fun _ => false) s then [new_s name (fun _ => false) s] else [])) els with None => [] | Some body => flat_map defs_s body end
      = defs_s (SIf b bs els)).
    rewrite H. cbn [defs_s]. f_equal. f_equal.
    + induction K as [|b1 bs H1 K IH]; [reflexivity|]. cbn [map flat_map]. now rewrite H1, IH.
    + destruct els as [body|]; [exact (B body L)|reflexivity].
  - intros c body H. exact (B body H).
Qed.
Lemma defs_of_renamed name p : defs (renamed name p) = defs p.
Proof.
  unfold renamed, new_program, defs. induction p as [|s p IH]; [reflexivity|]. cbn [flat_map]. rewrite kept_all. cbn [app flat_map].
  now rewrite (proj1 (defs_renamed name)), IH.
Qed.
Lemma defs_of_reordered ds ds' p : Permutation ds ds' -> takes_helper (ds ++ p) <-> takes_helper (ds' ++ p).
Proof.
  intros P. assert (X : Permutation (defs (ds ++ p)) (defs (ds' ++ p))).
  { unfold defs. rewrite !flat_map_app. apply Permutation_app_tail. now apply Permutation_flat_map. }
  split; intros (h & I & J); exists h; (split; [exact I|]); [exact (Permutation_in _ X J)|exact (Permutation_in _ (Permutation_sym X) J)].
Qed.
