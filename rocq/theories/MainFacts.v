(** Proofs about several texts in one process. *)
From Coq Require Import String Ascii Bool List ZArith QArith Lia.
From Verif Require Import PyBase Num Val RVModel Obj SettingsModel LexModel ParseModel SynSpec NameSpec ResolveModel PySpec PyDet PyTrans PyProgLaws
  Runtime PySem ExecModel MeanSpec RunSpec SemLaws RunModel PrintModel PrintFacts FloatSpec FloatFacts StdFacts RefineFacts
  ReportModel ReportLaws PlyParseModel IdealSpec IdealVals IdealLaws PipeModel PipeSpec PipeFacts SessSpec QuietFacts SessFacts MainModel MainSpec PrintSpec PropYacc.
Import ListNotations.
Open Scope Z_scope.
Open Scope list_scope.

(** ** What happens is determined *)

Section Determined.
  Variables (show : Val.sval -> string) (ftext : bool -> num -> string) (square : num -> res num).
  Variables (fl : flags) (n : nat).
  Notation turn := (turn show ftext square fl n).
  Notation main := (main show ftext square fl n).

  Lemma turn_det src w r1 w1 r2 w2 : turn src w r1 w1 -> turn src w r2 w2 -> r1 = r2 /\ w1 = w2.
  Proof.
    intros H1 H2.
    destruct H1 as [c1 C1 N1|e1 C1|t1 q1 e1 u1 C1 Q1 E1|t1 q1 u1 C1 Q1 E1];
      destruct H2 as [c2 C2 N2|e2 C2|t2 q2 e2 u2 C2 Q2 E2|t2 q2 u2 C2 Q2 E2];
      apply C94_compiler in C1, C2; rewrite C1 in C2;
      try (split; reflexivity); try (rewrite C2 in N1; destruct N1); try (rewrite <- C2 in N2; destruct N2); try discriminate.
    - injection C2 as <-. split; reflexivity.
    - injection C2 as <-. rewrite (py_program_det _ _ _ Q2 Q1), E1 in E2. injection E2 as <- <-. split; reflexivity.
    - injection C2 as <-. rewrite (py_program_det _ _ _ Q2 Q1), E1 in E2. discriminate E2.
    - injection C2 as <-. rewrite (py_program_det _ _ _ Q2 Q1), E1 in E2. discriminate E2.
    - injection C2 as <-. rewrite (py_program_det _ _ _ Q2 Q1), E1 in E2. injection E2 as <-. split; reflexivity.
  Qed.
  Lemma main_det srcs w r1 w1 : main srcs w r1 w1 -> forall r2 w2, main srcs w r2 w2 -> r1 = r2 /\ w1 = w2.
  Proof.
    intros H. induction H as [w|src srcs w ts w1 ts' r w2 T _ IH|src srcs w ts e w1 T]; intros r2 w3 H2; inversion H2; subst.
    - auto.
    - match goal with X : MainModel.turn _ _ _ _ _ _ _ (_, Ok _) _ |- _ => destruct (turn_det _ _ _ _ _ _ T X) as [E ->]; injection E as -> end.
      match goal with X : MainModel.main _ _ _ _ _ srcs _ _ _ |- _ => destruct (IH _ _ X) as [E' ->]; injection E' as -> -> end. auto.
    - match goal with X : MainModel.turn _ _ _ _ _ _ _ (_, Err _) _ |- _ => destruct (turn_det _ _ _ _ _ _ T X) as [E _]; discriminate E end.
    - match goal with X : MainModel.turn _ _ _ _ _ _ _ (_, Ok _) _ |- _ => destruct (turn_det _ _ _ _ _ _ T X) as [E _]; discriminate E end.
    - match goal with X : MainModel.turn _ _ _ _ _ _ _ (_, Err _) _ |- _ => destruct (turn_det _ _ _ _ _ _ T X) as [E ->]; injection E as -> -> end. auto.
  Qed.

  (** a failure ends it; otherwise it goes on where it was *)
  Lemma main_fails a b w ts e w1 : main a w (ts, Err e) w1 -> main (a ++ b) w (ts, Err e) w1.
  Proof.
    revert w ts. induction a as [|src a IH]; intros w ts H; inversion H; subst.
    - cbn [app]. eapply main_next; [eassumption|]. now apply IH.
    - cbn [app]. eapply main_stop. eassumption.
  Qed.
  Lemma main_goes_on a b w ts w1 ts' r w2 : main a w (ts, Ok Datatypes.tt) w1 -> main b w1 (ts', r) w2 -> main (a ++ b) w (ts ++ ts', r) w2.
  Proof.
    revert w ts. induction a as [|src a IH]; intros w ts H B; inversion H; subst.
    - exact B.
    - cbn [app]. rewrite <- app_assoc. eapply main_next; [eassumption|]. now apply IH.
  Qed.

  Lemma main_parts a b w r w2 : main (a ++ b) w r w2 <->
    (exists ts w1 ts' r', main a w (ts, Ok Datatypes.tt) w1 /\ main b w1 (ts', r') w2 /\ r = (ts ++ ts', r')) \/
    (exists ts e, main a w (ts, Err e) w2 /\ r = (ts, Err e)).
  Proof.
    split.
    - revert w r. induction a as [|src a IH]; intros w r H.
      + left. destruct r as [ts' r']. exists [], w, ts', r'. split; [constructor|]. split; [exact H|reflexivity].
      + cbn [app] in H. inversion H as [|? ? ? ts w1 ts' r' ? T M|? ? ? ts e w1 T]; subst.
        * destruct (IH _ _ M) as [(ts1 & w3 & ts2 & r2 & M1 & M2 & E)|(ts1 & e & M1 & E)]; injection E as -> ->.
          -- left. exists (ts ++ ts1), w3, ts2, r2. split; [exact (main_next _ _ _ _ _ _ _ _ _ _ _ _ _ T M1)|]. split; [exact M2|]. now rewrite app_assoc.
          -- right. exists (ts ++ ts1), e. split; [exact (main_next _ _ _ _ _ _ _ _ _ _ _ _ _ T M1)|reflexivity].
        * right. exists ts, e. split; [exact (main_stop _ _ _ _ _ _ _ _ _ _ _ T)|reflexivity].
    - intros [(ts & w1 & ts' & r' & A & B & ->)|(ts & e & A & ->)]; [exact (main_goes_on _ _ _ _ _ _ _ _ A B)|exact (main_fails _ _ _ _ _ _ A)].
  Qed.

  (** a text that is not accepted *)
  Lemma turn_refuses src w : refused fl src -> turn src w ([], Ok Datatypes.tt) w.
  Proof. intros [c [H N]]. now apply (turn_refused _ _ _ _ _ _ _ c). Qed.
  Lemma main_skips src b w r w2 : refused fl src -> (main (src :: b) w r w2 <-> main b w r w2).
  Proof.
    intros R. split.
    - intros H. inversion H as [|? ? ? ts w1 ts' r' ? T M|? ? ? ts e w1 T]; subst;
        destruct (turn_det _ _ _ _ _ _ (turn_refuses src w R) T) as [E <-]; [|discriminate E].
      injection E as <-. exact M.
    - intros H. destruct r as [ts r]. exact (main_next _ _ _ _ _ _ _ _ [] w ts r _ (turn_refuses src w R) H).
  Qed.
  Lemma main_leaves_out a src b w r w2 : refused fl src -> (main (a ++ src :: b) w r w2 <-> main (a ++ b) w r w2).
  Proof.
    intros R. rewrite !main_parts. split; (intros [(ts & w1 & ts' & r' & A & B & ->)|X]; [left|now right]);
      exists ts, w1, ts', r'; (split; [exact A|]); (split; [|reflexivity]); now apply (main_skips src b w1 _ _ R).
  Qed.

  (** in a new process *)
  Lemma turn_prints src r : prints show ftext square fl n src r <-> exists w, turn src fresh_world r w.
  Proof.
    split.
    - intros [c C N|e C|t q e w C Q E|t q w C Q E]; eexists.
      + now apply (turn_refused _ _ _ _ _ _ _ c).
      + now apply turn_raised.
      + now apply (turn_failed _ _ _ _ _ _ _ t q e w).
      + now apply (turn_outputs _ _ _ _ _ _ _ t q w).
    - intros [w [c C N|e C|t q e w' C Q E|t q w' C Q E]].
      + now apply (prints_refused _ _ _ _ _ _ c).
      + now apply prints_raised.
      + now apply (prints_failed _ _ _ _ _ _ t q e w').
      + now apply (prints_outputs _ _ _ _ _ _ t q w').
  Qed.
  Lemma main_one src r : (exists w, main [src] fresh_world r w) <-> prints show ftext square fl n src r.
  Proof.
    rewrite turn_prints. split.
    - intros [w H]. inversion H as [|? ? ? ts w1 ts' r' ? T M|? ? ? ts e w1 T]; subst; [|now exists w].
      inversion M; subst. rewrite app_nil_r. now exists w.
    - intros [w T]. destruct r as [ts [[]|e]].
      + exists w. rewrite <- (app_nil_r ts). apply (main_next _ _ _ _ _ _ _ _ ts w []); [exact T|constructor].
      + exists w. now apply main_stop.
  Qed.
End Determined.

(** ** Exact meanings *)

Section Meant.
  Variables (show : Val.sval -> string) (ftext : bool -> num -> string) (square : num -> res num).
  Hypothesis SQ : good_square square.
  Hypothesis FT : writes_hundredths ftext.
  Variables (fl : flags) (n : nat).
  Hypothesis C : fl_check fl = true.
  Hypothesis P : fl_prefix fl = false.
  Notation turn := (turn show ftext square fl n).
  Notation main := (main show ftext square fl n).

  Lemma turn_meant src p fl' w w' w1 : says fl src p fl' -> meaning fl fl' n p (ideal_next w) = Some (Ok Datatypes.tt, w1) ->
    Forall moderate_output (iw_outputs w1) -> stands_for w w' ->
    exists ts w1', turn src w' (ts, Ok Datatypes.tt) w1' /\ Forall2 (printed_as 50) (iw_outputs w1) ts /\ stands_for w1 w1'.
  Proof.
    intros [Wp Sc St A K R T] E M S.
    destruct (written_runs fl src p fl' C P Wp Sc St A) as [text [Et X]]. destruct (X K R T) as [[q Q] Y].
    destruct (programs_follow is_val stands_for ideal library ideal_library (fl_oplib fl) (negb (fl_prefix fl')) n p
                _ _ _ _ (next_stands _ _ S) E) as [u [w1' [E' [_ S']]]]. destruct u.
    destruct (outputs_printed show ftext square w1 w1' SQ FT S' M) as [ts [Ep F]].
    exists ts, w1'. split; [|auto]. rewrite <- Ep. apply (turn_outputs _ _ _ _ _ _ _ text q w1').
    - apply C94_compiler. now apply report_accepted.
    - exact Q.
    - rewrite (Y q Q). exact E'.
  Qed.

  Lemma main_meant srcs w outs : session fl n srcs w outs -> forall w', stands_for w w' ->
    exists ts w1', main srcs w' (ts, Ok Datatypes.tt) w1' /\ Forall2 (printed_as 50) outs ts.
  Proof.
    intros H. induction H as [w|src srcs w outs RF _ IH|src srcs w p fl' w1 outs SY E M _ IH]; intros w' S.
    - exists [], w'. split; [constructor|constructor].
    - destruct (IH w' S) as [ts [w1' [H F]]]. exists ts, w1'. split; [|exact F].
      apply (main_next _ _ _ _ _ src srcs w' [] w' ts); [now apply turn_refuses|exact H].
    - destruct (turn_meant src p fl' w w' w1 SY E M S) as [ts [w1' [T [F S1]]]].
      destruct (IH w1' S1) as [ts' [w2' [H F']]]. exists (ts ++ ts'), w2'. split; [|now apply Forall2_app].
      exact (main_next _ _ _ _ _ src srcs w' ts w1' ts' _ w2' T H).
  Qed.

  (** ** Programs that set nothing *)

  Lemma meaning_keeps fl' p w : sets_nothing p = true -> meaning fl fl' n p ideal_start = Some (Ok Datatypes.tt, w) -> ideal_next w = ideal_start.
  Proof.
    intros S E. pose proof (quiet_program ideal _ _ (at_fails 10 2 true) (ideal_calm 10 2 true) _ _ n _ S 0%Z ideal_start (Ok Datatypes.tt) w
          (conj eq_refl (conj eq_refl (conj eq_refl eq_refl))) E) as A.
    destruct A as (A1 & A2 & A3 & A4). unfold ideal_next. rewrite A1, A2, A3, A4. reflexivity.
  Qed.

  Lemma main_alone srcs outss : Forall2 (by_itself fl n) srcs outss -> forall w w', ideal_next w = ideal_start -> stands_for w w' ->
    exists tss w1', main srcs w' (concat tss, Ok Datatypes.tt) w1' /\ Forall2 (Forall2 (printed_as 50)) outss tss.
  Proof.
    intros H. induction H as [|src outs srcs outss B _ IH]; intros w w' N S.
    - exists [], w'. split; constructor.
    - destruct B as [src RF|src p fl' w1 SY SN E M].
      + destruct (IH w w' N S) as [tss [w1' [H F]]]. exists ([] :: tss), w1'. split; [|now constructor].
        apply (main_next _ _ _ _ _ src srcs w' [] w' (concat tss)); [now apply turn_refuses|exact H].
      + pose proof (meaning_keeps fl' p w1 SN E) as N1. rewrite <- N in E.
        destruct (turn_meant src p fl' w w' w1 SY E M S) as [ts [w1' [T [F S1]]]].
        destruct (IH w1 w1' N1 S1) as [tss [w2' [H F']]]. exists (ts :: tss), w2'. split; [|now constructor].
        exact (main_next _ _ _ _ _ src srcs w' ts w1' _ _ w2' T H).
  Qed.
End Meant.
