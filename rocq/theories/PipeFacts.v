(** The printed text of the outputs of a program. *)
From Coq Require Import String List ZArith QArith Qabs Bool Lia Lqa.
From Verif Require Import PyBase Num Val RVModel OutModel UtilModel Obj RollModel PrintModel SettingsModel Spec RollSpec PrintSpec FloatSpec
  RVFacts MassFacts RoundFacts ConstructFacts IntFacts UnaryFacts StdFacts PrintFacts FloatFacts RollObjFacts
  RunModel IdealSpec IdealFacts IdealOps IdealVals IdealCast IdealLaws RefineFacts PipeModel PipeSpec.
Import ListNotations.
Open Scope Z_scope.
Open Scope list_scope.

(** ** Averages *)

Lemma average_table (f : pval -> Q) t d : reps t d -> (average f d == on_average (fun z => f (vint z)) t)%Q.
Proof.
  intros R. pose proof (reps_total t d R) as T. apply total_Q in T. unfold average.
  assert (E : (qsum f d == inject_Z (total d) * on_average (fun z => f (vint z)) t)%Q).
  { pose proof (rp_stands t d R) as F. clear R T. revert F. generalize (total d). intros N F.
    induction F as [|[z q] [v w] t' d' [E1 E2] _ IH]; cbn [qsum on_average fold_right fst snd] in *; [ring|].
    unfold on_average in IH. rewrite IH, E2, E1. ring. }
  rewrite E. field. lra.
Qed.
Lemma on_average_ext f g t : (forall z, (f z == g z)%Q) -> (on_average f t == on_average g t)%Q.
Proof.
  intros E. unfold on_average. induction t as [|[z q] t IH]; [reflexivity|]. cbn [fold_right fst snd]. now rewrite IH, E.
Qed.
Lemma mean_table t d : reps t d -> (expectation d == mean_of t)%Q.
Proof. intros R. rewrite expectation_average, (average_table _ t d R). reflexivity. Qed.
Lemma squares_table t d : reps t d -> (mean_square d == squares_of t)%Q.
Proof. intros R. unfold mean_square. rewrite (average_table _ t d R). reflexivity. Qed.
Lemma variance_table t d : reps t d -> (variance d == variance_of t)%Q.
Proof.
  intros R. unfold variance. rewrite (average_table _ t d R). apply on_average_ext. intros z. cbn [toZ vint].
  rewrite (mean_table t d R). reflexivity.
Qed.

(** ** One report *)

Lemma row_comp w b P P' v line : (P == P')%Q -> row w b P v line -> row w b P' v line.
Proof.
  intros E (gap & gap' & pct & n & k & H1 & H2 & H3 & H4 & H5 & H6 & H7). exists gap, gap', pct, n, k.
  rewrite E in H5, H7. tauto.
Qed.

Lemma table_rows show ftext t d width lines : reps t d ->
  report_rows (fun v => shown_text ftext (show_val show v)) d d width lines -> value_rows t width lines.
Proof.
  intros R H. unfold report_rows in H. unfold value_rows. cbv zeta in H |- *.
  pose proof (rp_stands t d R) as F. pose proof (reps_total t d R) as T. apply total_Q in T.
  assert (E : map (fun e => shown_text ftext (show_val show (fst e))) d = map (fun zq : Z * Q => str_of_Z (fst zq)) t).
  { clear -F. induction F as [|[z q] [v w] t' d' [E1 E2] _ IH]; [reflexivity|]. cbn [map fst] in *. rewrite IH, E1. reflexivity. }
  rewrite E in H. revert H. generalize (longest (map (fun zq : Z * Q => str_of_Z (fst zq)) t)). intros w H. clear E R.
  revert T F H. generalize (total d). intros N T F. revert lines.
  induction F as [|[z q] [v p] t' d' [E1 E2] _ IH]; intros lines H.
  { inversion H. constructor. }
  inversion H as [|? line ? ls H1 H2]; subst; constructor; [|now apply IH].
  cbn [fst snd] in *. rewrite E1 in H1. change (shown_text ftext (show_val show (vint z))) with (str_of_Z z) in H1.
  apply (row_comp _ _ (inject_Z p / inject_Z N)); [|exact H1]. rewrite E2. field. lra.
Qed.

Section one.
  Variables (c : cfg) (show : sval -> string) (ftext : bool -> num -> string) (square : num -> res num) (w0 : Z).
  Hypothesis TR : cfg_trunc c = false.
  Hypothesis SQ : good_square square.
  Hypothesis FT : writes_hundredths ftext.

  Lemma dice_report t x named width : reps t (rv_dist x) -> moderate_table t -> 0 <= width <= 2 ^ 53 ->
    exists line lines, report c show ftext square w0 (ORV x) named true (Some width) (NI 0) =
      Ok (heading named ++ line ++ lines_text lines width)%string /\ mean_line t line /\ value_rows t width lines.
  Proof.
    intros R [V L] W. pose proof (reps_proper t _ R) as P. pose proof (reps_int t _ R) as I.
    pose proof (reps_total_le t _ R) as B.
    assert (V' : forall e, In e (rv_dist x) -> Z.abs (toZ (fst e)) <= 10 ^ 12).
    { pose proof (rp_stands t _ R) as F. clear -V F. revert F. generalize (total (rv_dist x)). intros N F.
      induction F as [|[z q] [v w] t' d' [E1 E2] _ IH]; [intros e []|]. inversion V as [|? ? V1 V2]; subst.
      intros e [<-|Ie]; [|now apply IH]. cbn [fst] in *. rewrite E1. exact V1. }
    assert (B' : total (rv_dist x) <= 2 ^ 400) by (apply Z.le_trans with (lcd t); assumption).
    destruct (summary_text c ftext square (rv_dist x) TR SQ FT P I B' V') as (m & n & s & k & tx & E & H1 & H2 & H3 & H4 & H5 & H6).
    destruct (report_text c show ftext square w0 x named width _ P W E) as [lines [ER HR]].
    eexists _, lines. split; [exact ER|]. split; [|exact (table_rows _ _ _ _ _ _ R HR)].
    exists m, n, s, k, tx. split; [reflexivity|]. split; [exact (nearest_comp _ _ _ _ (mean_table t _ R) (Qeq_refl m) H1)|].
    split; [exact H2|]. split; [exact H3|]. split; [|now split].
    rewrite (variance_table t _ R), (squares_table t _ R) in H4. exact H4.
  Qed.

  Lemma output_report v o name : is_val v o -> moderate_output (v, name) ->
    exists text, report c show ftext square w0 o (name_of name) true (Some 50) (NI 0) = Ok text /\ printed_as 50 (v, name) text.
  Proof.
    intros H [M _]. cbn [fst] in M. unfold printed_as. cbn [fst snd]. assert (W : 0 <= 50 <= 2 ^ 53) by (vm_compute; split; discriminate).
    destruct H as [z|s|l|l l' _|t q x [R _]|b|]; cbn [table_of] in *.
    - destruct (const_die_of c TR z) as [x [Ex Rx]].
      destruct (dice_report (sure z) (rv_of x) (name_of name) 50 Rx M W) as [line [lines [E Hl]]].
      exists (heading (name_of name) ++ line ++ lines_text lines 50)%string. split; [|now exists line, lines].
      rewrite <- E.
      transitivity (x <- from_const c (vint z) ;; report c show ftext square w0 (ORV x) (name_of name) true (Some 50) (NI 0)); [reflexivity|].
      rewrite Ex. reflexivity.
    - destruct M.
    - destruct l as [|z l].
      + eexists. split; [|reflexivity]. apply report_nothing. right. left. reflexivity.
      + pose proof (fair_reps c (z :: l) ltac:(discriminate)) as R.
        destruct (dice_report (fair (z :: l)) (rv_of (normal c (RollSpec.fair (map vint (z :: l))))) (name_of name) 50 R M W) as [line [lines [E Hl]]].
        exists (heading (name_of name) ++ line ++ lines_text lines 50)%string. split; [|now exists line, lines].
        rewrite <- E. transitivity (x <- from_seq c (map vint (z :: l)) ;; report c show ftext square w0 (ORV x) (name_of name) true (Some 50) (NI 0)).
        * unfold report. cbn [map get_rv]. reflexivity.
        * rewrite (from_seq_normal c (map vint (z :: l)) TR) by discriminate. reflexivity.
    - destruct M.
    - destruct (dice_report t x (name_of name) 50 R M W) as [line [lines [E Hl]]].
      exists (heading (name_of name) ++ line ++ lines_text lines 50)%string. split; [exact E|now exists line, lines].
    - eexists. split; [|reflexivity]. apply report_nothing. right. right. right. now exists b.
    - eexists. split; [|reflexivity]. apply report_nothing. now left.
  Qed.
End one.

(** ** All of them *)

Theorem outputs_printed show ftext square w w' : good_square square -> writes_hundredths ftext -> stands_for w w' ->
  Forall moderate_output (iw_outputs w) ->
  exists ts, print_calls show ftext square (rw_settings w') (rw_outputs w') = (ts, Ok Datatypes.tt) /\
    Forall2 (printed_as 50) (iw_outputs w) ts.
Proof.
  intros SQ FT S M. pose proof (sf_usable _ _ S) as [_ [c [Ec [TR _]]]]. pose proof (sf_outputs _ _ S) as F.
  induction F as [|[v name] [o name'] outs outs' [H1 H2] _ IH]; [exists []; split; [reflexivity|constructor]|].
  inversion M as [|? ? M1 M2]; subst. destruct (IH M2) as [ts [E Fts]].
  destruct (output_report c show ftext square (cfg_width c) TR SQ FT v o name H1 M1) as [text [Er Hp]].
  exists (text :: ts). split; [|now constructor]. cbn [print_calls].
  assert (Ec' : print_call show ftext square (rw_settings w') (o, name') = Ok text).
  { unfold print_call. rewrite Ec. cbn [fst snd] in *. destruct M1 as [_ M1]. cbn [snd] in M1. unfold opt_rel in H2.
    destruct name as [i|], name' as [y|]; try contradiction; [|exact Er].
    destruct i; try contradiction. inversion H2; subst. exact Er. }
  rewrite Ec', E. reflexivity.
Qed.
