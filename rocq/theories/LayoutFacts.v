(** What is printed depends on the tokens of a text only, unless it is blank: proofs. *)
From Coq Require Import String Ascii Bool List Arith Lia.
From Verif Require Import PyBase LexModel LexSpec GramModel ParseModel SynSpec ResolveModel ReadSpec ReadFacts ReportModel ReportFacts ReportLaws
  PlyParseModel RunModel PrintModel PipeModel MainModel PropYacc.
Import ListNotations.
Open Scope list_scope.

Definition same_state (y y' : ystate) : Prop :=
  y_stack y = y_stack y' /\ map fst (y_rest y) = map fst (y_rest y') /\ y_count y = y_count y' /\ map fst (y_errs y) = map fst (y_errs y').
Definition same_outcome (r r' : youtcome) : Prop :=
  match r, r' with
  | YGo y, YGo y' => same_state y y'
  | YReturn v es, YReturn v' es' => v = v' /\ map fst es = map fst es'
  | YRaise e, YRaise e' => e = e'
  | _, _ => False
  end.
Lemma same_turn y y' : same_state y y' -> same_outcome (ystep y) (ystep y').
Proof.
  destruct y as [s ts cnt errs], y' as [s' ts' cnt' errs']. intros (A & B & C & D). cbn in A, B, C, D. subst s' cnt'. unfold ystep. rewrite <- B.
  destruct (action_at (top_state s) (la (map fst ts))) as [[j|p|]|].
  - destruct ts as [|[[t v] pl] ts], ts' as [|[[t' v'] pl'] ts']; try discriminate B; [reflexivity|]. injection B as <- <- B. repeat split; assumption.
  - cbv zeta. destruct (semact _ _) as [v|e]; [|reflexivity]. destruct (assoc_nt _ _) as [j|]; [|reflexivity]. repeat split; assumption.
  - split; [reflexivity|exact D].
  - destruct ts as [|[t pl] ts], ts' as [|[t' pl'] ts']; try discriminate B; [split; [reflexivity|exact D]|].
    cbn [map fst] in B. injection B as <- B. cbv zeta. destruct (unwinds s); [|reflexivity].
    split; [reflexivity|]. split; [exact B|]. split; [reflexivity|]. cbn [y_errs]. destruct (Nat.eqb cnt 0); [|exact D]. rewrite !map_app, D. reflexivity.
Qed.
Lemma same_run f : forall y y', same_state y y' -> same_outcome (yrun f y) (yrun f y').
Proof.
  induction f as [|f IH]; intros y y' S; [reflexivity|]. cbn [yrun]. pose proof (same_turn y y' S) as H.
  destruct (ystep y) as [y1|v es|e], (ystep y') as [y2|v' es'|e']; try contradiction; [exact (IH y1 y2 H)|exact H|exact H].
Qed.
Lemma same_yacc ts ts' : map fst ts = map fst ts' -> same_outcome (yacc ts) (yacc ts').
Proof.
  intros E. unfold yacc. replace (List.length ts') with (List.length ts) by (rewrite <- (map_length fst ts), E; apply map_length).
  apply same_run. repeat split. exact E.
Qed.

(** What becomes of a text: refused, or a program, or an exception. *)
Definition same_kind (c c' : compiled) : Prop :=
  match c, c' with
  | Text t, Text t' => t = t'
  | Raised e, Raised e' => e = e'
  | (Blank | Characters _ | Tokens _), (Blank | Characters _ | Tokens _) => True
  | _, _ => False
  end.
Theorem same_tokens fl src src' : is_blank src = false -> is_blank src' = false -> scan src = scan src' ->
  same_kind (compile_report fl src) (compile_report fl src').
Proof.
  intros B B' E. unfold compile_report. rewrite B, B'.
  destruct (lex_report src) as [|x l] eqn:L.
  - destruct (lex_report src') as [|x l] eqn:L'.
    2:{ rewrite (scan_placed src L), (scan_refused src') in E; [discriminate E|]. rewrite L'. discriminate. }
    rewrite (scan_placed src L), (scan_placed src' L') in E. injection E as E. pose proof (same_yacc _ _ E) as H.
    destruct (yacc (placed_tokens src)) as [y|v es|e], (yacc (placed_tokens src')) as [y'|v' es'|e']; try contradiction; [reflexivity| |exact H].
    destruct H as [<- H]. destruct es as [|e es], es' as [|e' es']; try discriminate H; [|exact Logic.I].
    destruct v as [|nd| |]; try exact Logic.I. destruct (resolve fl nd); reflexivity.
  - destruct (lex_report src') as [|x' l'] eqn:L'; [|exact Logic.I].
    rewrite (scan_placed src' L'), (scan_refused src) in E; [discriminate E|]. rewrite L. discriminate.
Qed.

Section printed.
  Variables (show : Val.sval -> string) (ftext : bool -> Num.num -> string) (square : Num.num -> res Num.num) (fl : flags) (n : nat).
  Lemma kind_prints src src' r : same_kind (compile_report fl src) (compile_report fl src') ->
    prints show ftext square fl n src r -> prints show ftext square fl n src' r.
  Proof.
    intros K H. assert (CW : compiles_with fl src' (compile_report fl src')) by now apply C94_compiler.
    destruct H as [c Hc N|e Hc|t q e u Hc Hq Hu|t q u Hc Hq Hu]; apply C94_compiler in Hc; rewrite Hc in K.
    - apply (prints_refused _ _ _ fl n src' _ CW). destruct c; try contradiction; destruct (compile_report fl src'); try contradiction; exact Logic.I.
    - apply prints_raised. destruct (compile_report fl src'); try contradiction. cbn in K. now subst e.
    - destruct (compile_report fl src'); try contradiction. cbn in K. subst s. exact (prints_failed _ _ _ fl n src' _ _ _ _ CW Hq Hu).
    - destruct (compile_report fl src'); try contradiction. cbn in K. subst s. exact (prints_outputs _ _ _ fl n src' _ _ _ CW Hq Hu).
  Qed.
  Lemma kind_turn src src' w r w' : same_kind (compile_report fl src) (compile_report fl src') ->
    turn show ftext square fl n src w r w' -> turn show ftext square fl n src' w r w'.
  Proof.
    intros K H. assert (CW : compiles_with fl src' (compile_report fl src')) by now apply C94_compiler.
    destruct H as [c Hc N|e Hc|t q e u Hc Hq Hu|t q u Hc Hq Hu]; apply C94_compiler in Hc; rewrite Hc in K.
    - apply (turn_refused _ _ _ fl n src' w _ CW). destruct c; try contradiction; destruct (compile_report fl src'); try contradiction; exact Logic.I.
    - apply turn_raised. destruct (compile_report fl src'); try contradiction. cbn in K. now subst e.
    - destruct (compile_report fl src'); try contradiction. cbn in K. subst s. exact (turn_failed _ _ _ fl n src' w _ _ _ _ CW Hq Hu).
    - destruct (compile_report fl src'); try contradiction. cbn in K. subst s. exact (turn_outputs _ _ _ fl n src' w _ _ _ CW Hq Hu).
  Qed.
  (** texts in a list, one by one *)
  Lemma kinds_main srcs srcs' : Forall2 (fun s s' => same_kind (compile_report fl s) (compile_report fl s')) srcs srcs' ->
    forall w r w', main show ftext square fl n srcs w r w' -> main show ftext square fl n srcs' w r w'.
  Proof.
    induction 1 as [|s s' l l' K F IH]; intros w r w' M; inversion M; subst.
    - constructor.
    - eapply main_next; [eapply kind_turn; eassumption|now apply IH].
    - eapply main_stop. eapply kind_turn; eassumption.
  Qed.
End printed.
Lemma kind_sym c c' : same_kind c c' -> same_kind c' c.
Proof. destruct c, c'; cbn; auto. Qed.
Lemma refused_kind fl src : scan src = None -> match compile_report fl src with Blank | Characters _ | Tokens _ => True | _ => False end.
Proof.
  intros E. unfold compile_report. destruct (is_blank src); [exact Logic.I|]. destruct (lex_report src) as [|x l] eqn:L; [|exact Logic.I].
  rewrite (scan_placed src L) in E. discriminate E.
Qed.
Theorem same_tokens_kind fl src src' : scan src = scan src' -> scan src <> Some [] -> same_kind (compile_report fl src) (compile_report fl src').
Proof.
  intros E N. destruct (scan src) as [ts|] eqn:S.
  - assert (X : forall s, scan s = Some ts -> is_blank s = false).
    { intros s Es. destruct (is_blank s) eqn:B; [|reflexivity]. exfalso. rewrite scan_is in Es.
      destruct (blank_reads_nothing _ s (le_n _) B) as [H|H]; rewrite H in Es; congruence. }
    apply same_tokens; [now apply X|apply X; now symmetry|congruence].
  - pose proof (refused_kind fl src S) as A. pose proof (refused_kind fl src' (eq_sym E)) as A'.
    destruct (compile_report fl src); try contradiction; destruct (compile_report fl src'); try contradiction; exact Logic.I.
Qed.
Lemma same_tokens_main show ftext square fl n srcs srcs' :
  Forall2 (fun s s' => scan s = scan s' /\ scan s <> Some []) srcs srcs' ->
  forall w r w', main show ftext square fl n srcs w r w' <-> main show ftext square fl n srcs' w r w'.
Proof.
  intros F w r w'. split; apply kinds_main.
  - induction F as [|s s' l l' [E N] F IH]; constructor; [now apply same_tokens_kind|exact IH].
  - induction F as [|s s' l l' [E N] F IH]; constructor; [apply kind_sym; now apply same_tokens_kind|exact IH].
Qed.
