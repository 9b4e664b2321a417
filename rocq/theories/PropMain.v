(** C98: several texts in one process. *)
From Coq Require Import String Ascii Bool List ZArith QArith Lia.
From Verif Require Import PyBase Spec Num Val RVModel UtilModel Obj SettingsModel LexModel ParseModel SynSpec NameSpec ResolveModel CompileFacts PySpec PyDet PyTrans PyProgLaws
  Runtime PySem ExecModel MeanSpec RunSpec SemLaws RunModel PrintModel PrintSpec StdFacts PrintFacts FloatSpec FloatFacts
  ReportModel ReportLaws PlyParseModel IdealSpec IdealLaws PipeModel PipeSpec PipeFacts SessSpec MainModel MainSpec MainFacts
  PropIdeal PropRun PropScope PropSession PropYacc PropPipe AltModel.
Import ListNotations.
Open Scope string_scope.
Open Scope Z_scope.
Open Scope list_scope.

(** * C98.  [square], [ftext], [show]: as for C95. *)

(** Texts of which the exact meaning covers all that are accepted: the only thing that
    happens is that the tables of their outputs are printed, in order, with the settings
    as the texts before left them. *)
Theorem C98_printed : forall show ftext square fl n srcs outs, good_square square -> writes_hundredths ftext ->
  fl_check fl = true -> fl_prefix fl = false -> session fl n srcs ideal_start outs ->
  exists ts, (forall r, (exists w, main show ftext square fl n srcs fresh_world r w) <-> r = (ts, Ok Datatypes.tt)) /\
    Forall2 (printed_as 50) outs ts.
Proof.
  intros show ftext square fl n srcs outs SQ FT C P S.
  destruct (main_meant show ftext square SQ FT fl n C P srcs _ outs S _ start_stands) as [ts [w [M F]]].
  exists ts. split; [|exact F]. intros r. split; [intros [w' M']; now destruct (main_det _ _ _ _ _ _ _ _ _ M _ _ M')|intros ->; now exists w].
Qed.
Print Assumptions C98_printed.

(** Texts whose programs set nothing do not influence each other: in any order and number,
    each has the tables printed that it has in a process of its own (C95). *)
Theorem C98_alone : forall show ftext square fl n srcs outss, good_square square -> writes_hundredths ftext ->
  fl_check fl = true -> fl_prefix fl = false -> Forall2 (by_itself fl n) srcs outss ->
  exists tss, (forall r, (exists w, main show ftext square fl n srcs fresh_world r w) <-> r = (concat tss, Ok Datatypes.tt)) /\
    Forall2 (Forall2 (printed_as 50)) outss tss.
Proof.
  intros show ftext square fl n srcs outss SQ FT C P S.
  destruct (main_alone show ftext square SQ FT fl n C P srcs outss S ideal_start fresh_world eq_refl start_stands) as [tss [w [M F]]].
  exists tss. split; [|exact F]. intros r. split; [intros [w' M']; now destruct (main_det _ _ _ _ _ _ _ _ _ M _ _ M')|intros ->; now exists w].
Qed.
Print Assumptions C98_alone.

(** A text alone. *)
Theorem C98_one : forall show ftext square fl n src r,
  (exists w, main show ftext square fl n [src] fresh_world r w) <-> prints show ftext square fl n src r.
Proof. exact main_one. Qed.
Print Assumptions C98_one.

(** At most one thing happens. *)
Theorem C98_determined : forall show ftext square fl n srcs w r1 w1 r2 w2,
  main show ftext square fl n srcs w r1 w1 -> main show ftext square fl n srcs w r2 w2 -> r1 = r2 /\ w1 = w2.
Proof. intros show ftext square fl n srcs w r1 w1 r2 w2 A B. exact (main_det show ftext square fl n srcs w r1 w1 A r2 w2 B). Qed.
Print Assumptions C98_determined.

(** A text that is not accepted has no influence, wherever it is among the others. *)
Theorem C98_refused : forall show ftext square fl n a src b w r w', refused fl src ->
  (main show ftext square fl n (a ++ src :: b) w r w' <-> main show ftext square fl n (a ++ b) w r w').
Proof. intros show ftext square fl n a src b w r w' R. exact (main_leaves_out show ftext square fl n a src b w r w' R). Qed.
Print Assumptions C98_refused.

(** When one fails, what was printed before stays, and of the later ones nothing is printed. *)
Theorem C98_stops : forall show ftext square fl n a b w ts e w1, main show ftext square fl n a w (ts, Err e) w1 ->
  forall r w2, main show ftext square fl n (a ++ b) w r w2 <-> r = (ts, Err e) /\ w2 = w1.
Proof.
  intros show ftext square fl n a b w ts e w1 M r w2. pose proof (main_fails show ftext square fl n a b w ts e w1 M) as X. split.
  - intros Y. destruct (main_det _ _ _ _ _ _ _ _ _ X _ _ Y) as [<- <-]. auto.
  - intros [-> ->]. exact X.
Qed.
Print Assumptions C98_stops.

(** ** Texts *)

(** One that sets something, one that depends on it, one that is not accepted and one
    that fails. *)
Definition low_source : string := "set ""position order"" to ""lowest first"" output 1".
Definition first_source : string := "output 1@2d2 named ""first""".
Definition first_named : program :=
  [ SNamed (EBin OAt (num "1") (EDice (TNum "2") (TNum "2"))) (PAny "first") [] ].
Definition broken_source : string := "output 1 +".

Lemma broken_refused : refused default_flags broken_source.
Proof. exists (compile_report default_flags broken_source). split; [now apply C94_compiler|]. vm_compute. exact Logic.I. Qed.

(** A program without functions and calls. *)
Lemma simple_says src p : wf p = true -> scan src = Some (toks p) -> headers_ok p = true -> (1 <= outputs p)%nat ->
  defs p = [] -> calls p = [] -> keeps default_flags p = true -> results_inside p = true -> tame default_flags p = true ->
  says default_flags src p default_flags.
Proof.
  intros W S H O D K X R T. constructor; try assumption.
  - left. split; [|reflexivity]. intros [h [_ I]]. rewrite D in I. destruct I.
  - split; [exact H|]. split; [exact O|]. rewrite K. intros c [].
Qed.
Lemma low_says : says default_flags low_source setting_program default_flags.
Proof. apply simple_says; vm_compute; reflexivity. Qed.
Lemma first_says : says default_flags first_source first_named default_flags.
Proof. apply simple_says; vm_compute; reflexivity. Qed.

(** their exact outputs, in one process *)
Definition two_low : table := [(1, (3 # 4)%Q); (2, (1 # 4)%Q)].
Definition two_high : table := [(1, (1 # 4)%Q); (2, (3 # 4)%Q)].
Ltac moderate := cbn [iw_outputs];
  repeat (apply Forall_cons; [split; [split; [repeat (apply Forall_cons; [vm_compute; discriminate|]); apply Forall_nil|vm_compute; discriminate]|exact Logic.I]|]);
  apply Forall_nil.
Example C98_session : exists outs,
  session default_flags 3 [first_source; broken_source; low_source; first_source] ideal_start outs /\
  map (fun o => (table_of (fst o), name_of (snd o))) outs =
    [(Some two_high, Some "first"); (Some (sure 1), None); (Some two_low, Some "first")].
Proof.
  eexists. split.
  - eapply session_runs; [exact first_says|vm_compute; reflexivity| |].
    { moderate. }
    apply session_refused; [exact broken_refused|].
    eapply session_runs; [exact low_says|vm_compute; reflexivity| |].
    { moderate. }
    eapply session_runs; [exact first_says|vm_compute; reflexivity| |].
    { moderate. }
    apply session_end.
  - vm_compute. reflexivity.
Qed.
Example C98_sample_alone : exists outs,
  Forall2 (by_itself default_flags 3) [first_source; broken_source; first_source] [outs; []; outs] /\
  map (fun o => (table_of (fst o), name_of (snd o))) outs = [(Some two_high, Some "first")].
Proof.
  eexists. split.
  - constructor; [|constructor; [apply itself_refused; exact broken_refused|constructor; [|constructor]]].
    all: eapply itself_runs; [exact first_says|reflexivity|vm_compute; reflexivity|moderate].
  - vm_compute. reflexivity.
Qed.

(** what happens to a text as a function of the state *)
Definition turn_at (n : nat) (q : list pstmt) (w : world) : option (list string * res unit * world) :=
  match unsafe_exec library n q (next_run w) with
  | Some (Ok _, w') => Some (print_calls (label_text float_str) float_str exact_square (rw_settings w') (rw_outputs w'), w')
  | Some (Err e, w') => Some (([], Err e), w')
  | None => None
  end.
Lemma turn_at_turn src text q n w r w' : compile default_flags src = Ok text -> py_program text q -> turn_at n q w = Some (r, w') ->
  turn (label_text float_str) float_str exact_square default_flags n src w r w'.
Proof.
  unfold turn_at. intros C Q. assert (CW : compiles_with default_flags src (Text text)) by (apply C94_compiler; now apply report_accepted).
  destruct (unsafe_exec library n q (next_run w)) as [[[u|e] w1]|] eqn:E; intros H; try discriminate; injection H as <- <-.
  - destruct u. exact (turn_outputs _ _ _ _ _ _ _ text q w1 CW Q E).
  - exact (turn_failed _ _ _ _ _ _ _ text q e w1 CW Q E).
Qed.
Definition one_report : string :=
  ("1.0 ± 0.0" ++ newline ++ "1: 100.00  █████████████████████████████████████████████████" ++ newline ++
   "----------------------------------------------------------")%string.
Definition first_report (m a ra b rb : string) : string :=
  ("first " ++ m ++ " ± 0.43" ++ newline ++ "1: " ++ a ++ "  " ++ ra ++ newline ++ "2: " ++ b ++ "  " ++ rb ++ newline ++
   "----------------------------------------------------------")%string.
Definition high_report : string := first_report "1.75" "25.00" "████████████" "75.00" "█████████████████████████████████████".
Definition low_report : string := first_report "1.25" "75.00" "█████████████████████████████████████" "25.00" "████████████".

(** A text that sets something changes what is printed for the later ones. *)
Theorem C98_settings_refuted :
  prints (label_text float_str) float_str exact_square default_flags 3 low_source ([one_report], Ok Datatypes.tt) /\
  prints (label_text float_str) float_str exact_square default_flags 3 first_source ([high_report], Ok Datatypes.tt) /\
  exists w, main (label_text float_str) float_str exact_square default_flags 3 [low_source; first_source] fresh_world
    ([one_report; low_report], Ok Datatypes.tt) w.
Proof.
  assert (PL : exists text, compile default_flags low_source = Ok text /\ py_program text (py_prog default_flags setting_program)).
  { eexists. split; [vm_compute; reflexivity|]. apply (reads_in default_flags low_source); vm_compute; reflexivity. }
  assert (PF : exists text, compile default_flags first_source = Ok text /\ py_program text (py_prog default_flags first_named)).
  { eexists. split; [vm_compute; reflexivity|]. apply (reads_in default_flags first_source); vm_compute; reflexivity. }
  destruct PL as [tl [CL QL]]. destruct PF as [tf [CF QF]].
  split; [apply turn_prints; eexists; apply (turn_at_turn _ _ _ _ _ _ _ CL QL); vm_compute; reflexivity|].
  split; [apply turn_prints; eexists; apply (turn_at_turn _ _ _ _ _ _ _ CF QF); vm_compute; reflexivity|].
  eexists. eapply (main_next _ _ _ _ _ _ _ _ [one_report]).
  - apply (turn_at_turn _ _ _ _ _ _ _ CL QL). vm_compute. reflexivity.
  - eapply (main_next _ _ _ _ _ _ _ _ [low_report] _ []); [|constructor].
    apply (turn_at_turn _ _ _ _ _ _ _ CF QF). vm_compute. reflexivity.
Qed.
Print Assumptions C98_settings_refuted.

(** A text that fails. *)
Definition failing_source : string := "output X".
Definition failing_named : program := [SOutput (var "X")].
Example C98_failure : exists w,
  main (label_text float_str) float_str exact_square default_flags 3 [first_source; failing_source] fresh_world ([high_report], Err NameErr) w.
Proof.
  assert (PX : exists text, compile default_flags failing_source = Ok text /\ py_program text (py_prog default_flags failing_named)).
  { eexists. split; [vm_compute; reflexivity|]. apply (reads_in default_flags failing_source); vm_compute; reflexivity. }
  assert (PF : exists text, compile default_flags first_source = Ok text /\ py_program text (py_prog default_flags first_named)).
  { eexists. split; [vm_compute; reflexivity|]. apply (reads_in default_flags first_source); vm_compute; reflexivity. }
  destruct PX as [tx [CX QX]]. destruct PF as [tf [CF QF]].
  eexists. eapply (main_next _ _ _ _ _ _ _ _ [high_report] _ []).
  - apply (turn_at_turn _ _ _ _ _ _ _ CF QF). vm_compute. reflexivity.
  - apply main_stop. apply (turn_at_turn _ _ _ _ _ _ _ CX QX). vm_compute. reflexivity.
Qed.
