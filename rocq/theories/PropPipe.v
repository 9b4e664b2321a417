(** C95: from the text of a program to the printed tables. *)
From Coq Require Import String Ascii Bool List ZArith QArith Qabs Lia.
From Verif Require Import PyBase Spec Num Val RVModel UtilModel Obj LexModel LexSpec LexFacts GramModel ParseModel SynSpec ParseSound ParseLaws
  NameSpec ResolveModel ResolveGen CompileFacts PySpec PyDet PyTrans PyReady PyLines PyProg PyCompile PyLaws PyProgLaws
  Runtime PySem ExecModel MeanSpec RunSpec SemLaws RunModel PrintModel PrintSpec StdFacts PrintFacts FloatSpec FloatFacts
  ReportModel ReportLaws PlyParseModel IdealSpec IdealLaws PipeModel PipeSpec PipeFacts PropIdeal PropRun PropYacc AltModel.
Import ListNotations.
Open Scope string_scope.
Open Scope Z_scope.
Open Scope list_scope.

(** * C95.  [square] is [x ** 2] on floats (C85), [ftext] writes floats (C86), [show] labels. *)

(** For a program whose exact meaning is known (C83), the only thing that happens is that
    the tables of its outputs are printed, in order: the name, the mean and standard
    deviation to hundredths, and for every value its exact probability in percent and a bar,
    to the precision of C86. *)
Theorem C95_printed : forall show ftext square fl src text, good_square square -> writes_hundredths ftext ->
  fl_check fl = true -> fl_prefix fl = false -> compiles_with fl src (Text text) ->
  exists p fl', wf p = true /\ scan src = Some (toks p) /\ settled fl p fl' /\
    (keeps fl' p = true -> results_inside p = true -> tame fl' p = true ->
     forall n w, mean_program ideal (fl_oplib fl) (negb (fl_prefix fl')) n p ideal_start = Some (Ok Datatypes.tt, w) ->
     Forall moderate_output (iw_outputs w) ->
     exists ts, (forall r, prints show ftext square fl n src r <-> r = (ts, Ok Datatypes.tt)) /\
       Forall2 (printed_as 50) (iw_outputs w) ts).
Proof.
  intros show ftext square fl src text SQ FT C P E. apply C94_compiler in E. pose proof (proj1 (report_accepted fl src text) E) as E'.
  destruct (runs_as_meant fl src text C P E') as [p [fl' [W [S [H R]]]]].
  exists p, fl'. split; [exact W|]. split; [exact S|]. split; [exact H|]. intros K I T n w Ew M.
  destruct (R K I T) as [[q0 Q0] X]. destruct (ideal_program _ _ n p _ w Ew) as [w' [Ew' SF]].
  destruct (outputs_printed show ftext square w w' SQ FT SF M) as [ts [Ep F]]. exists ts. split; [|exact F].
  assert (EX : forall q, py_program text q -> unsafe_exec library n q fresh_world = Some (Ok Datatypes.tt, w')).
  { intros q Q. rewrite (X q Q). exact Ew'. }
  intros r. split.
  - intros HR. destruct HR as [c Hc N|e Hc|text' q e u Hc Hq Hu|text' q u Hc Hq Hu]; apply C94_compiler in Hc; rewrite E in Hc.
    + subst c. destruct N.
    + discriminate.
    + injection Hc as <-. rewrite (EX q Hq) in Hu. discriminate.
    + injection Hc as <-. rewrite (EX q Hq) in Hu. injection Hu as <-. exact Ep.
  - intros ->. rewrite <- Ep. apply (prints_outputs show ftext square fl n src text q0 w'); [now apply C94_compiler|exact Q0|now apply EX].
Qed.
Print Assumptions C95_printed.

(** A text that is not accepted prints nothing. *)
Theorem C95_refused : forall show ftext square fl n src c, compiles_with fl src c ->
  match c with Blank | Characters _ | Tokens _ => True | _ => False end ->
  forall r, prints show ftext square fl n src r <-> r = ([], Ok Datatypes.tt).
Proof.
  intros show ftext square fl n src c Hc N r. split; [|intros ->; exact (prints_refused _ _ _ fl n src c Hc N)].
  apply C94_compiler in Hc.
  intros HR. destruct HR as [c' Hc' N'|e Hc'|text' q e u Hc' Hq Hu|text' q u Hc' Hq Hu]; [reflexivity| | |];
    apply C94_compiler in Hc'; rewrite Hc in Hc'; rewrite Hc' in N; destruct N.
Qed.
Print Assumptions C95_refused.

(** The program of C83_sample. *)
Lemma fight_moderate : exists w, mean_program ideal (fl_oplib default_flags) true 3 fight_program ideal_start = Some (Ok Datatypes.tt, w) /\
  Forall moderate_output (iw_outputs w).
Proof.
  eexists. split; [vm_compute; reflexivity|]. cbn [iw_outputs].
  repeat (apply Forall_cons; [split; [split; [repeat (apply Forall_cons; [vm_compute; discriminate|]); apply Forall_nil|vm_compute; discriminate]|exact Logic.I]|]).
  apply Forall_nil.
Qed.
(** What is printed at the end of an execution without failure, as a function. *)
Definition printed_at_end (n : nat) (q : list pstmt) : option (list string * res unit) :=
  match unsafe_exec library n q fresh_world with
  | Some (Ok _, w) => Some (print_calls (label_text float_str) float_str exact_square (rw_settings w) (rw_outputs w))
  | _ => None
  end.
Lemma printed_prints fl n src text q r : compiles_with fl src (Text text) -> py_program text q -> printed_at_end n q = Some r ->
  prints (label_text float_str) float_str exact_square fl n src r.
Proof.
  unfold printed_at_end. intros C Q. destruct (unsafe_exec library n q fresh_world) as [[[u|e] w]|] eqn:E; try discriminate.
  intros H. injection H as <-. destruct u. exact (prints_outputs _ _ _ fl n src text q w C Q E).
Qed.
Definition fight_reports : list string :=
    [ "4.67 ± 1.09" ++ newline ++
       "2:  3.70  ██" ++ newline ++
       "3: 11.11  █████" ++ newline ++
       "4: 25.93  █████████████" ++ newline ++
       "5: 33.33  ████████████████" ++ newline ++
       "6: 25.93  █████████████" ++ newline ++
       "----------------------------------------------------------";
       "hit 0.33 ± 0.47" ++ newline ++
       "0: 66.67  █████████████████████████████████" ++ newline ++
       "1: 33.33  ████████████████" ++ newline ++
       "----------------------------------------------------------";
       "of 1 0.0 ± 0.0" ++ newline ++
       "0: 100.00  █████████████████████████████████████████████████" ++ newline ++
       "----------------------------------------------------------";
       "of 2 0.75 ± 0.43" ++ newline ++
       "0: 25.00  ████████████" ++ newline ++
       "1: 75.00  █████████████████████████████████████" ++ newline ++
       "----------------------------------------------------------";
       "2.0 ± 0.72" ++ newline ++
       "1: 25.93  █████████████" ++ newline ++
       "2: 48.15  ████████████████████████" ++ newline ++
       "3: 25.93  █████████████" ++ newline ++
       "----------------------------------------------------------" ]%string.
Example C95_example :
  (exists text, compiles_with default_flags fight_source (Text text)) /\
  prints (label_text float_str) float_str exact_square default_flags 3 fight_source (fight_reports, Ok Datatypes.tt).
Proof.
  destruct C83_sample as (SC & WF & KE & RI & TA & [text [CO PY]] & _).
  assert (CW : compiles_with default_flags fight_source (Text text)) by (apply C94_compiler; now apply report_accepted).
  split; [now exists text|].
  assert (EQ : printed_at_end 3 (py_prog default_flags fight_program) = Some (fight_reports, Ok Datatypes.tt)) by (vm_compute; reflexivity).
  exact (printed_prints _ _ _ _ _ _ CW PY EQ).
Qed.

(** When the report of an output fails, the reports before it are printed, and nothing else. *)
Lemma print_calls_fail show ftext square s a call b ts e : Forall2 (fun c t => print_call show ftext square s c = Ok t) a ts ->
  print_call show ftext square s call = Err e -> print_calls show ftext square s (a ++ call :: b) = (ts, Err e).
Proof.
  intros F N. induction F as [|c t a ts H _ IH]; cbn [app print_calls].
  - now rewrite N.
  - now rewrite H, IH.
Qed.
Theorem C95_failure : forall show ftext square fl n src text q w a call b ts e, compiles_with fl src (Text text) -> py_program text q ->
  unsafe_exec library n q fresh_world = Some (Ok Datatypes.tt, w) -> rw_outputs w = a ++ call :: b ->
  Forall2 (fun c t => print_call show ftext square (rw_settings w) c = Ok t) a ts ->
  print_call show ftext square (rw_settings w) call = Err e ->
  forall r, prints show ftext square fl n src r <-> r = (ts, Err e).
Proof.
  intros show ftext square fl n src text q w a call b ts e C Q E O F N r.
  pose proof (print_calls_fail show ftext square _ a call b ts e F N) as X. rewrite <- O in X. split.
  - apply C94_compiler in C. intros HR. destruct HR as [c Hc NN|e' Hc|text' q' e' u Hc Hq Hu|text' q' u Hc Hq Hu]; apply C94_compiler in Hc; rewrite C in Hc.
    + subst c. destruct NN.
    + discriminate.
    + injection Hc as <-. rewrite (py_program_det _ _ _ Hq Q), E in Hu. discriminate.
    + injection Hc as <-. rewrite (py_program_det _ _ _ Hq Q), E in Hu. injection Hu as <-. exact X.
  - intros ->. rewrite <- X. exact (prints_outputs _ _ _ fl n src text q w C Q E).
Qed.
Print Assumptions C95_failure.
(** A label by itself is no output: [get_rv] refuses it. *)
Definition labels_source : string := "output 1 loop X over {""a"",""b""} { output X } output 2".
Definition labels_program : program :=
  [ SOutput (ETerm (TNum "1"));
    SLoop "X" (ETerm (TSeq [LOne (ETerm (TStr (PAny "a") [])); LOne (ETerm (TStr (PAny "b") []))])) [SOutput (ETerm (TVar "X"))];
    SOutput (ETerm (TNum "2"))].
Example C95_failure_sample :
  prints (label_text float_str) float_str exact_square default_flags 3 labels_source
    ([ "1.0 ± 0.0" ++ newline ++ "1: 100.00  █████████████████████████████████████████████████" ++ newline ++
       "----------------------------------------------------------" ], Err AssertErr)%string.
Proof.
  assert (exists text, compile default_flags labels_source = Ok text /\ py_program text (py_prog default_flags labels_program)) as [text [CO PY]].
  { eexists. split; [vm_compute; reflexivity|]. apply (reads_of labels_source); vm_compute; reflexivity. }
  assert (CW : compiles_with default_flags labels_source (Text text)) by (apply C94_compiler; now apply report_accepted).
  refine (printed_prints _ _ _ _ _ _ CW PY _). vm_compute. reflexivity.
Qed.

(** A text is shown as the die of its characters. *)
Definition text_source : string := "output ""abba""".
Definition text_program : program := [SOutput (ETerm (TStr (PAny "abba") []))].
Example C95_text_sample :
  prints (label_text float_str) float_str exact_square default_flags 3 text_source
    ([ "NaN ± NaN" ++ newline ++ "a: 50.00  ████████████████████████" ++ newline ++ "b: 50.00  ████████████████████████" ++ newline ++
       "----------------------------------------------------------" ], Ok Datatypes.tt)%string.
Proof.
  assert (exists text, compile default_flags text_source = Ok text /\ py_program text (py_prog default_flags text_program)) as [text [CO PY]].
  { eexists. split; [vm_compute; reflexivity|]. apply (reads_of text_source); vm_compute; reflexivity. }
  assert (CW : compiles_with default_flags text_source (Text text)) by (apply C94_compiler; now apply report_accepted).
  refine (printed_prints _ _ _ _ _ _ CW PY _). vm_compute. reflexivity.
Qed.
