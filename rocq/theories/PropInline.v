(** C106: the result of a function in the place of a call. *)
From Coq Require Import String Ascii Bool List ZArith.
From Verif Require Import PyBase Num Val RVModel Obj LexModel ParseModel SynSpec NameSpec ResolveModel PyDet PyTrans PyProgLaws Runtime PySem ExecModel MeanSpec RunSpec
  SettingsModel RunModel PlyParseModel PipeModel SessSpec MainModel MainSpec SameSpec SameText PropYacc PropSame KindSpec InlineSpec InlineFacts.
Import ListNotations.
Open Scope string_scope.
Open Scope list_scope.

(** A call of a function without types that consists of a result, with numbers and variables
    as arguments, can be replaced by the result, with the arguments for the parameters: the
    program ends in the same state, or raises the same exception.  Calls must be allowed: the
    depth is below the maximum. *)
Theorem C106_meaning : forall oplib lib fuel p p' w d m, written_out p p' ->
  (exists c, cfg_of (rw_settings w) = Some c) -> get "INTERNAL_CURR_DEPTH" (rw_settings w) = Some (SInt d) ->
  as_num (get "maximum function depth" (rw_settings w)) = Some m -> (d < m)%Z -> Forall good_output (rw_outputs w) ->
  same_run (mean_program library oplib lib (S fuel) p w) (mean_program library oplib lib (S fuel) p' w).
Proof. exact written_out_same. Qed.
Print Assumptions C106_meaning.

(** In a new process the texts print the same and raise the same exceptions. *)
Lemma prints_to show ftext square fl n src src' p p' fl' : fl_check fl = true -> fl_prefix fl = false ->
  says fl src p fl' -> says fl src' p' fl' ->
  same_run (mean_program library (fl_oplib fl) (negb (fl_prefix fl')) n p fresh_world) (mean_program library (fl_oplib fl) (negb (fl_prefix fl')) n p' fresh_world) ->
  forall r, prints show ftext square fl n src r -> prints show ftext square fl n src' r.
Proof.
  intros C P S S' E r H. destruct (says_runs fl n C P _ _ _ S) as (text & q & CO & Q & X). destruct (says_runs fl n C P _ _ _ S') as (text' & q' & CO' & Q' & X').
  pose proof (proj1 (C94_compiler _ _ _) CO) as CO1. rewrite <- X, <- X' in E.
  destruct H as [c Hc NN|e Hc|t q1 e u Hc Hq Hu|t q1 u Hc Hq Hu]; apply C94_compiler in Hc; rewrite CO1 in Hc.
  - subst c. destruct NN.
  - discriminate.
  - injection Hc as <-. rewrite (py_program_det _ _ _ Hq Q) in Hu. rewrite Hu in E.
    destruct (unsafe_exec library n q' fresh_world) as [[[x|e'] w']|] eqn:U; cbn [same_run] in E; try contradiction. destruct E as [-> _].
    exact (prints_failed _ _ _ fl n src' text' q' e' w' CO' Q' U).
  - injection Hc as <-. rewrite (py_program_det _ _ _ Hq Q) in Hu. rewrite Hu in E.
    destruct (unsafe_exec library n q' fresh_world) as [[[x|e'] w']|] eqn:U; cbn [same_run] in E; try contradiction. destruct E as [<- <-].
    exact (prints_outputs _ _ _ fl n src' text' q' u CO' Q' U).
Qed.
Lemma run_sym {A} (a b : option (res A * world)) : same_run a b -> same_run b a.
Proof.
  destruct a as [[[x|e] w]|], b as [[[y|e'] w']|]; cbn [same_run]; auto; intros [-> H]; split; try reflexivity; [now symmetry|].
  destruct H as (H1 & H2 & H3 & H4). repeat split; try (symmetry; assumption). intros k N. symmetry. now apply H4.
Qed.
Theorem C106_printed : forall show ftext square fl n src src' p p' fl', fl_check fl = true -> fl_prefix fl = false ->
  written_out p p' -> says fl src p fl' -> says fl src' p' fl' ->
  forall r, prints show ftext square fl (S n) src r <-> prints show ftext square fl (S n) src' r.
Proof.
  intros show ftext square fl n src src' p p' fl' C P A S S' r.
  assert (E : same_run (mean_program library (fl_oplib fl) (negb (fl_prefix fl')) (Datatypes.S n) p fresh_world)
                       (mean_program library (fl_oplib fl) (negb (fl_prefix fl')) (Datatypes.S n) p' fresh_world)).
  { apply (written_out_same _ _ _ _ _ _ 0%Z 10%Z A); try reflexivity; [eexists; reflexivity|constructor]. }
  split; [exact (prints_to _ _ _ _ _ _ _ _ _ _ C P S S' E r)|exact (prints_to _ _ _ _ _ _ _ _ _ _ C P S' S (run_sym _ _ E) r)].
Qed.
Print Assumptions C106_printed.

(** ** Programs *)

(** The parameter X of the function is not the X of the program; Y is. *)
Definition call_source : string :=
  "X: 2 function: f N by X { result: N d X + {Y, 1..N} } Y: 6 Z: d4 output 1 + [f 2 by Z] * X named ""f""".
Definition put_source : string :=
  "X: 2 function: f N by X { result: N d X + {Y, 1..N} } Y: 6 Z: d4 output 1 + (2 d Z + {Y, 1..2}) * X named ""f""".
Definition num (s : string) : expr := ETerm (TNum s).
Definition var (s : string) : expr := ETerm (TVar s).
Definition result_e : expr := EBin SynSpec.OAdd (EDice (TVar "N") (TVar "X")) (ETerm (TSeq [LOne (var "Y"); LRange (num "1") (var "N")])).
Definition head_1 : hitem := HWord (WName "f").
Definition head_2 : list hitem := [HParam "N"; HWord (WName "by"); HParam "X"].
Definition the_call : list citem := [CWord (WName "f"); CArg (num "2"); CWord (WName "by"); CArg (var "Z")].
Definition the_place (e : expr) : expr := EBin SynSpec.OAdd (num "1") (EBin SynSpec.OMul e (var "X")).
Definition program_with (e : expr) : program :=
  ([SAssign "X" (num "2")] ++ SFunction head_1 head_2 [SResult result_e] :: [SAssign "Y" (num "6"); SAssign "Z" (EDie (TNum "4"))])
  ++ SNamed (the_place e) (PAny "f") [] :: [].
Definition call_program : program := program_with (ETerm (TCall the_call)).
Definition put_program : program :=
  program_with (ETerm (TGroup (EBin SynSpec.OAdd (EDice (TNum "2") (TVar "Z")) (ETerm (TSeq [LOne (var "Y"); LRange (num "1") (num "2")]))))).
Lemma call_written : written_out call_program put_program.
Proof.
  refine (written_at [SAssign "X" (num "2")] head_1 head_2 result_e [SAssign "Y" (num "6"); SAssign "Z" (EDie (TNum "4"))]
    (fun e => SNamed e (PAny "f") []) the_place the_call [TNum "2"; TVar "Z"] [] eq_refl _ eq_refl _ _ _ eq_refl eq_refl eq_refl _).
  - repeat constructor.
  - intros [].
  - apply around_named.
  - apply within_right. apply (within_left SynSpec.OMul (var "X") (fun e => e)). apply within_itself.
  - repeat constructor. exists (EDie (TNum "4")). cbn. tauto.
Qed.
Lemma call_says : says default_flags call_source call_program default_flags.
Proof. said. Qed.
Lemma put_says : says default_flags put_source put_program default_flags.
Proof. said. Qed.
Example C106_example : forall show ftext square n r,
  prints show ftext square default_flags (S n) call_source r <-> prints show ftext square default_flags (S n) put_source r.
Proof.
  intros show ftext square n. exact (C106_printed show ftext square default_flags n call_source put_source call_program put_program
    default_flags eq_refl eq_refl call_written call_says put_says).
Qed.
Example C106_sample : what_of put_program = what_of call_program /\ exists v, what_of call_program = Some (Ok Datatypes.tt, [(v, Some (OStr "f"))]) /\ v <> ONone.
Proof. split; [vm_compute; reflexivity|]. eexists. split; [vm_compute; reflexivity|discriminate]. Qed.

(** ** What the conditions are for *)

(** A parameter with a type is another matter: the function is called for each outcome. *)
Definition typed_program (e : expr) : program :=
  [SFunction (HWord (WName "f")) [HTyped "N" (SynSpec.PName "n")] [SResult (EBin SynSpec.OAdd (var "N") (var "N"))]; SAssign "X" (EDie (TNum "2")); SOutput e].
Theorem C106_types_refuted :
  what_of (typed_program (ETerm (TCall [CWord (WName "f"); CArg (var "X")]))) <> what_of (typed_program (ETerm (TGroup (EBin SynSpec.OAdd (var "X") (var "X"))))).
Proof. vm_compute. discriminate. Qed.
Print Assumptions C106_types_refuted.

(** So is a call inside a call at the maximum depth. *)
Definition deep_program (e : expr) : program :=
  [SSet (PAny "maximum function depth") [] (num "1"); SFunction (HWord (WName "f")) [HParam "X"] [SResult (EBin SynSpec.OAdd (var "X") (num "1"))];
   SFunction (HWord (WName "g")) [HParam "X"] [SResult e]; SOutput (ETerm (TCall [CWord (WName "g"); CArg (num "1")]))].
Theorem C106_depth_refuted :
  what_of (deep_program (ETerm (TCall [CWord (WName "f"); CArg (var "X")]))) <> what_of (deep_program (ETerm (TGroup (EBin SynSpec.OAdd (var "X") (num "1"))))).
Proof. vm_compute. discriminate. Qed.
Print Assumptions C106_depth_refuted.

(** And a function that is defined again in between. *)
Definition again_program (e : expr) : program :=
  [SFunction (HWord (WName "f")) [HParam "X"] [SResult (EBin SynSpec.OAdd (var "X") (num "1"))];
   SFunction (HWord (WName "f")) [HParam "X"] [SResult (EBin SynSpec.OAdd (var "X") (num "2"))]; SOutput e].
Theorem C106_again_refuted :
  what_of (again_program (ETerm (TCall [CWord (WName "f"); CArg (num "1")]))) <> what_of (again_program (ETerm (TGroup (EBin SynSpec.OAdd (num "1") (num "1"))))).
Proof. vm_compute. discriminate. Qed.
Print Assumptions C106_again_refuted.
