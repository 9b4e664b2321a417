(** C107: statements added at the end; C58: settings while programs run. *)
From Coq Require Import String Ascii Bool List ZArith.
From Verif Require Import PyBase Num Val RVModel Obj SettingsModel SettingsFacts LexModel ParseModel SynSpec NameSpec ResolveModel PyDet PyTrans PyProgLaws Runtime PySem ExecModel
  MeanSpec RunSpec RunModel PlyParseModel PipeModel SessSpec QuietFacts SessFacts MainModel MainSpec SameSpec SameText PropYacc PropSame InlineFacts MoreSpec MoreFacts.
Import ListNotations.
Open Scope string_scope.
Open Scope list_scope.

(** The outputs made before stay, in their order. *)
Theorem C107_kept : forall oplib lib fuel p w r w', mean_program library oplib lib fuel p w = Some (r, w') ->
  exists l, rw_outputs w' = rw_outputs w ++ l.
Proof. exact outputs_kept. Qed.
Print Assumptions C107_kept.

(** A program with statements added at its end starts with the outputs of the program;
    if the program raises an exception, they do not matter. *)
Theorem C107_more : forall oplib lib fuel p q w w1 r w2, mean_program library oplib lib fuel p w = Some (Ok Datatypes.tt, w1) ->
  mean_program library oplib lib fuel (p ++ q) w = Some (r, w2) -> exists l, rw_outputs w2 = rw_outputs w1 ++ l.
Proof. exact more_outputs. Qed.
Print Assumptions C107_more.
Theorem C107_failed : forall oplib lib fuel p q w e w1, mean_program library oplib lib fuel p w = Some (Err e, w1) ->
  mean_program library oplib lib fuel (p ++ q) w = Some (Err e, w1).
Proof. exact more_failed. Qed.
Print Assumptions C107_failed.

(** What the longer text prints in a new process starts with what the shorter text prints,
    unless the longer one raises an exception while it runs: nothing is printed then. *)
Lemma print_app show ftext square s a b : print_calls show ftext square s (a ++ b) =
  match print_calls show ftext square s a with
  | (ts, Ok _) => let (ts', r) := print_calls show ftext square s b in (ts ++ ts', r)
  | (ts, Err e) => (ts, Err e)
  end.
Proof.
  induction a as [|x a IH]; cbn [app print_calls]; [now destruct (print_calls show ftext square s b)|].
  destruct (print_call show ftext square s x) as [t|e]; [|reflexivity]. rewrite IH.
  destruct (print_calls show ftext square s a) as [ts [u|e]]; [|reflexivity]. now destruct (print_calls show ftext square s b).
Qed.
Lemma print_cfg show ftext square s s' l : cfg_of s = cfg_of s' -> print_calls show ftext square s l = print_calls show ftext square s' l.
Proof. intros E. induction l as [|x l IH]; cbn [print_calls]; [reflexivity|]. unfold print_call. rewrite E, IH. reflexivity. Qed.
Lemma quiet_cfg oplib lib n p r w : sets_nothing p = true -> mean_program library oplib lib n p fresh_world = Some (Ok r, w) -> cfg_of (rw_settings w) = cfg_of defaults.
Proof.
  intros S E. apply (ready_cfg defaults 0%Z).
  exact (quiet_program library (ready defaults) (kept_settings defaults) (ready_fails defaults) (library_ready defaults) oplib lib n p S 0%Z fresh_world (Ok r) w
    (conj (fun k _ => eq_refl) eq_refl) E).
Qed.
Theorem C107_printed : forall show ftext square fl n src src' p q fl' ts r ts' r', fl_check fl = true -> fl_prefix fl = false ->
  sets_nothing (p ++ q) = true -> says fl src p fl' -> says fl src' (p ++ q) fl' ->
  prints show ftext square fl n src (ts, r) -> prints show ftext square fl n src' (ts', r') ->
  (exists more, ts' = ts ++ more /\ match r with Ok _ => True | Err e => more = [] /\ r' = Err e end) \/ (ts' = [] /\ exists e, r' = Err e).
Proof.
  intros show ftext square fl n src src' p q fl' ts r ts' r' C P Sn S S' H H'.
  destruct (says_runs fl n C P _ _ _ S) as (text & g & CO & Q & X). destruct (says_runs fl n C P _ _ _ S') as (text' & g' & CO' & Q' & X').
  pose proof (proj1 (C94_compiler _ _ _) CO) as CO1. pose proof (proj1 (C94_compiler _ _ _) CO') as CO1'.
  assert (Sp : sets_nothing p = true).
  { unfold sets_nothing in *. rewrite existsb_app, negb_orb in Sn. now apply andb_true_iff in Sn as [Sp _]. }
  inversion H' as [c Hc NN|e Hc|t g1 e u Hc Hq Hu|t g1 u' Hc Hq Hu']; subst; apply C94_compiler in Hc; rewrite CO1' in Hc; try (subst c; destruct NN); try discriminate Hc.
  - right. split; [reflexivity|]. now exists e.
  - injection Hc as <-. rewrite (py_program_det _ _ _ Hq Q'), X' in Hu'. clear H'.
    inversion H as [c Hc NN|e Hc|t g2 e u Hc Hq2 Hu|t g2 u Hc Hq2 Hu]; subst; apply C94_compiler in Hc; rewrite CO1 in Hc; try (subst c; destruct NN); try discriminate Hc.
    + injection Hc as <-. rewrite (py_program_det _ _ _ Hq2 Q), X in Hu. rewrite (more_failed _ _ _ p q _ _ _ Hu) in Hu'. discriminate.
    + injection Hc as <-. rewrite (py_program_det _ _ _ Hq2 Q), X in Hu. left.
      destruct (more_outputs _ _ _ p q _ _ _ _ Hu Hu') as [l El].
      pose proof (quiet_cfg _ _ _ _ _ _ Sp Hu) as K. pose proof (quiet_cfg _ _ _ _ _ _ Sn Hu') as K'.
      assert (E1 : print_calls show ftext square defaults (rw_outputs u) = (ts, r)) by (rewrite <- (print_cfg _ _ _ _ _ _ K); auto).
      assert (E2 : print_calls show ftext square defaults (rw_outputs u') = (ts', r')) by (rewrite <- (print_cfg _ _ _ _ _ _ K'); auto).
      rewrite El, print_app, E1 in E2. destruct r as [x|e]; [|injection E2 as <- <-; exists []; now rewrite app_nil_r].
      destruct (print_calls show ftext square defaults l) as [more r2]. injection E2 as <- _. now exists more.
Qed.
Print Assumptions C107_printed.

Definition short_text : string := "X: d4 output X + 1 named ""a"" function: f N:n { if N > 2 { output N } }".
Definition long_text : string := "X: d4 output X + 1 named ""a"" function: f N:n { if N > 2 { output N } } output X loop X over {1..3} { Y: [f X] }".
Definition short_part : program :=
  [ SAssign "X" (EDie (TNum "4")); SNamed (EBin SynSpec.OAdd (ETerm (TVar "X")) (ETerm (TNum "1"))) (PAny "a") [];
    SFunction (HWord (WName "f")) [HTyped "N" (SynSpec.PName "n")]
      [SIf (Branch (EBin SynSpec.OGt (ETerm (TVar "N")) (ETerm (TNum "2"))) [SOutput (ETerm (TVar "N"))]) [] None] ].
Definition long_part : program :=
  [ SOutput (ETerm (TVar "X"));
    SLoop "X" (ETerm (TSeq [LRange (ETerm (TNum "1")) (ETerm (TNum "3"))])) [SAssign "Y" (ETerm (TCall [CWord (WName "f"); CArg (ETerm (TVar "X"))]))] ].
Lemma short_part_says : says default_flags short_text short_part default_flags.
Proof. said. Qed.
Lemma long_part_says : says default_flags long_text (short_part ++ long_part) default_flags.
Proof. said. Qed.
Example C107_example : forall show ftext square n ts r ts' r', prints show ftext square default_flags n short_text (ts, r) -> prints show ftext square default_flags n long_text (ts', r') ->
  (exists more, ts' = ts ++ more /\ match r with Ok _ => True | Err e => more = [] /\ r' = Err e end) \/ (ts' = [] /\ exists e, r' = Err e).
Proof.
  intros show ftext square n ts r ts' r'. exact (C107_printed show ftext square default_flags n short_text long_text short_part long_part default_flags ts r ts' r'
    eq_refl eq_refl eq_refl short_part_says long_part_says).
Qed.
Example C107_sample :
  match what_of short_part, what_of (short_part ++ long_part) with
  | Some (Ok _, [a]), Some (Ok _, [a'; b; (c, None)]) => a' = a /\ c = oint 3
  | _, _ => False
  end.
Proof. vm_compute. split; reflexivity. Qed.

(** Tables are printed when the program has ended: a setting that is changed at the end can
    change tables of values that were output before, here that of {1.5}. *)
Definition tables_after (q : program) : option (list string) :=
  match mean_program library true true 5 ([SOutput (ETerm (TSeq [LOne (ETerm (TDec "1" "5"))]))] ++ q) fresh_world with
  | Some (Ok _, w) => Some (fst (print_calls (fun _ => "") (fun _ x => match x with NI _ => "int" | NF _ _ => "float" end) (fun x => Ok x) (rw_settings w) (rw_outputs w)))
  | _ => None
  end.
Theorem C107_settings_refuted : tables_after [] <> tables_after [SSet (PAny "RV_TRUNC") [] (ETerm (TStr (PAny "True") []))].
Proof. vm_compute. discriminate. Qed.
Print Assumptions C107_settings_refuted.

(** ** C58 while programs run *)

(** Every setting keeps a value it can have, but the position order can become a blank. *)
Theorem C58_programs : forall oplib lib fuel p w r w', nearly_valid (rw_settings w) ->
  mean_program library oplib lib fuel p w = Some (r, w') -> nearly_valid (rw_settings w').
Proof. exact settings_usable. Qed.
Print Assumptions C58_programs.
Example C58_programs_example : nearly_valid (rw_settings fresh_world).
Proof. intros n I. destruct (defaults_valid n I) as (v & G & V). exists v. auto. Qed.

(** The blank that a call with a blank argument gives is equal to everything, so it is accepted
    as the position order. *)
Definition blank_order : program :=
  [ SFunction (HWord (WName "f")) [HTyped "N" (SynSpec.PName "n")] [SResult (ETerm (TVar "N"))];
    SFunction (HWord (WName "g")) [HParam "X"] [];
    SSet (PAny "position order") [] (ETerm (TCall [CWord (WName "f"); CArg (ETerm (TCall [CWord (WName "g"); CArg (ETerm (TNum "1"))]))]));
    SOutput (ETerm (TNum "1")) ].
Definition blank_order_text : string := "function: f N:n { result: N } function: g X { } set ""position order"" to [f [g 1]] output 1".
Lemma blank_order_says : says default_flags blank_order_text blank_order default_flags.
Proof. said. Qed.
Theorem C58_programs_refuted :
  ~ (forall oplib lib fuel p w r w', valid_settings (rw_settings w) -> mean_program library oplib lib fuel p w = Some (r, w') -> valid_settings (rw_settings w')).
Proof.
  intros H. destruct (mean_program library true true 5 blank_order fresh_world) as [[r w']|] eqn:E; [|vm_compute in E; discriminate].
  destruct (H _ _ _ _ fresh_world _ _ defaults_valid E "position order") as (v & G & (V & _)); [cbn; auto 20|].
  vm_compute in E. injection E as _ <-. vm_compute in G. injection G as <-. destruct (V eq_refl); discriminate.
Qed.
Print Assumptions C58_programs_refuted.

(** ** C41 while programs run.  [rw_printed]: warnings about the depth of calls that were
    printed. *)
Definition already_warned (w : world) : option bool := as_flag (get "INTERNAL_CURR_DEPTH_WARNING_PRINTED" (rw_settings w)).

(** A program prints the warning at most once and records it when it does; it never clears
    the record, so nothing is printed if the warning was printed before. *)
Theorem C41_programs : forall oplib lib fuel p w r w',
  mean_program library oplib lib fuel p w = Some (r, w') ->
  (already_warned w' = already_warned w /\ rw_printed w' = rw_printed w) \/
  (already_warned w = Some false /\ already_warned w' = Some true /\ rw_printed w' = S (rw_printed w)).
Proof. exact warned_with_flag. Qed.
Print Assumptions C41_programs.

Definition endless_text : string := "function: f N:n { result: [f N + 1] } output [f 1] output [f 2]".
Definition endless : program :=
  [ SFunction (HWord (WName "f")) [HTyped "N" (SynSpec.PName "n")]
      [SResult (ETerm (TCall [CWord (WName "f"); CArg (EBin OAdd (ETerm (TVar "N")) (ETerm (TNum "1")))]))];
    SOutput (ETerm (TCall [CWord (WName "f"); CArg (ETerm (TNum "1"))]));
    SOutput (ETerm (TCall [CWord (WName "f"); CArg (ETerm (TNum "2"))])) ].
(** both calls reach the limit, and the warning is printed once *)
Example C41_programs_example : says default_flags endless_text endless default_flags /\
  already_warned fresh_world = Some false /\
  exists r w', mean_program library true true 30 endless fresh_world = Some (r, w') /\
    already_warned w' = Some true /\ rw_printed w' = S (rw_printed fresh_world) /\ length (rw_outputs w') = 2%nat.
Proof.
  split; [said|]. split; [reflexivity|]. eexists. eexists. split; [vm_compute; reflexivity|]. repeat split; reflexivity.
Qed.
