(** C91: programs executed one after another. *)
From Coq Require Import String Ascii Bool List ZArith QArith Arith Lia.
From Verif Require Import PyBase Num Val RVModel Obj SettingsModel LexModel LexSpec LexFacts ParseModel SynSpec ParseSound ParseLaws
  NameSpec ResolveModel ResolveGen CompileFacts PySpec PyDet PyTrans PyReady PyLines PyProg PyCompile PyLaws PyProgLaws
  Runtime PySem ExecModel MeanSpec RunSpec SemFacts SemLaws RunModel StopSpec ScopeSpec ScopeLaws ScopeLib StartSpec StopOver
  RefineFacts RefineOver IdealSpec IdealVals IdealLaws SessSpec QuietFacts SessFacts PropRun PropScope PropIdeal.
Import ListNotations.
Open Scope string_scope.
Open Scope nat_scope.
Open Scope list_scope.
Open Scope run_scope.

(** * C82 *)

(** Programs also stop when functions work on copies of the variables of their callers. *)
Theorem C82_copies_stop : forall oplib lib p w, steady p = true ->
  exists r w' n, forall k, n <= k -> mean_over library oplib lib k p w = Some (r, w').
Proof. exact steady_over_stops. Qed.
Print Assumptions C82_copies_stop.

(** So do their generated programs. *)
Theorem C82_copies_executions_stop : forall fl src text, fl_check fl = true -> fl_prefix fl = false -> compile fl src = Ok text ->
  exists p fl', wf p = true /\ scan src = Some (toks p) /\ settled fl p fl' /\
    (keeps fl' p = true -> results_inside p = true -> tame_over fl' p = true -> steady p = true ->
     forall q, py_program text q -> forall w,
     exists r w' n, forall k, n <= k -> unsafe_exec library k q w = Some (r, w')).
Proof.
  intros fl src text C P E. destruct (runs_over fl src text C P E) as [p [fl' [W [S [H R]]]]].
  exists p, fl'. split; [exact W|split; [exact S|split; [exact H|]]]. intros K I T D q Q w.
  destruct (R K I T) as [_ X]. destruct (C82_copies_stop (fl_oplib fl) (negb (fl_prefix fl')) p w D) as [r [w' [n N]]].
  exists r, w', n. intros k Lk. rewrite (X q Q _ _ library library_lenient). now apply N.
Qed.
Print Assumptions C82_copies_executions_stop.

(** * C83 *)

Lemma outputs_same w w' : stands_for w w' -> Forall2 same_output (iw_outputs w) (rw_outputs w').
Proof. intro S. pose proof (sf_outputs _ _ S) as O. clear -O. induction O as [|a b x y H _ IH]; constructor; [now apply shows_same|exact IH]. Qed.

(** The outputs are exact also when functions work on copies. *)
Theorem C83_copies : forall fl src text, fl_check fl = true -> fl_prefix fl = false -> compile fl src = Ok text ->
  exists p fl', wf p = true /\ scan src = Some (toks p) /\ settled fl p fl' /\
    (keeps fl' p = true -> results_inside p = true -> tame_over fl' p = true ->
     forall n w, mean_over ideal (fl_oplib fl) (negb (fl_prefix fl')) n p ideal_start = Some (Ok Datatypes.tt, w) ->
     forall q, py_program text q ->
     exists w', unsafe_exec library n q fresh_world = Some (Ok Datatypes.tt, w') /\
       Forall2 same_output (iw_outputs w) (rw_outputs w')).
Proof.
  intros fl src text C P E. destruct (runs_over fl src text C P E) as [p [fl' [W [S [H R]]]]].
  exists p, fl'. split; [exact W|split; [exact S|split; [exact H|]]]. intros K I T n w Ew q Q.
  destruct (R K I T) as [_ X]. destruct (ideal_over _ _ n p _ w Ew) as [w' [E' O]].
  exists w'. split; [|exact (outputs_same w w' O)]. rewrite (X q Q _ _ library library_lenient). exact E'.
Qed.
Print Assumptions C83_copies.

(** Functions that see the variables of their callers, and dice. *)
Definition copies_source : string :=
  "B: 1 function: hit N:n { result: N + B > 4 } function: charge N:n { B: B + 1 result: [hit N] }
   output [hit d6] output [charge d6] output B".
Definition copies_program : program :=
  [ SAssign "B" (num "1");
    SFunction (HWord (WName "hit")) [HTyped "N" (SynSpec.PName "n")]
      [SResult (EBin OGt (EBin OAdd (var "N") (var "B")) (num "4"))];
    SFunction (HWord (WName "charge")) [HTyped "N" (SynSpec.PName "n")]
      [ SAssign "B" (EBin OAdd (var "B") (num "1")); SResult (ETerm (TCall [CWord (WName "hit"); CArg (var "N")])) ];
    SOutput (ETerm (TCall [CWord (WName "hit"); CArg (EDie (TNum "6"))]));
    SOutput (ETerm (TCall [CWord (WName "charge"); CArg (EDie (TNum "6"))]));
    SOutput (var "B") ].
Example C83_copies_sample :
  scan copies_source = Some (toks copies_program) /\ wf copies_program = true /\ keeps copying copies_program = true /\
  results_inside copies_program = true /\ tame_over copying copies_program = true /\ steady copies_program = true /\
  (exists text, compile copying copies_source = Ok text /\ py_program text (py_prog copying copies_program)) /\
  ideal_values (mean_over ideal (fl_oplib copying) true 3 copies_program ideal_start) =
    let die t := IDice t (Some (1, t)) in
    [ die [(0%Z, (1 # 2)%Q); (1%Z, (1 # 2)%Q)]; die [(0%Z, (1 # 3)%Q); (1%Z, (2 # 3)%Q)]; INum 1 ].
Proof.
  do 6 (split; [vm_compute; reflexivity|]). split.
  - eexists. split; [vm_compute; reflexivity|]. apply (reads_in copying copies_source); vm_compute; reflexivity.
  - vm_compute. reflexivity.
Qed.

(** * C91 *)

Lemma jobs_follow n jobs : Forall2 (follows stands_for eq) (map (run_job ideal n) jobs) (map (run_job library n) jobs).
Proof.
  induction jobs as [|j jobs IH]; [constructor|]. constructor; [|exact IH]. unfold run_job. destruct (j_copies j).
  - exact (over_follow is_val stands_for ideal library ideal_library (j_oplib j) (j_lib j) n (j_program j)).
  - exact (programs_follow is_val stands_for ideal library ideal_library (j_oplib j) (j_lib j) n (j_program j)).
Qed.

(** Programs executed one after another, of which the exact meaning covers all, with the
    settings as the programs before left them: each ends without failure and has outputs
    with exactly the probabilities that the exact meaning says. *)
Theorem C91_exact : forall n jobs l w,
  in_turn ideal_next iw_outputs (map (run_job ideal n) jobs) ideal_start = Some (l, w) ->
  Forall (fun o => fst o = Ok Datatypes.tt) l ->
  exists l' w', executions (map (run_job library n) jobs) fresh_world = Some (l', w') /\
    Forall2 (fun o o' => fst o' = Ok Datatypes.tt /\ Forall2 same_output (snd o) (snd o')) l l'.
Proof.
  intros n jobs l w E A. destruct (turns_follow _ _ (jobs_follow n jobs) _ _ _ _ start_stands E A) as [l' [w' [E' [_ F]]]].
  exists l', w'. split; [exact E'|]. clear - F. induction F as [|a b x y [H1 H2] _ IH]; constructor; [|exact IH]. split; [exact H1|].
  clear - H2. induction H2 as [|c d u v H _ IH]; constructor; [now apply shows_same|exact IH].
Qed.
Print Assumptions C91_exact.

(** Programs that set nothing do not influence each other: in any order and number, each
    has the outputs that it has alone. *)
Theorem C91_independent : forall n jobs outs,
  Forall2 (fun j o => sets_nothing (j_program j) = true /\
             exists w, run_job ideal n j ideal_start = Some (Ok Datatypes.tt, w) /\ iw_outputs w = o) jobs outs ->
  exists l' w', executions (map (run_job library n) jobs) fresh_world = Some (l', w') /\
    Forall2 (fun o o' => fst o' = Ok Datatypes.tt /\ Forall2 same_output o (snd o')) outs l'.
Proof.
  intros n jobs outs F.
  assert (T : Forall2 (fun m o => exists w, m ideal_start = Some (Ok Datatypes.tt, w) /\ iw_outputs w = o /\ ideal_next w = ideal_start)
                (map (run_job ideal n) jobs) outs).
  { clear - F. induction F as [|j o jobs outs [S [w [E O]]] _ IH]; constructor; [|exact IH]. exists w. split; [exact E|]. split; [exact O|].
    assert (A : at_depth 10 2 true 0 w).
    { unfold run_job in E. destruct (j_copies j).
      - exact (quiet_over ideal _ _ (at_fails 10 2 true) (ideal_calm 10 2 true) _ _ n _ S 0%Z ideal_start (Ok Datatypes.tt) w
          (conj eq_refl (conj eq_refl (conj eq_refl eq_refl))) E).
      - exact (quiet_program ideal _ _ (at_fails 10 2 true) (ideal_calm 10 2 true) _ _ n _ S 0%Z ideal_start (Ok Datatypes.tt) w
          (conj eq_refl (conj eq_refl (conj eq_refl eq_refl))) E). }
    destruct A as (A1 & A2 & A3 & A4). unfold ideal_next. rewrite A1, A2, A3, A4. reflexivity. }
  destruct (turns_alone _ _ T ideal_start eq_refl) as [w E].
  destruct (C91_exact n jobs _ w E) as [l' [w' [E' F']]].
  { apply Forall_forall. intros o I. apply in_map_iff in I as [x [<- _]]. reflexivity. }
  exists l', w'. split; [exact E'|]. clear - F'. remember (map _ outs) as m eqn:M. revert outs M.
  induction F' as [|a b x y [H1 H2] _ IH]; intros [|o outs] M; try discriminate; constructor.
  - injection M as -> _. split; [exact H1|exact H2].
  - apply IH. injection M as _ M. exact M.
Qed.
Print Assumptions C91_independent.

(** The same holds of generated programs that do what these programs mean: C81 and C89
    say which do. *)
Theorem C91_executed : forall n jobs qs,
  Forall2 (fun j q => forall w, unsafe_exec library n q w = run_job library n j w) jobs qs ->
  forall w, executions (map (unsafe_exec library n) qs) w = executions (map (run_job library n) jobs) w.
Proof.
  intros n jobs qs F. apply turns_ext. induction F as [|j q jobs qs H _ IH]; constructor; [exact H|exact IH].
Qed.
Print Assumptions C91_executed.

(** A program that sets nothing changes no setting, whether it fails or not, in any
    state; when it does not fail, calls start at the depth they started before. *)
Theorem C91_settings_kept : forall n j w d r w', sets_nothing (j_program j) = true ->
  as_num (get "INTERNAL_CURR_DEPTH" (rw_settings w)) = Some d ->
  run_job library n j w = Some (r, w') ->
  (forall x, internal x = false -> get x (rw_settings w') = get x (rw_settings w)) /\
  (r = Ok Datatypes.tt -> as_num (get "INTERNAL_CURR_DEPTH" (rw_settings w')) = Some d).
Proof.
  intros n j w d r w' S D E. apply (library_keeps (j_oplib j) (j_lib j) n [] (j_program j) w d r w' S D).
  unfold run_job in E. destruct (j_copies j); [right|left]; exact E.
Qed.
Print Assumptions C91_settings_kept.

(** Two programs with functions and dice, in turn, one of them twice. *)
Definition two_jobs : list job := [ mkJob false false true fight_program; mkJob true false true copies_program; mkJob false false true fight_program ].
Example C91_sample :
  forallb (fun j => sets_nothing (j_program j)) two_jobs = true /\
  Forall (fun j => exists w, run_job ideal 3 j ideal_start = Some (Ok Datatypes.tt, w) /\ iw_outputs w <> []) two_jobs /\
  match executions (map (unsafe_exec library 3)
          [py_prog default_flags fight_program; py_prog copying copies_program; py_prog default_flags fight_program]) fresh_world with
  | Some (l, w) => (map (fun o => map (fun x => shown (fst x)) (snd o)) l, negb (Nat.eqb (List.length (rw_memo w)) 0))
  | None => ([], false)
  end =
  (let fight := [ [(2, 1); (3, 3); (4, 7); (5, 9); (6, 7)]; [(0, 2); (1, 1)]; [(0, 1)]; [(0, 1); (1, 3)]; [(1, 7); (2, 13); (3, 7)] ]%Z in
   [ fight; [[(0, 1); (1, 1)]; [(0, 1); (1, 2)]; [(1, 1)]]%Z; fight ], true).
Proof.
  split; [vm_compute; reflexivity|]. split.
  - repeat constructor; (eexists; split; [vm_compute; reflexivity|vm_compute; discriminate]).
  - vm_compute. reflexivity.
Qed.

(** A setting is found by the programs that come after. *)
Definition values_in_turn (ps : list program) : option (list (res unit * list (list (Z * Z)))) :=
  match executions (map (fun p => unsafe_exec library 3 (py_prog default_flags p)) ps) fresh_world with
  | Some (l, _) => Some (map (fun o => (fst o, map (fun x => shown (fst x)) (snd o))) l)
  | None => None
  end.
Definition setting_program : program := [SSet (PAny "position order") [] (ETerm (TStr (PAny "lowest first") [])); SOutput (num "1")].
Definition first_of_two : program := [SOutput (EBin OAt (num "1") (EDice (TNum "2") (TNum "2")))].
Theorem C91_settings_refuted :
  scan "set ""position order"" to ""lowest first"" output 1" = Some (toks setting_program) /\ wf setting_program = true /\
  keeps default_flags setting_program = true /\ tame default_flags setting_program = true /\
  scan "output 1@2d2" = Some (toks first_of_two) /\ wf first_of_two = true /\
  keeps default_flags first_of_two = true /\ tame default_flags first_of_two = true /\
  values_in_turn [first_of_two; setting_program; first_of_two] =
    Some [ (Ok Datatypes.tt, [[(1, 1); (2, 3)]]); (Ok Datatypes.tt, [[(1, 1)]]); (Ok Datatypes.tt, [[(1, 3); (2, 1)]]) ]%Z.
Proof. repeat split; vm_compute; reflexivity. Qed.
Print Assumptions C91_settings_refuted.

(** A program that fails in a function leaves a trace: after ten failures, functions of
    later programs are not executed any more, and have no value. *)
Definition failing : program :=
  [ SFunction (HWord (WName "f")) [] [SResult (var "X")]; SOutput (ETerm (TCall [CWord (WName "f")])) ].
Definition working : program :=
  [ SFunction (HWord (WName "f")) [] [SResult (num "7")]; SOutput (ETerm (TCall [CWord (WName "f")])) ].
Theorem C91_failures_refuted :
  scan "function: f { result: X } output [f]" = Some (toks failing) /\ wf failing = true /\
  keeps default_flags failing = true /\ tame default_flags failing = true /\ sets_nothing failing = true /\
  scan "function: f { result: 7 } output [f]" = Some (toks working) /\ wf working = true /\
  keeps default_flags working = true /\ tame default_flags working = true /\ sets_nothing working = true /\
  values_in_turn [working] = Some [(Ok Datatypes.tt, [[(7, 1)]])]%Z /\
  values_in_turn (repeat failing 9 ++ [working]) = Some (repeat (Err NameErr, []) 9 ++ [(Ok Datatypes.tt, [[(7, 1)]])])%Z /\
  values_in_turn (repeat failing 10 ++ [working]) = Some (repeat (Err NameErr, []) 10 ++ [(Ok Datatypes.tt, [[]])]).
Proof. repeat split; vm_compute; reflexivity. Qed.
Print Assumptions C91_failures_refuted.
