(** C90: variables that a program starts with. *)
From Coq Require Import String Ascii Bool List ZArith QArith Arith Lia.
From Verif Require Import PyBase Num Val RVModel Obj RollModel RollerModel LexModel LexSpec LexFacts ParseModel SynSpec ParseSound ParseLaws
  NameSpec ResolveModel ResolveGen CompileFacts PySpec PyDet PyTrans PyReady PyLines PyProg PyCompile PyLaws PyProgLaws
  Runtime PySem ExecModel MeanSpec RunSpec SemFacts SemLaws RunModel StopSpec ScopeSpec ScopeLaws StartSpec StartLaws StartSame StopOver
  RefineFacts IdealSpec IdealLaws SessSpec SessFacts PropRun PropScope PropIdeal.
Import ListNotations.
Open Scope string_scope.
Open Scope nat_scope.
Open Scope list_scope.
Open Scope run_scope.

(** * C90 *)

(** A program that is accepted, of which the text keeps the expressions, with result:
    only in functions and with tame names, does, when executed with given variables that
    its functions do not change, exactly what it means when it starts with these
    variables. *)
Theorem C90_given : forall fl src text, fl_check fl = true -> fl_prefix fl = false -> compile fl src = Ok text ->
  exists p fl', wf p = true /\ scan src = Some (toks p) /\ settled fl p fl' /\
    (keeps fl' p = true -> results_inside p = true -> tame fl' p = true ->
     (exists q, py_program text q) /\
     forall q, py_program text q ->
     forall (V W : Type) (rt : runtime V W) gs, Forall (fun g => variable_name (fst g) = true) gs ->
       leaves_alone (map fst gs) p = true -> forall fuel w,
       unsafe_exec_with rt fuel gs q w = mean_with rt (fl_oplib fl) (negb (fl_prefix fl')) fuel gs p w).
Proof. exact runs_with. Qed.
Print Assumptions C90_given.

(** A given variable is as good as an assignment at the start. *)
Theorem C90_like_assignment : forall (V W : Type) (rt : runtime V W) oplib (lib : bool) n gs x e v p w w',
  mean_e rt oplib (call_defined rt oplib n) (mkPlace gs (if lib then library_functions else []) None) e w = Some (Ok v, w') ->
  mean_with rt oplib lib n gs (SAssign x e :: p) w = mean_with rt oplib lib n ((x, v) :: gs) p w'.
Proof. intros V W rt oplib lib n gs x e v p w w' E. rewrite with_assign. unfold bnd at 1. rewrite E. reflexivity. Qed.
Print Assumptions C90_like_assignment.

(** Nothing given: the program alone. *)
Theorem C90_nothing : forall (V W : Type) (rt : runtime V W) oplib lib n p w,
  mean_with rt oplib lib n [] p w = mean_program rt oplib lib n p w.
Proof. intros. reflexivity. Qed.
Print Assumptions C90_nothing.

(** Only the variables of the program count, not others and not the order. *)
Theorem C90_only_used : forall (V W : Type) (rt : runtime V W) oplib lib n gs gs' p w,
  (forall x, In x (flat_map vars_s p) -> variable_in x gs = variable_in x gs') ->
  mean_with rt oplib lib n gs p w = mean_with rt oplib lib n gs' p w.
Proof. exact starts_same. Qed.
Print Assumptions C90_only_used.

(** The program stops, whatever is given. *)
Theorem C90_stops : forall oplib lib gs p w, steady p = true ->
  exists r w' n, forall k, n <= k -> mean_with library oplib lib k gs p w = Some (r, w').
Proof. exact steady_with_stops. Qed.
Print Assumptions C90_stops.

(** Given numbers, texts, sequences, blanks and rolled dice, its outputs have the
    probabilities that its text says. *)
Theorem C90_exact : forall fl src text, fl_check fl = true -> fl_prefix fl = false -> compile fl src = Ok text ->
  exists p fl', wf p = true /\ scan src = Some (toks p) /\ settled fl p fl' /\
    (keeps fl' p = true -> results_inside p = true -> tame fl' p = true ->
     forall gs gs', Forall2 (fun g g' => fst g = fst g' /\ starts_as (snd g) (snd g')) gs gs' ->
       Forall (fun g => variable_name (fst g) = true) gs -> leaves_alone (map fst gs) p = true ->
     forall n w, mean_with ideal (fl_oplib fl) (negb (fl_prefix fl')) n gs p ideal_start = Some (Ok Datatypes.tt, w) ->
     forall q, py_program text q ->
     exists w', unsafe_exec_with library n gs' q fresh_world = Some (Ok Datatypes.tt, w') /\
       Forall2 same_output (iw_outputs w) (rw_outputs w')).
Proof.
  intros fl src text C P E. destruct (runs_with fl src text C P E) as [p [fl' [W [S [H R]]]]].
  exists p, fl'. split; [exact W|split; [exact S|split; [exact H|]]]. intros K I T gs gs' G N L n w Ew q Q.
  destruct (R K I T) as [_ X]. destruct (ideal_with _ _ n gs gs' p _ w G Ew) as [w' [E' O]].
  assert (M : map fst gs' = map fst gs).
  { clear - G. induction G as [|a b l l' [F _] _ IH]; [reflexivity|]. cbn [map]. rewrite F, IH. reflexivity. }
  exists w'. split.
  - rewrite (X q Q _ _ library gs'); [exact E'| |rewrite M; exact L].
    clear - G N. induction G as [|a b l l' [F _] _ IH]; [constructor|]. inversion N; subst. constructor; [rewrite <- F; assumption|].
    apply IH. assumption.
  - pose proof (sf_outputs _ _ O) as O'. clear -O'. induction O' as [|a b x y H _ IH]; constructor; [now apply shows_same|exact IH].
Qed.
Print Assumptions C90_exact.

(** Given: a number, a sequence and a roll. *)
Definition given_source : string :=
  "function: above N:n { result: N + BONUS > 5 } output [above DICE] named ""with [BONUS]"" X: BONUS output X@LIST".
Definition given_program : program :=
  [ SFunction (HWord (WName "above")) [HTyped "N" (SynSpec.PName "n")]
      [SResult (EBin OGt (EBin OAdd (ETerm (TVar "N")) (ETerm (TVar "BONUS"))) (ETerm (TNum "5")))];
    SNamed (ETerm (TCall [CWord (WName "above"); CArg (ETerm (TVar "DICE"))])) (PAny "with ") [PVar "BONUS"];
    SAssign "X" (ETerm (TVar "BONUS"));
    SOutput (EBin OAt (ETerm (TVar "X")) (ETerm (TVar "LIST"))) ].
Definition given_values : list (string * ival) :=
  [ ("BONUS", INum 2); ("LIST", ISeq [7; 8; 9]%Z);
    ("DICE", match ideal_roll (INum 2) (Some (INum 3)) with Ok v => v | _ => INone end) ].
Definition given_objects : list (string * obj) :=
  [ ("BONUS", oint 2); ("LIST", OSeq (map (fun z => VN (NI z)) [7; 8; 9]%Z));
    ("DICE", match fst (roll default_cfg (oint 2) (Some (oint 3)) []) with Ok o => o | _ => ONone end) ].
Example C90_sample :
  exists text, compile default_flags given_source = Ok text /\ scan given_source = Some (toks given_program) /\
    wf given_program = true /\ keeps default_flags given_program = true /\ results_inside given_program = true /\
    tame default_flags given_program = true /\ steady given_program = true /\
    forallb (fun g => variable_name (fst g)) given_values = true /\ leaves_alone (map fst given_values) given_program = true /\
    Forall2 (fun g g' => fst g = fst g' /\ starts_as (snd g) (snd g')) given_values given_objects /\
    ideal_values (mean_with ideal (fl_oplib default_flags) true 3 given_values given_program ideal_start) =
      [ IDice [(0%Z, (1 # 3)%Q); (1%Z, (2 # 3)%Q)] (Some (1, [(0%Z, (1 # 3)%Q); (1%Z, (2 # 3)%Q)])); INum 8 ] /\
    py_program text (py_prog default_flags given_program) /\
    outputs_of (unsafe_exec_with library 3 given_objects (py_prog default_flags given_program) fresh_world) =
      [ ([(0, 1); (1, 2)], Some (OStr "with 2")); ([(8, 1)], None) ]%Z.
Proof.
  eexists. split; [vm_compute; reflexivity|]. do 8 (split; [vm_compute; reflexivity|]). split.
  { constructor; [split; [reflexivity|constructor]|]. constructor; [split; [reflexivity|constructor]|]. constructor; [|constructor].
    split; [reflexivity|]. apply (sa_roll 2 3); vm_compute; reflexivity. }
  split; [vm_compute; reflexivity|]. split; [|vm_compute; reflexivity].
  apply (reads_of given_source); vm_compute; reflexivity.
Qed.

Example C90_only_used_sample :
  let gs : list (string * obj) := [("A", oint 1); ("BONUS", oint 2)] in
  let gs' := [("BONUS", oint 2); ("B", oint 3); ("BONUS", oint 4)] in
  (forall x, In x (flat_map vars_s [SOutput (ETerm (TVar "BONUS"))]) -> variable_in x gs = variable_in x gs') /\
  variable_in "A" gs <> variable_in "A" gs'.
Proof. split; [intros x [<-|[]]; reflexivity|discriminate]. Qed.

(** It does not hold of given variables that a function changes: the function fails. *)
Definition changing : program :=
  [ SFunction (HWord (WName "f")) [] [SAssign "X" (EBin OAdd (ETerm (TVar "X")) (ETerm (TNum "1"))); SResult (ETerm (TVar "X"))];
    SOutput (ETerm (TCall [CWord (WName "f")])) ].
Theorem C90_changed_refuted : exists src p text q,
  scan src = Some (toks p) /\ wf p = true /\ keeps default_flags p = true /\ results_inside p = true /\ tame default_flags p = true /\
  compile default_flags src = Ok text /\ py_program text q /\ leaves_alone ["X"] p = false /\
  forall n, outputs_of (mean_with library (fl_oplib default_flags) true (S n) [("X", oint 5)] p fresh_world) = [([(6, 1)], None)]%Z /\
  exists w, unsafe_exec_with library (S n) [("X", oint 5)] q fresh_world = Some (Err NameErr, w).
Proof.
  exists "function: f { X: X + 1 result: X } output [f]".
  exists changing. eexists. exists (py_prog default_flags changing). do 5 (split; [vm_compute; reflexivity|]). split; [vm_compute; reflexivity|]. split.
  { apply (reads_of "function: f { X: X + 1 result: X } output [f]"); vm_compute; reflexivity. }
  split; [vm_compute; reflexivity|]. intro n. split; [vm_compute; reflexivity|]. eexists. cbv. reflexivity.
Qed.
Print Assumptions C90_changed_refuted.

(** Nor with the option for variables: given variables are not found. *)
Theorem C90_copying_refuted : exists src p text q,
  scan src = Some (toks p) /\ wf p = true /\ keeps copying p = true /\ results_inside p = true /\ tame_over copying p = true /\
  compile copying src = Ok text /\ py_program text q /\
  forall n, outputs_of (mean_with library (fl_oplib copying) true n [("X", oint 5)] p fresh_world) = [([(5, 1)], None)]%Z /\
  exists e, unsafe_exec_with library n [("X", oint 5)] q fresh_world = Some (Err e, fresh_world).
Proof.
  exists "output X". exists [SOutput (ETerm (TVar "X"))]. eexists. exists (py_prog copying [SOutput (ETerm (TVar "X"))]).
  do 5 (split; [vm_compute; reflexivity|]). split; [vm_compute; reflexivity|]. split.
  { apply (reads_in copying "output X"); vm_compute; reflexivity. }
  intro n. split; [vm_compute; reflexivity|]. eexists. vm_compute. reflexivity.
Qed.
Print Assumptions C90_copying_refuted.
