(** C89: functions that work on a copy of the variables of their caller. *)
From Coq Require Import String Ascii Bool List ZArith Arith Lia.
From Verif Require Import PyBase Num Val RVModel Obj LexModel LexSpec LexFacts ParseModel SynSpec ParseSound ParseLaws
  NameSpec ResolveModel ResolveGen CompileFacts PySpec PyDet PyTrans PyReady PyLines PyProg PyCompile PyLaws PyProgLaws
  Runtime PySem ExecModel MeanSpec RunSpec SemFacts SemLaws RunModel Spec ScopeSpec ScopeLaws ScopeLib ScopeSame PropRun.
Import ListNotations.
Open Scope string_scope.
Open Scope nat_scope.
Open Scope list_scope.

(** The option, otherwise the default. *)
Definition copying : flags := mkFlags true false false true.

Lemma reads_in : forall fl src p text, scan src = Some (toks p) -> wf p = true -> keeps fl p = true ->
  results_inside p = true -> squeeze (program_text fl p) = text -> py_program text (py_prog fl p).
Proof. intros fl src p text S W K R <-. apply program_reads; try assumption. exact (scan_good _ _ S). Qed.

(** * C89 *)

(** A program that is accepted, of which the text keeps the expressions, with result:
    only in functions and tame names, when compiled with the option, does exactly what
    it means when a function sees the variables of its caller and works on a copy, under
    any behaviour of the operators and any library with functions that ignore a further
    argument. *)
Theorem C89_copies : forall fl src text, fl_check fl = true -> fl_prefix fl = false -> compile fl src = Ok text ->
  exists p fl', wf p = true /\ scan src = Some (toks p) /\ settled fl p fl' /\
    (keeps fl' p = true -> results_inside p = true -> tame_over fl' p = true ->
     (exists q, py_program text q) /\
     forall q, py_program text q ->
     forall (V W : Type) (rt : runtime V W), lenient rt -> forall fuel w,
       unsafe_exec rt fuel q w = mean_over rt (fl_oplib fl) (negb (fl_prefix fl')) fuel p w).
Proof. exact runs_over. Qed.
Print Assumptions C89_copies.

(** The library has such functions. *)
Theorem C89_library : lenient library.
Proof. exact library_lenient. Qed.
Print Assumptions C89_library.

(** What functions see, and do not change. *)
Definition seen_source : string :=
  "X: 1 function: f { result: X } function: g { X: 2 result: [f] } function: h X:n { X: X + 1 result: [f] }
   output [g] output X output [h 5] output [absolute 0 - X]".
Definition seen_program : program :=
  [ SAssign "X" (ETerm (TNum "1"));
    SFunction (HWord (WName "f")) [] [SResult (ETerm (TVar "X"))];
    SFunction (HWord (WName "g")) [] [SAssign "X" (ETerm (TNum "2")); SResult (ETerm (TCall [CWord (WName "f")]))];
    SFunction (HWord (WName "h")) [HTyped "X" (SynSpec.PName "n")]
      [ SAssign "X" (EBin OAdd (ETerm (TVar "X")) (ETerm (TNum "1"))); SResult (ETerm (TCall [CWord (WName "f")]))];
    SOutput (ETerm (TCall [CWord (WName "g")]));
    SOutput (ETerm (TVar "X"));
    SOutput (ETerm (TCall [CWord (WName "h"); CArg (ETerm (TNum "5"))]));
    SOutput (ETerm (TCall [CWord (WName "absolute"); CArg (EBin OSub (ETerm (TNum "0")) (ETerm (TVar "X")))])) ].

(** Without the option the outputs are 1, 1, 1, 1. *)
Example C89_copies_sample :
  exists text, compile copying seen_source = Ok text /\ scan seen_source = Some (toks seen_program) /\
    wf seen_program = true /\ keeps copying seen_program = true /\ results_inside seen_program = true /\
    tame_over copying seen_program = true /\
    outputs_of (mean_over library false true 9 seen_program fresh_world) =
      [ ([(2, 1)], None); ([(1, 1)], None); ([(6, 1)], None); ([(1, 1)], None) ]%Z /\
    outputs_of (mean_program library false true 9 seen_program fresh_world) =
      [ ([(1, 1)], None); ([(1, 1)], None); ([(1, 1)], None); ([(1, 1)], None) ]%Z /\
    py_program text (py_prog copying seen_program) /\
    outputs_of (unsafe_exec library 9 (py_prog copying seen_program) fresh_world) =
    outputs_of (mean_over library false true 9 seen_program fresh_world).
Proof.
  eexists. split; [vm_compute; reflexivity|]. do 7 (split; [vm_compute; reflexivity|]). split; [|vm_compute; reflexivity].
  apply (reads_in copying seen_source); vm_compute; reflexivity.
Qed.

(** The option changes nothing for programs with functions that use only their
    parameters. *)
Theorem C89_no_difference : forall (V W : Type) (rt : runtime V W) oplib lib fuel p w,
  forallb alone (flat_map functions_s p) = true ->
  mean_over rt oplib lib fuel p w = mean_program rt oplib lib fuel p w.
Proof. intros V W rt oplib lib fuel p w. exact (programs_same rt oplib lib fuel p w). Qed.
Print Assumptions C89_no_difference.

Example C89_no_difference_sample :
  forallb alone (flat_map functions_s fact_program) = true /\
  forallb alone (flat_map functions_s seen_program) = false.
Proof. split; vm_compute; reflexivity. Qed.

Lemma three_fail : forall x y z, rt_lib library LDiv [x; y; z] fresh_world = Some (Err TypeErr, fresh_world).
Proof. intros x y z. reflexivity. Qed.
Lemma third_fails : forall callf a b sc, digits a -> digits b ->
  find "true_div_X_X" sc = Ok (PyLib (GLib LDiv)) -> (exists d, find "vars" sc = Ok (PyDict true d)) ->
  eval library callf sc (PCall (PySpec.PName "true_div_X_X")
    [(None, PNumber a); (None, PNumber b); (None, PySpec.PName "vars")]) fresh_world = Some (Err TypeErr, fresh_world).
Proof.
  intros callf a b sc A B F (d & D). cbn [eval]. unfold number.
  rewrite (point_none a A), (point_none b B), F, D.
  generalize (rt_int library (decimal_value a)) (rt_int library (decimal_value b)). intros x y.
  unfold bnd, lift, ret. cbn [apply split_dict named_args value]. unfold bnd, ret. cbn [app].
  rewrite three_fail. reflexivity.
Qed.

(** With the option, the division of the library always fails. *)
Theorem C89_division_refuted : forall a b n, digits a -> digits b ->
  unsafe_exec library n (py_prog copying
    [SOutput (ETerm (TCall [CWord (WName "true"); CWord (WName "div"); CArg (ETerm (TNum a)); CArg (ETerm (TNum b))]))])
    fresh_world = Some (Err TypeErr, fresh_world).
Proof.
  intros a b n A B.
  change (py_prog copying _) with
    [PAssign (PySpec.PName "vars") PDict;
     PExpr (PCall (PySpec.PName "output")
       [(None, PCall (PySpec.PName "true_div_X_X")
           [(None, PNumber a); (None, PNumber b); (None, PySpec.PName "vars")])])].
  unfold unsafe_exec, run_module. generalize (call_fun library n). intro callf.
  set (sc := bind_name "vars" (@PyDict obj true []) (InModule (@lib_env obj))).
  assert (E : eval library callf sc (PCall (PySpec.PName "output")
     [(None, PCall (PySpec.PName "true_div_X_X")
           [(None, PNumber a); (None, PNumber b); (None, PySpec.PName "vars")])]) fresh_world = Some (Err TypeErr, fresh_world)).
  { assert (T := third_fails callf a b sc A B eq_refl (ex_intro _ [] eq_refl)).
    revert T. generalize (PCall (PySpec.PName "true_div_X_X")
           [(None, PNumber a); (None, PNumber b); (None, PySpec.PName "vars")]).
    intros e T. cbn [eval]. change (find "output" sc) with (Ok (@PyLib obj GOutput)). unfold bnd, lift, ret. rewrite T. reflexivity. }
  revert E. generalize (PCall (PySpec.PName "output")
     [(None, PCall (PySpec.PName "true_div_X_X")
           [(None, PNumber a); (None, PNumber b); (None, PySpec.PName "vars")])]).
  intros e E. cbn [exec_block exec eval]. change (shared PDict (@PyDict obj true [])) with false.
  fold sc. unfold bnd, ret. cbn [shared]. fold sc. rewrite E. reflexivity.
Qed.
Print Assumptions C89_division_refuted.

Example C89_division_sample :
  let src := "output [true div 7 2] > 3" in
  let p := [SOutput (EBin OGt (ETerm (TCall [CWord (WName "true"); CWord (WName "div"); CArg (ETerm (TNum "7")); CArg (ETerm (TNum "2"))]))
                      (ETerm (TNum "3")))] in
  scan src = Some (toks p) /\ wf p = true /\ (exists text, compile copying src = Ok text /\ py_program text (py_prog copying p)) /\
  outputs_of (mean_over library false true 9 p fresh_world) = [ ([(1, 1)], None) ]%Z /\
  unsafe_exec library 9 (py_prog copying p) fresh_world = Some (Err TypeErr, fresh_world) /\
  outputs_of (unsafe_exec library 9 (py_prog default_flags p) fresh_world) = [ ([(1, 1)], None) ]%Z.
Proof.
  cbv zeta. split; [vm_compute; reflexivity|]. split; [vm_compute; reflexivity|]. split.
  - eexists. split; [vm_compute; reflexivity|]. apply (reads_in copying "output [true div 7 2] > 3"); vm_compute; reflexivity.
  - repeat split; vm_compute; reflexivity.
Qed.
