(** C81, C82: what happens when a generated program is executed. *)
From Coq Require Import String Ascii Bool List ZArith QArith Arith Lia.
From Verif Require Import PyBase Num Val RVModel Obj LexModel LexSpec LexFacts GramModel ParseModel SynSpec ParseSound ParseLaws
  NameSpec ResolveModel ResolveGen CompileFacts PySpec PyDet PyTrans PyReady PyLines PyProg PyCompile PyLaws PyProgLaws
  Runtime PySem ExecModel MeanSpec RunSpec SemLaws RunModel StopSpec StopFacts StopLaws Spec RoundFacts PrintSpec NumSpec LitFacts.
Import ListNotations.
Open Scope string_scope.
Open Scope nat_scope.
Open Scope list_scope.

Lemma reads_of : forall src p text, scan src = Some (toks p) -> wf p = true -> keeps default_flags p = true ->
  results_inside p = true -> squeeze (program_text default_flags p) = text -> py_program text (py_prog default_flags p).
Proof.
  intros src p text S W K R <-. apply program_reads; try assumption. exact (scan_good _ _ S).
Qed.

(** * C81 *)

(** A program that the compiler accepts, of which the text keeps the expressions,
    with result: only in functions, and with tame names, does when executed as
    generated Python exactly what the program means: the same outputs in the same
    order, the same failures, the same effect on the state, under any behaviour of
    the operators and functions of the library. *)
Theorem C81_runs_as_meant : forall fl src text, fl_check fl = true -> fl_prefix fl = false -> compile fl src = Ok text ->
  exists p fl', wf p = true /\ scan src = Some (toks p) /\ settled fl p fl' /\
    (keeps fl' p = true -> results_inside p = true -> tame fl' p = true ->
     (exists q, py_program text q) /\
     forall q, py_program text q ->
     forall (V W : Type) (rt : runtime V W) fuel w,
       unsafe_exec rt fuel q w = mean_program rt (fl_oplib fl) (negb (fl_prefix fl')) fuel p w).
Proof. exact runs_as_meant. Qed.
Print Assumptions C81_runs_as_meant.

(** A program with a recursive function, a loop, a condition and named outputs. *)
Definition fact_source : string :=
  "function: fact N:n { if N < 2 { result: 1 } result: N * [fact N - 1] }
   output [fact 5]
   loop I over {1..2} { output I d 2 named ""dice [I]"" }
   output [fact d3]".

Definition fact_program : program :=
  [ SFunction (HWord (WName "fact")) [HTyped "N" (SynSpec.PName "n")]
      [ SIf (Branch (EBin OLt (ETerm (TVar "N")) (ETerm (TNum "2"))) [SResult (ETerm (TNum "1"))]) [] None;
        SResult (EBin OMul (ETerm (TVar "N"))
          (ETerm (TCall [CWord (WName "fact"); CArg (EBin OSub (ETerm (TVar "N")) (ETerm (TNum "1")))]))) ];
    SOutput (ETerm (TCall [CWord (WName "fact"); CArg (ETerm (TNum "5"))]));
    SLoop "I" (ETerm (TSeq [LRange (ETerm (TNum "1")) (ETerm (TNum "2"))]))
      [SNamed (EDice (TVar "I") (TNum "2")) (PAny "dice ") [PVar "I"]];
    SOutput (ETerm (TCall [CWord (WName "fact"); CArg (EDie (TNum "3"))])) ].

(** What an output shows: the whole numbers it may be, with their weights. *)
Definition shown (o : obj) : list (Z * Z) :=
  match o with
  | OV (VN (NI z)) => [(z, 1%Z)]
  | ORV r => map (fun vp => (match fst vp with VN (NI z) => z | _ => 0%Z end, snd vp)) (rv_dist r)
  | _ => []
  end.
Definition outputs_of (r : option (res unit * world)) : list (list (Z * Z) * option obj) :=
  match r with Some (Ok _, w) => map (fun on => (shown (fst on), snd on)) (rw_outputs w) | _ => [] end.

Example C81_sample :
  exists text, compile default_flags fact_source = Ok text /\ scan fact_source = Some (toks fact_program) /\
    wf fact_program = true /\ keeps default_flags fact_program = true /\ results_inside fact_program = true /\
    tame default_flags fact_program = true /\
    outputs_of (mean_program library (fl_oplib default_flags) true 9 fact_program fresh_world) =
      [ ([(120, 1)], None);
        ([(1, 1); (2, 1)], Some (OStr "dice 1"));
        ([(2, 1); (3, 2); (4, 1)], Some (OStr "dice 2"));
        ([(1, 1); (2, 1); (6, 1)], None) ]%Z /\
    py_program text (py_prog default_flags fact_program) /\
    outputs_of (unsafe_exec library 9 (py_prog default_flags fact_program) fresh_world) =
    outputs_of (mean_program library (fl_oplib default_flags) true 9 fact_program fresh_world).
Proof.
  eexists. split; [vm_compute; reflexivity|]. do 6 (split; [vm_compute; reflexivity|]). split; [|vm_compute; reflexivity].
  apply (reads_of fact_source); vm_compute; reflexivity.
Qed.

(** Without tame names it does not hold.  For a program and a failure: the program
    is accepted, its text keeps its expressions, it means something, its generated
    Python fails. *)
Definition goes_wrong (src : string) (out : list (Z * Z)) (e : pyerr) : Prop :=
  exists p text q w, scan src = Some (toks p) /\ wf p = true /\ keeps default_flags p = true /\ results_inside p = true /\
    compile default_flags src = Ok text /\ py_program text q /\
    forall n, outputs_of (mean_program library (fl_oplib default_flags) true (S n) p fresh_world) = [(out, None)] /\
    unsafe_exec library (S n) q fresh_world = Some (Err e, w).

Ltac wrong src p :=
  exists p; eexists; exists (py_prog default_flags p); eexists;
  split; [vm_compute; reflexivity|split; [vm_compute; reflexivity|split; [vm_compute; reflexivity|
  split; [vm_compute; reflexivity|split; [vm_compute; reflexivity|split; [apply (reads_of src); vm_compute; reflexivity|]]]]]];
  intro n; split; [vm_compute; reflexivity|].

Theorem C81_names_refuted :
  goes_wrong "X: 5 function: f { if 0 { X: 1 } result: X } output [f]" [(5, 1)]%Z NameErr /\
  goes_wrong "function: len { result: 7 } output #{1,2}" [(2, 1)]%Z TypeErr /\
  goes_wrong "function: A:n { result: 7 } X: 3 output [5]" [(7, 1)]%Z TypeErr.
Proof.
  split; [|split].
  - wrong "X: 5 function: f { if 0 { X: 1 } result: X } output [f]"
      [ SAssign "X" (ETerm (TNum "5"));
        SFunction (HWord (WName "f")) []
          [ SIf (Branch (ETerm (TNum "0")) [SAssign "X" (ETerm (TNum "1"))]) [] None; SResult (ETerm (TVar "X")) ];
        SOutput (ETerm (TCall [CWord (WName "f")])) ].
    cbv. reflexivity.
  - wrong "function: len { result: 7 } output #{1,2}"
      [ SFunction (HWord (WName "len")) [] [SResult (ETerm (TNum "7"))];
        SOutput (ETerm (THash (TSeq [LOne (ETerm (TNum "1")); LOne (ETerm (TNum "2"))]))) ].
    cbv. reflexivity.
  - wrong "function: A:n { result: 7 } X: 3 output [5]"
      [ SFunction (HTyped "A" (SynSpec.PName "n")) [] [SResult (ETerm (TNum "7"))]; SAssign "X" (ETerm (TNum "3"));
        SOutput (ETerm (TCall [CArg (ETerm (TNum "5"))])) ].
    cbv. reflexivity.
Qed.
Print Assumptions C81_names_refuted.

(** Nor for expressions that the text does not keep (C71).  For a program and two
    numbers: the program means to output the first, its generated Python outputs the
    second. *)
Definition misunderstood (src : string) (meant done : Z) : Prop :=
  exists p text q, scan src = Some (toks p) /\ wf p = true /\ results_inside p = true /\ tame default_flags p = true /\
    compile default_flags src = Ok text /\ py_program text q /\
    forall n, outputs_of (mean_program library (fl_oplib default_flags) true (S n) p fresh_world) = [([(meant, 1)], None)]%Z /\
    outputs_of (unsafe_exec library (S n) q fresh_world) = [([(done, 1)], None)]%Z.

Ltac read_in := unfold comparisons, level_ops; simpl; intuition congruence.
Ltac read_none := first [exact I | unfold next_not; read_in].
Ltac read_expr :=
  lazymatch goal with
  | |- reads 0 _ _ _ => eapply rd_cmp; [read_expr|read_expr]
  | |- reads 5 (PO ?o :: _) _ _ => first [eapply rd_un; [solve [read_in]|read_expr] | eapply rd_noun; [read_none|read_expr]]
  | |- reads 5 _ _ _ => eapply rd_noun; [read_none|read_expr]
  | |- reads 6 _ _ _ => first [eapply rd_pow; [solve [read_expr]|read_expr] | eapply rd_nopow; [read_expr|read_none]]
  | |- reads 7 _ _ _ => eapply rd_primary; [read_expr|read_expr]
  | |- reads 8 (PN _ :: _) _ _ => eapply rd_name; unfold py_name, py_keywords; read_in
  | |- reads 8 (PNum _ :: _) _ _ => eapply rd_number; apply number_plain; reflexivity
  | |- reads _ _ _ _ => eapply rd_bin; [lia|read_expr|read_expr]
  | |- chain (PO _ :: _) _ _ => first [eapply ch_more; [solve [read_in]|read_expr|read_expr] | eapply ch_stop; read_none]
  | |- chain _ _ _ => eapply ch_stop; read_none
  | |- loop _ _ (PO _ :: _) _ _ => first [eapply lp_more; [solve [read_in]|read_expr|read_expr] | eapply lp_stop; read_none]
  | |- loop _ _ _ _ _ => eapply lp_stop; read_none
  | |- trailers _ (PO "(" :: _) _ _ => eapply tr_call; [read_expr|read_expr]
  | |- trailers _ _ _ _ => eapply tr_stop; read_none
  | |- args _ _ _ => eapply ar_last; [read_expr|read_none]
  | |- arg _ _ _ => eapply ag_plain; [intros; congruence|read_expr]
  end.
Ltac not_open := intros [ts E]; vm_compute in E; injection E as E; apply (f_equal (fun l => last l (PO ""))) in E;
  rewrite last_last in E; discriminate E.
Ltac read_line :=
  split;
  [ eexists; vm_compute (code_lines _); split;
    [ eapply bl_line; [not_open|apply bl_end]
    | eapply (st_line _ _ [_] [] []); [vm_compute; reflexivity|apply ss_last; apply sm_expr; [read_expr|read_none]|apply st_nil] ]
  | repeat split; repeat constructor ].
Ltac misread p :=
  exists p; eexists; eexists; do 4 (split; [vm_compute; reflexivity|]); split; [vm_compute; reflexivity|]; split; [read_line|];
  intro n; split; vm_compute; reflexivity.

Theorem C81_structure_refuted :
  misunderstood "output 2^3^2" 64 512 /\ misunderstood "output 1<3>2" 0 1 /\ misunderstood "output 3=3=1" 1 0 /\
  misunderstood "output -2^2" 4 (-4).
Proof.
  split; [|split; [|split]].
  - misread [SOutput (EBin OPow (EBin OPow (ETerm (TNum "2")) (ETerm (TNum "3"))) (ETerm (TNum "2")))].
  - misread [SOutput (EBin OGt (EBin OLt (ETerm (TNum "1")) (ETerm (TNum "3"))) (ETerm (TNum "2")))].
  - misread [SOutput (EBin OEq (EBin OEq (ETerm (TNum "3")) (ETerm (TNum "3"))) (ETerm (TNum "1")))].
  - misread [SOutput (EBin OPow (ETerm (TUn UNeg (TNum "2"))) (ETerm (TNum "2")))].
Qed.
Print Assumptions C81_structure_refuted.

(** Numbers mean what their digits say; with a decimal point, the nearest double.
    [decimal] and [fraction] (PrintSpec.v, NumSpec.v) are the values of digits before and
    after the point. *)
Theorem C81_numbers : forall oplib lib n a i w, decimal 0 a = Some i ->
  mean_program library oplib lib (S n) [SOutput (ETerm (TNum a))] w =
    Some (Ok Datatypes.tt, mkWorld (rw_settings w) (rw_memo w) (rw_outputs w ++ [(oint i, None)]) (rw_printed w)) /\
  (forall b f, (i <= 10 ^ 300)%Z -> fraction b = Some f ->
   exists r, nearest_double (inject_Z i + f) (numQ r) /\ is_int r = false /\
   mean_program library oplib lib (S n) [SOutput (ETerm (TDec a b))] w =
     Some (Ok Datatypes.tt, mkWorld (rw_settings w) (rw_memo w) (rw_outputs w ++ [(OV (VN r), None)]) (rw_printed w))).
Proof.
  intros oplib lib n a i w H. split; [now apply whole_number|]. intros b f L F. now apply decimal_number.
Qed.
Print Assumptions C81_numbers.

Example C81_numbers_sample : decimal 0 "12" = Some 12%Z /\ (exists f, fraction "50" = Some f /\ (f == 1 # 2)%Q) /\
  scan "output 12.50" = Some (toks [SOutput (ETerm (TDec "12" "50"))]) /\
  exists w, mean_program library true true 1 [SOutput (ETerm (TDec "12" "50"))] fresh_world = Some (Ok Datatypes.tt, w) /\
    map fst (rw_outputs w) = [OV (VN (NF 25 (-1)))].
Proof.
  split; [reflexivity|]. split; [eexists; split; vm_compute; reflexivity|]. split; [vm_compute; reflexivity|].
  eexists. split; vm_compute; reflexivity.
Qed.

(** * C82 *)

(** A program of which no function sets the maximum function depth always comes to
    an end, with or without a failure, whatever it calls and however it recurses. *)
Theorem C82_stops : forall oplib lib p w, steady p = true ->
  exists r w' n, forall k, n <= k -> mean_program library oplib lib k p w = Some (r, w').
Proof.
  intros oplib lib p w H. destruct (steady_stops oplib lib p w H) as [r [w' [n N]]]. now exists r, w', n.
Qed.
Print Assumptions C82_stops.

(** So does its generated Python. *)
Theorem C82_executions_stop : forall fl src text, fl_check fl = true -> fl_prefix fl = false -> compile fl src = Ok text ->
  exists p fl', wf p = true /\ scan src = Some (toks p) /\ settled fl p fl' /\
    (keeps fl' p = true -> results_inside p = true -> tame fl' p = true -> steady p = true ->
     forall q, py_program text q -> forall w,
     exists r w' n, forall k, n <= k -> unsafe_exec library k q w = Some (r, w')).
Proof.
  intros fl src text C P E. destruct (runs_as_meant fl src text C P E) as [p [fl' [W [S [H R]]]]].
  exists p, fl'. split; [exact W|split; [exact S|split; [exact H|]]]. intros K I T D q Q w.
  destruct (R K I T) as [_ X]. destruct (C82_stops (fl_oplib fl) (negb (fl_prefix fl')) p w D) as [r [w' [n N]]].
  exists r, w', n. intros k Lk. rewrite (X q Q). now apply N.
Qed.
Print Assumptions C82_executions_stop.

(** A function that calls itself for ever is stopped by the limit. *)
Example C82_sample :
  let p := [ SFunction (HWord (WName "f")) [HTyped "N" (SynSpec.PName "n")]
               [ SResult (EBin OAdd (ETerm (TNum "1")) (ETerm (TCall [CWord (WName "f"); CArg (ETerm (TVar "N"))]))) ];
             SOutput (ETerm (TCall [CWord (WName "f"); CArg (ETerm (TNum "3"))])) ] in
  scan "function: f N:n { result: 1 + [f N] } output [f 3]" = Some (toks p) /\ wf p = true /\
  steady p = true /\ keeps default_flags p = true /\ tame default_flags p = true /\ results_inside p = true /\
  outputs_of (mean_program library (fl_oplib default_flags) true 15 p fresh_world) = [([(10, 1)], None)]%Z.
Proof. cbv zeta. repeat split; vm_compute; reflexivity. Qed.

(** A function may raise the limit in each call, and then the program never ends. *)
Theorem C82_raised_refuted : exists src p, scan src = Some (toks p) /\ wf p = true /\
  forall oplib lib n, mean_program library oplib lib n p fresh_world = None.
Proof.
  exists "function: grow N:n { set ""maximum function depth"" to N result: [grow N + 1] } output [grow 11]", growing.
  split; [vm_compute; reflexivity|split; [vm_compute; reflexivity|]]. exact growing_never_stops.
Qed.
Print Assumptions C82_raised_refuted.

(** Both are executed as they are meant. *)
Example C82_raised_sample :
  let src := "function: grow N:n { set ""maximum function depth"" to N result: [grow N + 1] } output [grow 11]" in
  steady growing = false /\ keeps default_flags growing = true /\ results_inside growing = true /\
  tame default_flags growing = true /\
  exists text, compile default_flags src = Ok text /\ py_program text (py_prog default_flags growing).
Proof.
  cbv zeta. do 4 (split; [vm_compute; reflexivity|]). eexists. split; [vm_compute; reflexivity|].
  apply (reads_of "function: grow N:n { set ""maximum function depth"" to N result: [grow N + 1] } output [grow 11]");
    vm_compute; reflexivity.
Qed.
