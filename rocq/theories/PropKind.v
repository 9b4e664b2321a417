(** C105: the kinds of values that programs can output. *)
From Coq Require Import String Ascii Bool List ZArith.
From Verif Require Import PyBase Num Val RVModel Obj LexModel ParseModel SynSpec NameSpec ResolveModel PyDet PyTrans PyProgLaws Runtime PySem ExecModel MeanSpec RunSpec
  RunModel PlyParseModel PipeModel SessSpec MainModel MainSpec SameSpec SameText PropYacc PropSame KindSpec KindFacts KindRun.
Import ListNotations.
Open Scope string_scope.
Open Scope list_scope.

(** Whatever a program does, also if it raises an exception: each value that it outputs is a
    number, label, text, sequence, die or blank, and each name a text. *)
Theorem C105_outputs : forall oplib lib fuel p w r w', Forall good_output (rw_outputs w) ->
  mean_program library oplib lib fuel p w = Some (r, w') -> Forall good_output (rw_outputs w').
Proof. exact outputs_good. Qed.
Print Assumptions C105_outputs.

(** The same for the text of a program, after any other texts. *)
Theorem C105_texts : forall show ftext square fl n src p fl' w r w', fl_check fl = true -> fl_prefix fl = false ->
  says fl src p fl' -> turn show ftext square fl n src w r w' -> Forall good_output (rw_outputs w').
Proof.
  intros show ftext square fl n src p fl' w r w' C P S H. destruct (says_runs fl n C P _ _ _ S) as (text & q & CO & Q & X).
  pose proof (proj1 (C94_compiler _ _ _) CO) as CO1.
  assert (N : Forall good_output (rw_outputs (next_run w))) by constructor.
  destruct H as [c Hc NN|e Hc|t q1 e u Hc Hq Hu|t q1 u Hc Hq Hu]; apply C94_compiler in Hc; rewrite CO1 in Hc.
  - subst c. destruct NN.
  - discriminate.
  - injection Hc as <-. rewrite (py_program_det _ _ _ Hq Q), X in Hu. exact (outputs_good _ _ _ _ _ _ _ N Hu).
  - injection Hc as <-. rewrite (py_program_det _ _ _ Hq Q), X in Hu. exact (outputs_good _ _ _ _ _ _ _ N Hu).
Qed.
Print Assumptions C105_texts.

(** An expression of such values is one, wherever it stands: a function that gives no result
    has a blank as its value. *)
Theorem C105_expressions : forall oplib fuel pl e w v w',
  Forall (fun xv => dice_value (snd xv)) (pl_globals pl) ->
  match pl_own pl with Some own => Forall (fun xv => dice_value (snd xv)) own | None => True end ->
  Forall good_output (rw_outputs w) ->
  mean_e library oplib (call_defined library oplib fuel) pl e w = Some (Ok v, w') -> dice_value v.
Proof. intros oplib fuel pl e w v w' G O. exact (expression_value oplib fuel pl e w v w' (conj G O)). Qed.
Print Assumptions C105_expressions.

(** ** A program *)

(** A function without result, one that gives results for some numbers only, and blanks in
    sums. *)
Definition nothing_source : string :=
  "function: f N:n { if N > 2 { result: N } } function: g X { } output [f d4] output [g 1] + 2 output {[g 1], 1..2} output [f 1] named ""none"" loop X over ""ab"" { output X }".
Definition call_f (e : expr) : expr := ETerm (TCall [CWord (WName "f"); CArg e]).
Definition call_g : expr := ETerm (TCall [CWord (WName "g"); CArg (ETerm (TNum "1"))]).
Definition nothing_program : program :=
  [ SFunction (HWord (WName "f")) [HTyped "N" (SynSpec.PName "n")] [SIf (Branch (EBin SynSpec.OGt (ETerm (TVar "N")) (ETerm (TNum "2"))) [SResult (ETerm (TVar "N"))]) [] None];
    SFunction (HWord (WName "g")) [HParam "X"] [];
    SOutput (call_f (EDie (TNum "4"))); SOutput (EBin SynSpec.OAdd call_g (ETerm (TNum "2")));
    SOutput (ETerm (TSeq [LOne call_g; LRange (ETerm (TNum "1")) (ETerm (TNum "2"))]));
    SNamed (call_f (ETerm (TNum "1"))) (PAny "none") [];
    SLoop "X" (ETerm (TStr (PAny "ab") [])) [SOutput (ETerm (TVar "X"))] ].
Lemma nothing_says : says default_flags nothing_source nothing_program default_flags.
Proof. said. Qed.
Example C105_example : forall show ftext square n w r w', turn show ftext square default_flags n nothing_source w r w' -> Forall good_output (rw_outputs w').
Proof.
  intros show ftext square n w r w'. exact (C105_texts show ftext square default_flags n nothing_source nothing_program default_flags w r w' eq_refl eq_refl nothing_says).
Qed.
Example C105_sample :
  match what_of nothing_program with
  | Some (Ok _, [(ORV x, None); (two, None); (OSeq l, None); (OBlank false, Some (OStr "none")); (OStr "a", None); (OStr "b", None)]) =>
      map fst (rv_dist x) = [vint 3; vint 4] /\ two = oint 2 /\ l = [vint 1; vint 2]
  | _ => False
  end.
Proof. vm_compute. repeat split. Qed.
Example C105_not_everything : ~ dice_value ONone /\ ~ dice_value (OIter [oint 1]).
Proof. split; intros H; inversion H. Qed.
