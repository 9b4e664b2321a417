(** C76-C79: the parser. *)
From Coq Require Import String Bool List Arith.
From Verif Require Import PyBase LexModel LexSpec GramModel ParseModel LrFacts SynSpec ExprParse StmtParse ParseSound ParseLaws.
Import ListNotations.
Open Scope list_scope.

(** For every text the lexer accepts: the parser accepts it iff it is the text
    of a well-formed program, and then it returns the tree of that program.
    Programs, their texts, their trees and well-formedness (precedence, grouping
    to the left, neighbouring arguments) are defined in SynSpec.v. *)
Theorem C79_language : forall src ts v, scan src = Some ts ->
  (parse ts = Ok v <-> exists p, wf p = true /\ toks p = ts /\ v = VNode (tree p)).
Proof. intros src ts v H. exact (parse_exact ts v (scan_good src ts H)). Qed.
Print Assumptions C79_language.

(** A text has only one reading. *)
Theorem C79_unambiguous : forall p q, wf p = true -> wf q = true -> toks p = toks q -> tree p = tree q.
Proof. exact unambiguous. Qed.
Print Assumptions C79_unambiguous.

Definition sample : program :=
  [SFunction (HWord (WName "f")) [HTyped "X" (PName "s"); HD]
     [SIf (Branch (EBin OLe (ETerm (TVar "X")) (ETerm (TNum "3"))) [SResult (ETerm (TNum "1"))])
          [] (Some [SLoop "I" (ETerm (TSeq [LRange (ETerm (TNum "1")) (ETerm (TNum "9"))])) []])];
   SNamed (EBin OAdd (EDice (TNum "2") (TNum "6")) (ETerm (TCall [CWord (WName "f"); CArg (EDie (TNum "4"))])))
     (PAny "it is ") [PVar "X"]].

Example C79_sample : wf sample = true /\
  scan "function: f X:s d { if X<=3 { result: 1 } else { loop I over {1..9} { } } }
        output 2d6 + [f d4] named ""it is [X]""" = Some (toks sample).
Proof. split; vm_compute; reflexivity. Qed.

(** Two operators: the tighter one first, the left one first if they are equal. *)
Theorem C76_precedence : forall a b c o1 o2, wf_t a = true -> wf_t b = true -> wf_t c = true ->
  parse (kwt kOutput :: toks_t a ++ op_toks o1 ++ toks_t b ++ op_toks o2 ++ toks_t c) =
  Ok (VNode (Node MULTILINE_CODE [inr (Node OUTPUT [inr
    (if Nat.leb (op_level o2) (op_level o1)
     then Node EXPR_OP [inl (op_text o2);
            inr (Node EXPR_OP [inl (op_text o1); inr (node_t a); inr (node_t b)]); inr (node_t c)]
     else Node EXPR_OP [inl (op_text o1); inr (node_t a);
            inr (Node EXPR_OP [inl (op_text o2); inr (node_t b); inr (node_t c)])])])])).
Proof. exact two_ops. Qed.
Print Assumptions C76_precedence.

(** Every expression: operators of one level group to the left, tighter ones
    first ([wf_e]), in chains of any length and at any depth; and the operands
    of operators are dice and unary terms, which bind tighter. *)
Theorem C76_expressions : forall e, wf_e e = true ->
  parse (kwt kOutput :: toks_e e)
    = Ok (VNode (Node MULTILINE_CODE [inr (Node OUTPUT [inr (node_e e)])])).
Proof.
  intros e W. pose proof (parse_complete [SOutput e]) as P. unfold wf, toks in P.
  cbn [forallb wf_s flat_map toks_s] in P. rewrite W, app_nil_r in P. exact (P eq_refl).
Qed.
Print Assumptions C76_expressions.

(** The fully bracketed rendering of any tree of operators gives back the tree. *)
Theorem C76_brackets : forall x, leaves_wf x = true ->
  exists n, parse (toks [SOutput (bracketed x)])
              = Ok (VNode (Node MULTILINE_CODE [inr (Node OUTPUT [inr n])])) /\ stands_for n x.
Proof. exact brackets_decide. Qed.
Print Assumptions C76_brackets.

Example C76_sample :
  scan "output 1-2-3*4^5^6 = 7 & A" =
  Some (kwt kOutput :: toks_e
    (EBin OAnd (EBin OEq
       (EBin OSub (EBin OSub (ETerm (TNum "1")) (ETerm (TNum "2")))
          (EBin OMul (ETerm (TNum "3"))
             (EBin OPow (EBin OPow (ETerm (TNum "4")) (ETerm (TNum "5"))) (ETerm (TNum "6")))))
       (ETerm (TNum "7"))) (ETerm (TVar "A")))) /\
  wf_e (EBin OAnd (EBin OEq
       (EBin OSub (EBin OSub (ETerm (TNum "1")) (ETerm (TNum "2")))
          (EBin OMul (ETerm (TNum "3"))
             (EBin OPow (EBin OPow (ETerm (TNum "4")) (ETerm (TNum "5"))) (ETerm (TNum "6")))))
       (ETerm (TNum "7"))) (ETerm (TVar "A"))) = true.
Proof. split; vm_compute; reflexivity. Qed.
Example C76_brackets_sample :
  leaves_wf (Op OSub (Leaf (TNum "1")) (Op OSub (Leaf (TVar "A")) (Leaf (TUn UNeg (TNum "3"))))) = true.
Proof. reflexivity. Qed.

(** A call whose first argument is a call, followed by a word: IndexError,
    whatever the calls are and whatever comes later. *)
Theorem C77_nested_call_refuted : forall cs w ts, wf_t (TCall cs) = true ->
  parse (kwt kOutput :: (tLBRACKET, "["%string) :: toks_t (TCall cs) ++ word_tok w :: ts) = Err IndexErr.
Proof. exact nested_call_fails. Qed.
Print Assumptions C77_nested_call_refuted.

Theorem C77_nameless_function_refuted : forall ts,
  parse (kwt kFunction :: colon :: (tLBRACE, "{"%string) :: ts) = Err IndexErr.
Proof. exact nameless_fails. Qed.
Print Assumptions C77_nameless_function_refuted.

(** These two are the only shapes that crash: everything else is either
    accepted (C79) or reported as a syntax error. *)
Theorem C77_only_crashes : forall src ts e, scan src = Some ts -> parse ts = Err e ->
  e = AssertErr \/
  (e = IndexErr /\
   ((exists pre post, ts = pre ++ [kwt kFunction; colon; (tLBRACE, "{"%string)] ++ post) \/
    (exists pre cs post, ts = pre ++ (tLBRACKET, "["%string) :: toks_t (TCall cs) ++ post))).
Proof. intros src ts e H. exact (parse_errors ts e (scan_good src ts H)). Qed.
Print Assumptions C77_only_crashes.

Example C77_sample : wf_t (TCall [CWord (WName "f")]) = true /\
  scan "output [[f] g]" = Some (kwt kOutput :: (tLBRACKET, "["%string) ::
     toks_t (TCall [CWord (WName "f")]) ++ [word_tok (WName "g"); (tRBRACKET, "]"%string)]) /\
  option_map parse (scan "output [g [f]]") = Some (Ok (VNode (tree
     [SOutput (ETerm (TCall [CWord (WName "g"); CArg (ETerm (TCall [CWord (WName "f")]))]))]))).
Proof. repeat split; vm_compute; reflexivity. Qed.

(** The parser stops on every token sequence, after a number of steps linear in
    its length. *)
Theorem C78_terminates : forall ts, exists r, parse_run (20 * S (length ts)) [] ts = Some r.
Proof. exact parse_stops. Qed.
Print Assumptions C78_terminates.

(** More time does not change the answer. *)
Theorem C78_deterministic : forall n ts r, parse_run n [] ts = Some r -> parse ts = r.
Proof. exact parse_run_fuel. Qed.
Print Assumptions C78_deterministic.
