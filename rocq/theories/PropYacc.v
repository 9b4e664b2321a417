(** C94: the parser is the one that ply makes of the grammar written in the code, and the
    compiler gives what the lexer and the parser of ply make of a text. *)
From Coq Require Import String Bool List Arith ZArith Lia.
From Verif Require Import PyBase LexModel GramModel ParseModel LrFacts ParseSound ParseLaws ResolveModel ReportModel ReportFacts ReportLaws PlyLexModel PlySpec PlyLexFacts PropPly PlyYaccModel PlyYaccSpec PlyParseModel PlyYaccFacts.
Import ListNotations.
Open Scope string_scope.
Open Scope list_scope.

(** A parser is built; every token and every rule of the grammar is used, and no symbol is
    out of reach: nothing is written to the log. *)
Theorem C94_built :
  (exists P T, build_parser = Some (P, T)) /\
  exists g, yacc_grammar token_names prec_table p_functions start_name = Some (g, mkReports [] [] []).
Proof. split; [exists PlyYaccFacts.P, Tb; exact parser_built|exact reports_nothing_built]. Qed.
Print Assumptions C94_built.

(** Its rules, read from the texts of the functions, are those of GramModel.v, with their
    numbers, precedences, functions and lines. *)
Theorem C94_rules : forall P T, build_parser = Some (P, T) ->
  P = map as_production (combine (seq 0 (List.length prods)) prods).
Proof. intros P T B. rewrite parser_built in B. injection B as <- <-. exact rules_built. Qed.
Print Assumptions C94_rules.

(** Its tables are those of GramModel.v with other numbers for the states. *)
Theorem C94_tables : forall P T, build_parser = Some (P, T) ->
  exists number : nat -> Z,
    number 0 = 0%Z /\
    (forall q q', q < nstates -> q' < nstates -> number q = number q' -> q = q') /\
    (forall q, q < nstates -> (0 <= number q < Z.of_nat (List.length (lr_action T)))%Z) /\
    List.length (lr_action T) = nstates /\
    (forall q t, q < nstates ->
       table_entry (lr_action T) (number q) (type_name t) = option_map (fun a => Some (action_number number a)) (get_act t (act_row q))) /\
    (forall q n, q < nstates -> table_entry (lr_goto T) (number q) (nt_name n) = option_map number (assoc_nt n (goto_row q))).
Proof.
  intros P T B. rewrite parser_built in B. injection B as <- <-. exists PlyYaccFacts.number.
  assert (POS : forall q, q < nstates -> (0 <= PlyYaccFacts.number q < Z.of_nat (List.length (lr_action Tb)))%Z).
  { intros q L. assert (C : forallb (fun q => (Z.leb 0 (PlyYaccFacts.number q) && Z.ltb (PlyYaccFacts.number q) (Z.of_nat (List.length (lr_action Tb))))%bool) all_states = true) by (vm_compute; reflexivity).
    pose proof (for_states _ C q L) as H. cbn beta in H. apply andb_prop in H. destruct H as [H1 H2].
    apply Z.leb_le in H1. apply Z.ltb_lt in H2. lia. }
  split; [reflexivity|]. split.
  { intros q q' L L' E. pose proof numbers_differ as N. rewrite (NoDup_nth _ 0%Z) in N. rewrite map_length in N.
    unfold all_states in N. rewrite seq_length in N. specialize (N q q' L L').
    assert (AT : forall k, k < nstates -> nth k (map PlyYaccFacts.number (seq 0 nstates)) 0%Z = PlyYaccFacts.number k).
    { intros k K. rewrite (nth_indep _ 0%Z (PlyYaccFacts.number 0)) by (now rewrite map_length, seq_length). rewrite map_nth, seq_nth by exact K. reflexivity. }
    apply N. now rewrite !AT. }
  split; [exact POS|]. split; [vm_compute; reflexivity|]. split.
  - intros q t L. destruct (actions_built q L) as (row & R & A & _). unfold table_entry. unfold row_of in R.
    rewrite (proj2 (Z.ltb_ge _ _)) in R by (pose proof (POS q L); lia). rewrite R, A. destruct (get_act t (act_row q)); reflexivity.
  - intros q n L. destruct (gotos_built q L) as (row & R & A). unfold table_entry. unfold row_of in R.
    rewrite (proj2 (Z.ltb_ge _ _)) in R by (pose proof (POS q L); lia). rewrite R. apply A.
Qed.
Print Assumptions C94_tables.

(** On any tokens the parser ends, in the one way that the model of C92 says, whatever the
    parse before has left in [errorok]. *)
Theorem C94_parse : forall P T (errorok : bool) ts r, build_parser = Some (P, T) ->
  ~ In tEnd (map (fun t => fst (fst t)) ts) ->
  finishes P T (parse_start errorok (map ply_token ts)) r <->
  match yacc ts with
  | YReturn v refused => r = PReturn v (map ply_token refused)
  | YRaise e => r = PRaise e
  | YGo _ => False
  end.
Proof.
  intros P T ok ts r B N. rewrite parser_built in B. injection B as <- <-.
  assert (F : Forall (fun t => fst (fst t) <> tEnd) ts).
  { apply Forall_forall. intros t I E. apply N. rewrite <- E. now apply (in_map (fun t : tok * place => fst (fst t))). }
  pose proof (parses_as ok ts F) as H. destruct (yacc ts) as [y|v errs|e]; [destruct H| |]; split; intros K;
    try (subst r; exact H); exact (finishes_same _ _ K _ H).
Qed.
Print Assumptions C94_parse.

Lemma placed_no_end : forall src, lex_report src = [] -> ~ In tEnd (map (fun t => fst (fst t)) (placed_tokens src)).
Proof.
  intros src R. rewrite <- (map_map fst fst). apply good_no_end. exact (scan_good src _ (scan_placed src R)).
Qed.

(** The compiler with ply's lexer and parser gives, for every text, exactly what the
    compiler that all the other properties speak about gives. *)
Theorem C94_compiler : forall fl src c, compiles_with fl src c <-> compile_report fl src = c.
Proof.
  intros fl src c.
  assert (CR : compiles_with fl src (compile_report fl src)).
  { unfold compile_report. destruct (is_blank src) eqn:BL; [now apply with_blank|].
    pose proof (first_reading src) as R1. destruct (lex src) as [ps e] eqn:E.
    destruct (lex_report src) as [|x l] eqn:LR.
    - pose proof (proj2 (lex_ok_report src) LR) as OK.
      destruct (C93_again _ _ _ _ built OK R1) as (l' & R2 & _ & _).
      pose proof (parses_as true (placed_tokens src)) as H.
      assert (F : Forall (fun t => fst (fst t) <> tEnd) (placed_tokens src)).
      { apply Forall_forall. intros t I ET. apply (placed_no_end src LR). rewrite <- ET. now apply (in_map (fun t : tok * place => fst (fst t))). }
      specialize (H F). destruct (yacc (placed_tokens src)) as [y|v errs|x]; [destruct H| |];
        refine (with_parser fl src _ _ _ _ _ _ _ _ _ BL built R1 _ R2 parser_built H _); try reflexivity.
      destruct errs as [|t errs]; cbn [map]; [reflexivity|]. f_equal. cbn [map]. f_equal. rewrite map_map. reflexivity.
    - rewrite <- LR in *. refine (with_characters fl src _ _ _ BL built R1 _). cbn [lx_illegal]. rewrite LR. discriminate. }
  split; [|intros <-; exact CR].
  assert (DET : forall c1 c2, compiles_with fl src c1 -> compiles_with fl src c2 -> c1 = c2).
  { intros c1 c2 H1 H2.
    destruct H1 as [B1|L1 l1 ts1 B1 BU1 R1 N1|L1 l1 l1' ts1 ts1' P1 T1 r1 c1 B1 BU1 R1 N1 RR1 BP1 F1 C1];
    destruct H2 as [B2|L2 l2 ts2 B2 BU2 R2 N2|L2 l2 l2' ts2 ts2' P2 T2 r2 c2 B2 BU2 R2 N2 RR2 BP2 F2 C2];
    try congruence; rewrite BU1 in BU2; injection BU2 as <-; rewrite R1 in R2; injection R2 as <- <-; try congruence.
    rewrite BP1 in BP2. injection BP2 as <- <-. rewrite RR1 in RR2. injection RR2 as <- <-.
    rewrite parser_built in BP1. injection BP1 as <- <-.
    rewrite (finishes_same _ _ F1 _ F2) in C1. congruence. }
  intros H. exact (DET _ _ CR H).
Qed.
Print Assumptions C94_compiler.

(** the rule of line 305, a state, and a text that is refused *)
Example C94_example :
  (exists P T, build_parser = Some (P, T) /\ List.length P = 117 /\ List.length (lr_action T) = 183) /\
  (forall fl, compiles_with fl "output 1 } + output 2" (Tokens [mkEntry "}" 9 1 10])).
Proof.
  split.
  - exists PlyYaccFacts.P, Tb. split; [exact parser_built|]. split; vm_compute; reflexivity.
  - intros fl. apply C94_compiler. vm_compute. reflexivity.
Qed.
