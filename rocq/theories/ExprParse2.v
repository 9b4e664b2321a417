(** The induction over expressions. *)
From Coq Require Import String Bool List Arith Lia.
From Verif Require Import PyBase LexModel GramModel ParseModel LrFacts SynSpec SynInd ExprParse.
Import ListNotations.
Open Scope list_scope.

(** One argument of a call. *)
Lemma first_arg : forall e stk ts, EP e -> wf_e e = true ->
  match e with ETerm (TCall _) => False | _ => True end ->
  top_state stk = qBRACK -> call_next (la ts) = true ->
  ends_plain e && is_d (la ts) = false ->
  in_string (final (toks_e e)) && in_string (la ts) = false ->
  run stk (toks_e e ++ ts) ((qCALL, VNode (Node CALL [inr (Node CALL_EXPR [inr (node_e e)])])) :: stk) ts.
Proof.
  intros e stk ts P W NC T C D S.
  assert (after_term (la ts) = true /\ tok_level (la ts) = 0) as [A L].
  { revert C. generalize (la ts). intros a. destruct a; intros C; try discriminate C; split; reflexivity. }
  eapply run_trans.
  { apply P; try assumption.
    - rewrite T. vm_compute. reflexivity.
    - rewrite T. change (ctx_level qBRACK) with 0. destruct e as [o l r| | |]; cbn [level]; [destruct o; cbn; lia|lia|lia|lia].
    - lia.
    - rewrite T. intros E. vm_compute in E. discriminate E. }
  apply (go_reduce1 115).
  - cbn [fst]. rewrite T. revert C. generalize (la ts). intros a. by_tok a.
  - reflexivity.
  - cbn [snd]. change (p_fun (nprod 115)) with f_call_elements_expr. unfold semact.
    cbn [arg nth_error bind type_of Nat.sub]. destruct e as [o l r|n d|d|t]; try reflexivity.
    destruct t; try reflexivity. contradiction.
  - rewrite T. vm_compute. reflexivity.
Qed.

Lemma next_arg : forall e vs stk ts, EP e -> wf_e e = true ->
  top_state stk = qBRACK -> call_next (la ts) = true ->
  ends_plain e && is_d (la ts) = false ->
  in_string (final (toks_e e)) && in_string (la ts) = false ->
  run ((qCALL, VNode (Node CALL vs)) :: stk) (toks_e e ++ ts)
    ((qCALL, VNode (Node CALL (vs ++ [inr (Node CALL_EXPR [inr (node_e e)])]))) :: stk) ts.
Proof.
  intros e vs stk ts P W T C D S.
  assert (after_term (la ts) = true /\ tok_level (la ts) = 0) as [A L].
  { revert C. generalize (la ts). intros a. destruct a; intros C; try discriminate C; split; reflexivity. }
  eapply run_trans.
  { apply P; try assumption; cbn [top_state].
    - vm_compute. reflexivity.
    - change (ctx_level qCALL) with 0. destruct e as [o l r| | |]; cbn [level]; [destruct o; cbn; lia|lia|lia|lia].
    - lia.
    - intros E. vm_compute in E. discriminate E. }
  apply (go_reduce2 116).
  - cbn [fst]. revert C. generalize (la ts). intros a. by_tok a.
  - reflexivity.
  - reflexivity.
  - rewrite T. vm_compute. reflexivity.
Qed.

(** What follows an item of a call. *)
Lemma next_ok : forall c cs ts, all_apart (c :: cs) = true ->
  let a := la (flat_map toks_c cs ++ (tRBRACKET, "]"%string) :: ts) in
  match c with
  | CWord _ => word_next a = true
  | CArg e => call_next a = true /\ ends_plain e && is_d a = false /\
      in_string (final (toks_e e)) && in_string a = false
  end.
Proof.
  intros c cs ts W. cbv zeta.
  destruct cs as [|[w|b] cs].
  - cbn [flat_map app la]. destruct c; [reflexivity|].
    cbn [is_d in_string]. rewrite !andb_false_r. now split.
  - cbn [flat_map toks_c app]. pose proof (word_words w) as Hw.
    destruct (word_tok w) as [t v]. cbn [la fst] in *.
    destruct c; [unfold word_next, call_next; now rewrite Hw|].
    split; [unfold call_next; now rewrite Hw|].
    destruct t; try discriminate Hw; cbn [is_d in_string]; rewrite !andb_false_r; now split.
  - cbn [flat_map toks_c]. rewrite <- app_assoc. rewrite la_app by apply toks_e_ne.
    pose proof (proj1 starts_ok b) as St.
    destruct c as [w|e].
    + unfold word_next. rewrite St. apply orb_true_r.
    + cbn [all_apart] in W. apply andb_prop in W. destruct W as [W _]. unfold apart in W.
      destruct (first (toks_e b)); try discriminate St; try discriminate W; cbn [is_d in_string];
        rewrite ?andb_false_r, ?andb_true_r in *; (split; [reflexivity|]);
        (split; [try reflexivity; now apply negb_true_iff in W|
                 try reflexivity; now apply negb_true_iff in W]).
Qed.

Lemma all_apart_tl : forall c cs, all_apart (c :: cs) = true -> all_apart cs = true.
Proof.
  intros [w|a] cs H; [exact H|]. destruct cs as [|[w|b] cs]; [reflexivity|exact H|].
  cbn [all_apart] in H. apply andb_prop in H. apply H.
Qed.

Lemma items_run : forall cs vs stk ts, Forall CP cs -> forallb wf_c cs = true -> all_apart cs = true ->
  top_state stk = qBRACK ->
  run ((qCALL, VNode (Node CALL vs)) :: stk) (flat_map toks_c cs ++ (tRBRACKET, "]"%string) :: ts)
      ((qCALL, VNode (Node CALL (vs ++ map node_c cs))) :: stk) ((tRBRACKET, "]"%string) :: ts).
Proof.
  intros cs; induction cs as [|c cs IH]; intros vs stk ts F W A T.
  - cbn [flat_map map app]. rewrite app_nil_r. apply run_refl.
  - inversion F as [|c' cs' Fc Fcs]; subst. cbn [forallb] in W. apply andb_prop in W. destruct W as [Wc Wcs].
    pose proof (next_ok c cs ts A) as N. cbv zeta in N.
    cbn [flat_map map]. rewrite <- app_assoc.
    replace (vs ++ node_c c :: map node_c cs) with ((vs ++ [node_c c]) ++ map node_c cs)
      by (rewrite <- app_assoc; reflexivity).
    eapply run_trans; [|apply IH; try assumption; exact (all_apart_tl _ _ A)].
    destruct c as [w|e].
    + cbn [toks_c app node_c]. now apply next_word.
    + destruct N as (N1 & N2 & N3). cbn [toks_c node_c]. now apply next_arg.
Qed.

(** The elements of a sequence. *)
Lemma red_element : forall q a, q = qBRACE \/ q = qCOMMA -> a = tCOMMA \/ a = tRBRACE ->
  action_at (g nExpr q) a = Some (Reduce 88) /\ action_at (g nRange q) a = Some (Reduce 89) /\
  action_at (g nExpr qRANGE) a = Some (Reduce 90) /\
  action_at (g nExpr q) tDOUBLE_DOT = Some (Shift qRANGE) /\
  assoc_nt nElement (goto_row q) = Some (g nElement q) /\ assoc_nt nRange (goto_row q) = Some (g nRange q) /\
  is_ctx nExpr q = true /\ ctx_level q = 0 /\ q <> qSETTO.
Proof.
  intros q a [-> | ->] [-> | ->]; repeat (split; [vm_compute; reflexivity|]); vm_compute; discriminate.
Qed.

Lemma level_pos : forall e, 0 < level e.
Proof. intros [o l r|n d|d|t]; cbn [level]; [destruct o; cbn [op_level]; lia|lia|lia|lia]. Qed.

Lemma element_one : forall e, EP e -> LP (LOne e).
Proof.
  intros e P W stk ts Q A. cbn [wf_l] in W. cbn [toks_l node_l].
  destruct (red_element _ _ Q A) as (R1 & R2 & R3 & R4 & R5 & R6 & R7 & R8 & R9).
  eapply run_trans.
  { apply P; try assumption.
    - rewrite R8. apply level_pos.
    - destruct A as [-> | ->]; reflexivity.
    - destruct A as [-> | ->]; cbn [tok_level]; lia.
    - destruct A as [-> | ->]; apply andb_false_r.
    - destruct A as [-> | ->]; apply andb_false_r.
    - intros E; contradiction. }
  apply (go_reduce1 88); [exact R1|reflexivity|reflexivity|exact R5].
Qed.

Lemma element_range : forall a b, EP a -> EP b -> LP (LRange a b).
Proof.
  intros a b Pa Pb W stk ts Q A. cbn [wf_l] in W. apply andb_prop in W. destruct W as [Wa Wb].
  cbn [toks_l node_l]. rewrite <- app_assoc. cbn [app].
  destruct (red_element _ _ Q A) as (R1 & R2 & R3 & R4 & R5 & R6 & R7 & R8 & R9).
  eapply run_trans.
  { apply Pa; try assumption; cbn [la].
    - rewrite R8. apply level_pos.
    - reflexivity.
    - cbn [tok_level]; lia.
    - apply andb_false_r.
    - apply andb_false_r.
    - intros E; contradiction. }
  eapply run_trans; [apply go_shift; exact R4|].
  eapply run_trans.
  { apply Pb; try assumption; cbn [top_state].
    - vm_compute. reflexivity.
    - change (ctx_level qRANGE) with 0. apply level_pos.
    - destruct A as [-> | ->]; reflexivity.
    - destruct A as [-> | ->]; cbn [tok_level]; lia.
    - destruct A as [-> | ->]; apply andb_false_r.
    - destruct A as [-> | ->]; apply andb_false_r.
    - intros E. vm_compute in E. discriminate E. }
  eapply run_trans.
  { apply (go_reduce3 90); [exact R3|reflexivity|reflexivity|exact R6]. }
  apply (go_reduce1 89); [exact R2|reflexivity|reflexivity|exact R5].
Qed.

Definition comma : tok := (tCOMMA, ","%string).
Definition rbrace : tok := (tRBRACE, "}"%string).

Lemma elements_more : forall es vs stk ts, Forall LP es -> forallb wf_l es = true ->
  top_state stk = qBRACE ->
  run ((qELS, VNode (Node SEQ vs)) :: stk) (flat_map (fun x => comma :: toks_l x) es ++ rbrace :: ts)
      ((qELS, VNode (Node SEQ (vs ++ map (fun x => inr (node_l x)) es))) :: stk) (rbrace :: ts).
Proof.
  intros es; induction es as [|x es IH]; intros vs stk ts F W T.
  - cbn [flat_map map app]. rewrite app_nil_r. apply run_refl.
  - inversion F as [|c' cs' Fc Fcs]; subst. cbn [forallb] in W. apply andb_prop in W. destruct W as [Wc Wcs].
    cbn [flat_map map]. cbn [app]. rewrite <- app_assoc.
    replace (vs ++ inr (node_l x) :: map (fun x => inr (node_l x)) es)
      with ((vs ++ [inr (node_l x)]) ++ map (fun x => inr (node_l x)) es)
      by (rewrite <- app_assoc; reflexivity).
    assert (la (flat_map (fun x => comma :: toks_l x) es ++ rbrace :: ts) = tCOMMA \/
            la (flat_map (fun x => comma :: toks_l x) es ++ rbrace :: ts) = tRBRACE) as LA.
    { destruct es; [now right|now left]. }
    eapply run_trans; [|apply IH; assumption].
    eapply run_trans; [apply (go_shift _ _ _ _ qCOMMA); vm_compute; reflexivity|].
    eapply run_trans; [apply Fc; [exact Wc|now right|exact LA]|].
    apply (go_reduce3 86).
    + cbn [fst]. destruct LA as [-> | ->]; vm_compute; reflexivity.
    + reflexivity.
    + reflexivity.
    + rewrite T. vm_compute. reflexivity.
Qed.

Lemma sepby_flat : forall x es, sepby comma (map toks_l (x :: es))
  = toks_l x ++ flat_map (fun x => comma :: toks_l x) es.
Proof.
  intros x es; revert x; induction es as [|y es IH]; intros x.
  - cbn [map sepby flat_map]. now rewrite app_nil_r.
  - cbn [map]. change (sepby comma (toks_l x :: toks_l y :: map toks_l es))
      with (toks_l x ++ comma :: sepby comma (map toks_l (y :: es))).
    rewrite IH. reflexivity.
Qed.

Lemma seq_case : forall es, Forall LP es -> TP (TSeq es).
Proof.
  intros es F W stk ts C A S Z. destruct (ts_facts _ C) as (T1 & T2 & T3 & T4 & T5 & T6 & T7 & T8 & T9).
  cbn [toks_t node_t]. cbn [app]. rewrite <- app_assoc. cbn [app].
  eapply run_trans; [apply go_shift; exact T3|].
  destruct es as [|x es].
  - cbn [map sepby app]. eapply run_trans; [apply (go_shift _ _ _ _ qSEQ0); vm_compute; reflexivity|].
    apply (go_reduce2 84); [exact (red_seq0 _ A)|reflexivity|reflexivity|exact (g_ok _ _ C)].
  - inversion F as [|c' cs' Fc Fcs]; subst. cbn [wf_t forallb] in W. apply andb_prop in W. destruct W as [Wc Wcs].
    change (tCOMMA, ","%string) with comma. rewrite sepby_flat. rewrite <- app_assoc.
    change (tRBRACE, "}"%string) with rbrace.
    assert (la (flat_map (fun x => comma :: toks_l x) es ++ rbrace :: ts) = tCOMMA \/
            la (flat_map (fun x => comma :: toks_l x) es ++ rbrace :: ts) = tRBRACE) as LA.
    { destruct es; [now right|now left]. }
    eapply run_trans; [apply Fc; [exact Wc|now left|exact LA]|].
    eapply run_trans.
    { apply (go_reduce1 87) with (v := VNode (Node SEQ [inr (node_l x)])) (j := qELS).
      - cbn [fst]. destruct LA as [-> | ->]; vm_compute; reflexivity.
      - reflexivity.
      - reflexivity.
      - vm_compute. reflexivity. }
    eapply run_trans; [apply elements_more; [assumption|assumption|reflexivity]|].
    eapply run_trans; [apply (go_shift _ _ _ _ qSEQ); vm_compute; reflexivity|].
    apply (go_reduce3 85); [exact (red_seq _ A)|reflexivity|reflexivity|exact (g_ok _ _ C)].
Qed.

Lemma call_case : forall cs, Forall CP cs -> TP (TCall cs).
Proof.
  intros cs F W stk ts C A S Z. destruct (ts_facts _ C) as (T1 & T2 & T3 & T4 & T5 & T6 & T7 & T8 & T9).
  cbn [wf_t] in W. splitb. cbn [toks_t node_t]. cbn [app]. rewrite <- app_assoc. cbn [app].
  eapply run_trans; [apply go_shift; exact T5|].
  destruct cs as [|c cs]; [discriminate|].
  inversion F as [|c' cs' Fc Fcs]; subst.
  pose proof (next_ok c cs ts H1) as N. cbv zeta in N.
  cbn [forallb] in H0. apply andb_prop in H0. destruct H0 as [Wc Wcs].
  cbn [flat_map map]. rewrite <- app_assoc.
  eapply run_trans.
  { instantiate (1 := flat_map toks_c cs ++ (tRBRACKET, "]"%string) :: ts).
    instantiate (1 := (qCALL, VNode (Node CALL [node_c c])) :: (qBRACK, VStr "[") :: stk).
    destruct c as [w|e].
    - cbn [toks_c app node_c]. apply first_word; [reflexivity|exact N].
    - destruct N as (N1 & N2 & N3). cbn [toks_c node_c]. apply first_arg; try assumption; [|reflexivity].
      cbn [call_start] in H. destruct e as [o l r|n d|d|t]; try exact I. destruct t; try exact I. discriminate H. }
  eapply run_trans; [apply items_run; [assumption|assumption|exact (all_apart_tl _ _ H1)|reflexivity]|].
  eapply run_trans; [apply (go_shift _ _ _ _ qCALLED); vm_compute; reflexivity|].
  apply (go_reduce3 92); [exact (red_call _ A)|reflexivity|reflexivity|exact (g_ok _ _ C)].
Qed.

Lemma un_case : forall k v t stk ts, TP t -> wf_t t = true -> In k [tPLUS; tMINUS; tEXCLAMATION; tHASH] ->
  is_ctx nTerm (top_state stk) = true -> after_term (la ts) = true ->
  in_string (final (toks_t t)) && in_string (la ts) = false ->
  run stk ((k, v) :: toks_t t ++ ts)
    ((g nTerm (top_state stk), VNode (match k with tHASH => Node HASH [inr (node_t t)]
                                      | _ => Node UNARY [inl v; inr (node_t t)] end)) :: stk) ts.
Proof.
  intros k v t stk ts P W I C A S.
  destruct (ts_facts _ C) as (T1 & T2 & T3 & T4 & T5 & T6 & T7 & T8 & T9).
  destruct (ctx_un k I) as [U1 U2].
  eapply run_trans; [apply go_shift; exact (T6 k I)|].
  eapply run_trans.
  { apply P; try assumption. intros E. contradiction. }
  apply (go_reduce2 (un_rule k)).
  - exact (red_un k _ I A).
  - cbn [In] in I. destruct I as [<-|[<-|[<-|[<-|[]]]]]; reflexivity.
  - cbn [In] in I. destruct I as [<-|[<-|[<-|[<-|[]]]]]; reflexivity.
  - cbn [In] in I. destruct I as [<-|[<-|[<-|[<-|[]]]]]; exact (g_ok _ _ C).
Qed.

Theorem syntax_ok : (forall e, EP e) /\ (forall t, TP t) /\ (forall x, LP x) /\ (forall c, CP c).
Proof.
  apply syn_ind.
  - (* binary operators *)
    intros o l r Pl Pr W stk ts C L A TL D S Z. cbn [wf_e] in W. splitb.
    match goal with H : Nat.leb _ _ = true |- _ => apply Nat.leb_le in H end.
    match goal with H : Nat.ltb _ _ = true |- _ => apply Nat.ltb_lt in H end.
    cbn [level] in L, TL. cbn [toks_e node_e]. rewrite <- !app_assoc.
    destruct (op_facts o) as (O1 & O2 & O3 & O4).
    assert (la (op_toks o ++ toks_e r ++ ts) = op_first o) as LO by (destruct o; reflexivity).
    eapply run_trans.
    { apply Pl; try assumption.
      - lia.
      - rewrite LO. destruct o; reflexivity.
      - rewrite LO, O4. assumption.
      - rewrite LO. destruct o; apply andb_false_r.
      - rewrite LO. destruct o; apply andb_false_r.
      - intros _ _. rewrite LO, O4. destruct o; cbn [op_level]; lia. }
    eapply run_trans.
    { apply op_run. cbn [top_state]. apply op_shift; [exact C|]. rewrite O4. exact L. }
    assert (top_state (match o with
       | OLe => [(qRIGHT o, VStr "="); (qOP tLESS, VStr "<")]
       | OGe => [(qRIGHT o, VStr "="); (qOP tGREATER, VStr ">")]
       | _ => [(qRIGHT o, VStr (op_text o))]
       end ++ (g nExpr (top_state stk), VNode (node_e l)) :: stk) = qRIGHT o) as TO by (destruct o; reflexivity).
    eapply run_trans.
    { apply Pr; try assumption.
      - rewrite TO. exact O1.
      - rewrite TO, O2. assumption.
      - lia.
      - cbn [toks_e] in S. rewrite !app_assoc in S. rewrite final_app in S by apply toks_e_ne. exact S.
      - rewrite TO. intros E. contradiction. }
    rewrite TO.
    destruct o; cbn [app];
      (match goal with
       | |- context [qRIGHT OLe] => apply (go_reduce4 (op_rule OLe))
       | |- context [qRIGHT OGe] => apply (go_reduce4 (op_rule OGe))
       | |- context [qRIGHT ?o] => apply (go_reduce3 (op_rule o))
       end);
      try (cbn [fst]; apply op_reduce; assumption);
      try reflexivity; exact (g_ok _ _ C).
  - (* n d m *)
    intros n d Pn Pd W stk ts C L A TL D S Z. cbn [wf_e] in W. splitb.
    destruct (expr_ctx_ok _ C) as (X1 & X2 & X3).
    cbn [toks_e node_e]. rewrite <- app_assoc. cbn [app].
    eapply run_trans.
    { apply Pn.
      - assumption.
      - exact X1.
      - reflexivity.
      - apply andb_false_r.
      - intros _ _. reflexivity. }
    rewrite X2.
    eapply run_trans; [apply (go_shift _ _ _ _ qDICE); vm_compute; reflexivity|].
    eapply run_trans.
    { apply Pd; try assumption.
      - vm_compute. reflexivity.
      - cbn [toks_e] in S. rewrite final_app in S by discriminate. rewrite final_cons in S by apply toks_t_ne. exact S.
      - intros E. vm_compute in E. discriminate E. }
    apply (go_reduce3 67); [exact (red_dice _ A)|reflexivity|reflexivity|exact (g_ok _ _ C)].
  - (* d m *)
    intros d Pd W stk ts C L A TL D S Z. cbn [wf_e] in W.
    destruct (expr_ctx_ok _ C) as (X1 & X2 & X3).
    cbn [toks_e node_e]. cbn [app].
    eapply run_trans; [apply (go_shift _ _ _ _ qDIE); exact X3|].
    eapply run_trans.
    { apply Pd; try assumption.
      - vm_compute. reflexivity.
      - cbn [toks_e] in S. rewrite final_cons in S by apply toks_t_ne. exact S.
      - intros E. vm_compute in E. discriminate E. }
    apply (go_reduce2 68); [exact (red_die _ A)|reflexivity|reflexivity|exact (g_ok _ _ C)].
  - (* a term *)
    intros t Pt W stk ts C L A TL D S Z. cbn [wf_e] in W.
    destruct (expr_ctx_ok _ C) as (X1 & X2 & X3).
    cbn [toks_e node_e].
    eapply run_trans.
    { apply Pt; try assumption. intros E1 E2. specialize (Z E1 E2). apply Nat.ltb_lt in Z. now rewrite Z. }
    rewrite X2. cbn [ends_plain andb] in D.
    apply (go_reduce1 75); [exact (red_term _ A D)|reflexivity|reflexivity|exact (g_ok _ _ C)].
  - (* numbers *)
    intros s W stk ts C A S Z. destruct (ts_facts _ C) as (T1 & T2 & T3 & T4 & T5 & T6 & T7 & T8 & T9).
    cbn [toks_t node_t]. cbn [app]. eapply run_trans; [apply go_shift; exact T1|].
    apply (go_reduce1 81); [exact (red_num _ A)|reflexivity|reflexivity|exact (g_ok _ _ C)].
  - intros a b W stk ts C A S Z. destruct (ts_facts _ C) as (T1 & T2 & T3 & T4 & T5 & T6 & T7 & T8 & T9).
    cbn [toks_t node_t]. cbn [app]. eapply run_trans; [apply go_shift; exact T1|].
    eapply run_trans; [apply (go_shift _ _ _ _ qDOT); vm_compute; reflexivity|].
    eapply run_trans; [apply (go_shift _ _ _ _ qDEC); vm_compute; reflexivity|].
    apply (go_reduce3 82); [exact (red_dec _ A)|reflexivity|reflexivity|exact (g_ok _ _ C)].
  - (* variables *)
    intros x W stk ts C A S Z. destruct (ts_facts _ C) as (T1 & T2 & T3 & T4 & T5 & T6 & T7 & T8 & T9).
    cbn [toks_t node_t]. cbn [app]. eapply run_trans; [apply go_shift; exact T2|].
    eapply run_trans.
    { apply (go_reduce1 21); [exact (red_up _ A)|reflexivity|reflexivity|exact T7]. }
    apply (go_reduce1 83); [exact (red_var _ A)|reflexivity|reflexivity|exact (g_ok _ _ C)].
  - (* strings *)
    intros p ps W stk ts C A S Z. destruct (ts_facts _ C) as (T1 & T2 & T3 & T4 & T5 & T6 & T7 & T8 & T9).
    cbn [toks_t node_t].
    eapply run_trans; [apply string_run; assumption|].
    apply (go_reduce1 91); [|reflexivity|reflexivity|exact (g_ok _ _ C)].
    cbn [fst]. destruct T9 as [T9|T9].
    + rewrite T9. apply red_str; [exact A|].
      cbn [toks_t] in S.
      assert (in_string (final (map part_tok (p :: ps))) = true) as E; [|rewrite E in S; exact S].
      destruct (exists_last (l := p :: ps) ltac:(discriminate)) as (l & x & EX).
      rewrite EX, map_app. cbn [map]. rewrite final_one. apply part_in_string.
    + rewrite T9. apply red_set_str. apply Z; [exact T9|reflexivity].
  - exact seq_case.
  - (* parentheses *)
    intros e P W stk ts C A S Z. destruct (ts_facts _ C) as (T1 & T2 & T3 & T4 & T5 & T6 & T7 & T8 & T9).
    cbn [wf_t] in W. cbn [toks_t node_t]. cbn [app]. rewrite <- app_assoc. cbn [app].
    eapply run_trans; [apply go_shift; exact T4|].
    eapply run_trans.
    { apply P; try assumption; cbn [top_state la].
      - vm_compute. reflexivity.
      - change (ctx_level qPAREN) with 0. apply level_pos.
      - reflexivity.
      - cbn [tok_level]; lia.
      - apply andb_false_r.
      - apply andb_false_r.
      - intros E. vm_compute in E. discriminate E. }
    eapply run_trans; [apply (go_shift _ _ _ _ qGROUP); vm_compute; reflexivity|].
    apply (go_reduce3 80); [exact (red_group _ A)|reflexivity|reflexivity|exact (g_ok _ _ C)].
  - exact call_case.
  - intros u t P W stk ts C A S Z. cbn [wf_t] in W.
    cbn [toks_t node_t]. cbn [toks_t] in S. rewrite final_cons in S by apply toks_t_ne.
    destruct u; cbn [un_tok snd app].
    + apply (un_case tPLUS "+" t stk ts P W); try assumption; cbn [In]; tauto.
    + apply (un_case tMINUS "-" t stk ts P W); try assumption; cbn [In]; tauto.
    + apply (un_case tEXCLAMATION "!" t stk ts P W); try assumption; cbn [In]; tauto.
  - intros t P W stk ts C A S Z. cbn [wf_t] in W.
    cbn [toks_t node_t]. cbn [toks_t] in S. rewrite final_cons in S by apply toks_t_ne.
    cbn [app]. apply (un_case tHASH "#" t stk ts P W); try assumption; cbn [In]; tauto.
  - exact element_one.
  - exact element_range.
  - intros w. exact I.
  - intros e P. exact P.
Qed.
