(** The parser reads every well-formed program of SynSpec.v as its tree. *)
From Coq Require Import String Bool List Arith Lia.
From Verif Require Import PyBase LexModel GramModel ParseModel LrFacts SynSpec SynInd ExprParse ExprParse2.
Import ListNotations.
Open Scope list_scope.

(** Tokens that can follow a statement. *)
Definition stmt_start (t : tt) : bool :=
  match t with
  | tOUTPUT | tFUNCTION | tLOOP | tRESULT | tSET | tIF | tUPPERNAME => true
  | _ => false
  end.
Definition stmt_next (t : tt) : bool :=
  stmt_start t || match t with tRBRACE | tEnd => true | _ => false end.

(** An expression in a statement: nothing of what follows can go on with it. *)
Definition closes (t : tt) : bool :=
  after_term t && Nat.eqb (tok_level t) 0 && negb (is_d t) && negb (in_string t).

Lemma expr_in : forall e stk ts, wf_e e = true -> is_ctx nExpr (top_state stk) = true ->
  ctx_level (top_state stk) = 0 -> closes (la ts) = true ->
  (top_state stk = qSETTO -> plain_str e = false) ->
  run stk (toks_e e ++ ts) ((g nExpr (top_state stk), VNode (node_e e)) :: stk) ts.
Proof.
  intros e stk ts W C L A Z. unfold closes in A. splitb.
  apply negb_true_iff in H0, H1. apply Nat.eqb_eq in H2.
  apply (proj1 syntax_ok e W); try assumption.
  - rewrite L. apply level_pos.
  - lia.
  - rewrite H1. apply andb_false_r.
  - rewrite H0. apply andb_false_r.
  - intros E1 E2. rewrite (Z E1) in E2. discriminate E2.
Qed.

Lemma next_closes : forall t, stmt_next t = true -> closes t = true.
Proof. intros t; destruct t; intros H; try discriminate H; reflexivity. Qed.

Definition SP (s : stmt) : Prop := wf_s s = true -> forall stk ts,
  is_ctx nSingle (top_state stk) = true -> stmt_next (la ts) = true ->
  run stk (toks_s s ++ ts) ((g nSingle (top_state stk), VNode (node_s s)) :: stk) ts.

Definition body_node (body : list stmt) : node :=
  Node MULTILINE_CODE (map (fun x => inr (node_s x)) body).

(** ** Facts about the tables *)

Definition qFUN := Eval vm_compute in sh 0 tFUNCTION.
Definition qLOOP := Eval vm_compute in sh 0 tLOOP.
Definition qRES := Eval vm_compute in sh 0 tRESULT.
Definition qIF := Eval vm_compute in sh 0 tIF.
Definition qUP0 := Eval vm_compute in sh 0 tUPPERNAME.
Definition qVAR0 := Eval vm_compute in g nVar 0.
Definition qIFS := Eval vm_compute in g nIf 0.
Definition qELIF := Eval vm_compute in g nElif qIFS.

Definition single_ctx (q : nat) : bool :=
  shifts q tOUTPUT qOUT && shifts q tFUNCTION qFUN && shifts q tLOOP qLOOP && shifts q tRESULT qRES &&
  shifts q tSET qSET && shifts q tIF qIF && shifts q tUPPERNAME qUP0 &&
  is_ctx nVar q && Nat.eqb (g nVar q) qVAR0 && is_ctx nIf q && Nat.eqb (g nIf q) qIFS.

Lemma single_ctx_ok : forall q, is_ctx nSingle q = true ->
  action_at q tOUTPUT = Some (Shift qOUT) /\ action_at q tFUNCTION = Some (Shift qFUN) /\
  action_at q tLOOP = Some (Shift qLOOP) /\ action_at q tRESULT = Some (Shift qRES) /\
  action_at q tSET = Some (Shift qSET) /\ action_at q tIF = Some (Shift qIF) /\
  action_at q tUPPERNAME = Some (Shift qUP0) /\
  assoc_nt nVar (goto_row q) = Some qVAR0 /\ assoc_nt nIf (goto_row q) = Some qIFS.
Proof.
  intros q C.
  assert (single_ctx q = true) as H.
  { revert q C. apply ctx_check. vm_compute. reflexivity. }
  unfold single_ctx in H. splitb.
  repeat match goal with H : shifts _ _ _ = true |- _ => apply shifts_ok in H end.
  repeat match goal with H : Nat.eqb _ _ = true |- _ => apply Nat.eqb_eq in H end.
  repeat (split; [assumption|]). split.
  - rewrite (g_ok nVar q) by assumption. now f_equal.
  - rewrite (g_ok nIf q) by assumption. now f_equal.
Qed.

(** What ends a block: the end of the input for the program, a brace elsewhere. *)
Definition closer (q : nat) : tt := if Nat.eqb q 0 then tEnd else tRBRACE.

Definition multi_ctx (q : nat) : bool :=
  is_ctx nSingle q && is_ctx nSingle (g nMulti q) && is_ctx nEmpty q &&
  forallb (fun a => implb (stmt_next a)
     (reduces (g nSingle q) a 1 && reduces (g nSingle (g nMulti q)) a 2)) all_tt &&
  (reduces q (closer q) 4 && reduces (g nEmpty q) (closer q) 3).

Lemma multi_ctx_ok : forall q, is_ctx nMulti q = true ->
  is_ctx nSingle q = true /\ is_ctx nSingle (g nMulti q) = true /\ is_ctx nEmpty q = true /\
  (forall a, stmt_next a = true -> action_at (g nSingle q) a = Some (Reduce 1) /\
     action_at (g nSingle (g nMulti q)) a = Some (Reduce 2)) /\
  (action_at q (closer q) = Some (Reduce 4) /\ action_at (g nEmpty q) (closer q) = Some (Reduce 3)).
Proof.
  intros q C.
  assert (multi_ctx q = true) as H.
  { revert q C. apply ctx_check. vm_compute. reflexivity. }
  unfold multi_ctx in H. splitb. repeat (split; [assumption|]). split.
  - intros a A. pose proof (tok_check _ H2 a) as F. cbv beta in F. rewrite A in F.
    cbn [implb] in F. apply andb_prop in F. destruct F as [F1 F2]. split; now apply reduces_ok.
  - split; now apply reduces_ok.
Qed.

(** ** Blocks *)

Lemma starts_stmt : forall s, stmt_start (first (toks_s s)) = true /\ toks_s s <> [].
Proof. intros s; destruct s; cbn [toks_s]; (split; [reflexivity|discriminate]). Qed.

Lemma la_stmts : forall body ts, la ts = tRBRACE \/ la ts = tEnd ->
  stmt_next (la (flat_map toks_s body ++ ts)) = true.
Proof.
  intros [|s body] ts A.
  - cbn [flat_map app]. destruct A as [-> | ->]; reflexivity.
  - cbn [flat_map]. destruct (starts_stmt s) as [S1 S2].
    rewrite <- app_assoc, la_app by exact S2. unfold stmt_next. now rewrite S1.
Qed.

Lemma closer_cases : forall q, closer q = tRBRACE \/ closer q = tEnd.
Proof. intros q; unfold closer; destruct (Nat.eqb q 0); tauto. Qed.

Lemma la_body : forall body ts q, la ts = closer q -> stmt_next (la (flat_map toks_s body ++ ts)) = true.
Proof. intros body ts q A. apply la_stmts. rewrite A. apply closer_cases. Qed.

Lemma body_more : forall body vs stk ts, Forall SP body -> forallb wf_s body = true ->
  is_ctx nMulti (top_state stk) = true -> la ts = closer (top_state stk) ->
  run ((g nMulti (top_state stk), VNode (Node MULTILINE_CODE vs)) :: stk) (flat_map toks_s body ++ ts)
      ((g nMulti (top_state stk),
        VNode (Node MULTILINE_CODE (vs ++ map (fun x => inr (node_s x)) body))) :: stk) ts.
Proof.
  intros body; induction body as [|s body IH]; intros vs stk ts F W C A.
  - cbn [flat_map map app]. rewrite app_nil_r. apply run_refl.
  - inversion F as [|c' cs' Fc Fcs]; subst. cbn [forallb] in W. apply andb_prop in W. destruct W as [Wc Wcs].
    cbn [flat_map map]. rewrite <- app_assoc.
    replace (vs ++ inr (node_s s) :: map (fun x => inr (node_s x)) body)
      with ((vs ++ [inr (node_s s)]) ++ map (fun x => inr (node_s x)) body)
      by (rewrite <- app_assoc; reflexivity).
    destruct (multi_ctx_ok _ C) as (M1 & M2 & M3 & M4 & M5).
    pose proof (la_body body ts _ A) as N.
    eapply run_trans; [|apply IH; assumption].
    eapply run_trans; [apply Fc; assumption|].
    apply (go_reduce2 2); [exact (proj2 (M4 _ N))|reflexivity|reflexivity|exact (g_ok _ _ C)].
Qed.

Lemma single_not_multi : forall s, ntype_is (node_type (node_s s)) MULTILINE_CODE = false.
Proof. intros s; destruct s; reflexivity. Qed.

Lemma body_run : forall body stk ts, Forall SP body -> forallb wf_s body = true ->
  is_ctx nMulti (top_state stk) = true -> la ts = closer (top_state stk) ->
  run stk (flat_map toks_s body ++ ts) ((g nMulti (top_state stk), VNode (body_node body)) :: stk) ts.
Proof.
  intros body stk ts F W C A. destruct (multi_ctx_ok _ C) as (M1 & M2 & M3 & M4 & M5).
  destruct body as [|s body].
  - cbn [flat_map app]. destruct M5 as [R1 R2]. rewrite <- A in R1, R2.
    eapply run_trans.
    { apply (go_reduce 4 [] stk ts VNone (g nEmpty (top_state stk)));
        [exact R1|reflexivity|reflexivity|exact (g_ok _ _ M3)]. }
    apply (go_reduce1 3); [exact R2|reflexivity|reflexivity|exact (g_ok _ _ C)].
  - inversion F as [|c' cs' Fc Fcs]; subst. cbn [forallb] in W. apply andb_prop in W. destruct W as [Wc Wcs].
    cbn [flat_map]. rewrite <- app_assoc. pose proof (la_body body ts _ A) as N.
    eapply run_trans; [apply Fc; assumption|].
    eapply run_trans.
    { apply (go_reduce1 1) with (v := VNode (Node MULTILINE_CODE [inr (node_s s)]));
        [exact (proj1 (M4 _ N))|reflexivity| |exact (g_ok _ _ C)].
      change (p_fun (nprod 1)) with f_multiline_code. unfold semact. cbn [arg snd nth_error bind type_of Nat.sub].
      rewrite single_not_multi. reflexivity. }
    apply (body_more body [inr (node_s s)]); assumption.
Qed.

(** A block in braces, after a state that shifts the brace. *)
Lemma block_run : forall body q1 stk ts, Forall SP body -> forallb wf_s body = true ->
  action_at (top_state stk) tLBRACE = Some (Shift q1) -> is_ctx nMulti q1 = true -> closer q1 = tRBRACE ->
  action_at (g nMulti q1) tRBRACE = Some (Shift (sh (g nMulti q1) tRBRACE)) ->
  run stk (braces (flat_map toks_s body) ++ ts)
    ((sh (g nMulti q1) tRBRACE, VStr "}") :: (g nMulti q1, VNode (body_node body)) :: (q1, VStr "{") :: stk) ts.
Proof.
  intros body q1 stk ts F W A C Z B. unfold braces. cbn [app]. rewrite <- app_assoc. cbn [app].
  eapply run_trans; [apply go_shift; exact A|].
  eapply run_trans; [apply body_run; [exact F|exact W|exact C|symmetry; exact Z]|].
  apply go_shift. exact B.
Qed.

(** ** Branches *)

Definition qELSE1 := Eval vm_compute in sh qIFS tELSE.
Definition qELSE2 := Eval vm_compute in sh qELIF tELSE.
Definition qELSEIF1 := Eval vm_compute in sh qELSE1 tIF.
Definition qELSEIF2 := Eval vm_compute in sh qELSE2 tIF.

Definition if_state (q : nat) : Prop := q = qIF \/ q = qELSEIF1 \/ q = qELSEIF2.

Definition BP (b : branch) : Prop := wf_b b = true -> forall stk ts, if_state (top_state stk) ->
  let q1 := sh (g nExpr (top_state stk)) tLBRACE in
  match b with
  | Branch c body =>
      run stk (toks_b b ++ ts)
        ((sh (g nMulti q1) tRBRACE, VStr "}") :: (g nMulti q1, VNode (body_node body)) :: (q1, VStr "{")
         :: (g nExpr (top_state stk), VNode (node_e c)) :: stk) ts
  end.

Lemma branch_ok : forall c body, Forall SP body -> BP (Branch c body).
Proof.
  intros c body F W stk ts Q. cbv zeta. cbn [wf_b] in W. apply andb_prop in W. destruct W as [Wc Wb].
  cbn [toks_b]. rewrite <- app_assoc.
  eapply run_trans.
  { apply expr_in; [exact Wc| | | |].
    - destruct Q as [-> | [-> | ->]]; vm_compute; reflexivity.
    - destruct Q as [-> | [-> | ->]]; vm_compute; reflexivity.
    - reflexivity.
    - destruct Q as [-> | [-> | ->]]; intros E; vm_compute in E; discriminate E. }
  apply block_run; [exact F|exact Wb| | | |]; cbn [top_state];
    destruct Q as [-> | [-> | ->]]; vm_compute; reflexivity.
Qed.

(** What may follow the closing brace of a branch. *)
Definition else_next (t : tt) : bool := stmt_next t || match t with tELSE => true | _ => false end.

Lemma elifs_run : forall bs l stk ts, Forall BP bs -> forallb wf_b bs = true ->
  is_ctx nSingle (top_state stk) = true -> else_next (la ts) = true -> forall v0,
  run ((qELIF, VList l) :: (qIFS, v0) :: stk)
      (flat_map (fun b => kwt kElse :: kwt kIf :: toks_b b) bs ++ ts)
      ((qELIF, VList (l ++ map (node_b ELSEIF) bs)) :: (qIFS, v0) :: stk) ts.
Proof.
  intros bs; induction bs as [|b bs IH]; intros l stk ts F W C A v0.
  - cbn [flat_map map app]. rewrite app_nil_r. apply run_refl.
  - inversion F as [|c' cs' Fc Fcs]; subst. cbn [forallb] in W. apply andb_prop in W. destruct W as [Wc Wcs].
    cbn [flat_map map]. cbn [app]. rewrite <- app_assoc.
    replace (l ++ node_b ELSEIF b :: map (node_b ELSEIF) bs)
      with ((l ++ [node_b ELSEIF b]) ++ map (node_b ELSEIF) bs) by (rewrite <- app_assoc; reflexivity).
    assert (else_next (la (flat_map (fun b => kwt kElse :: kwt kIf :: toks_b b) bs ++ ts)) = true) as N
      by (destruct bs; [exact A|reflexivity]).
    eapply run_trans; [|apply IH; assumption].
    eapply run_trans; [apply (go_tok _ _ _ qELSE2); vm_compute; reflexivity|].
    eapply run_trans; [apply (go_tok _ _ _ qELSEIF2); vm_compute; reflexivity|].
    destruct b as [c body].
    eapply run_trans; [apply (Fc Wc); right; right; reflexivity|].
    apply (go_reduce7 19).
    + cbn [fst top_state]. revert N. generalize (la (flat_map (fun b => kwt kElse :: kwt kIf :: toks_b b) bs ++ ts)).
      intros a. by_tok a.
    + reflexivity.
    + reflexivity.
    + vm_compute. reflexivity.
Qed.

Lemma else_run : forall body q v0 stk ts, Forall SP body -> forallb wf_s body = true ->
  stmt_next (la ts) = true -> q = qIFS \/ q = qELIF ->
  run ((q, v0) :: stk) (kwt kElse :: braces (flat_map toks_s body) ++ ts)
      ((g nElse q, VList [Node ELSE [inr (body_node body)]]) :: (q, v0) :: stk) ts.
Proof.
  intros body q v0 stk ts F W N Q.
  eapply run_trans.
  { apply (go_tok _ _ _ (sh q tELSE)). destruct Q as [-> | ->]; vm_compute; reflexivity. }
  eapply run_trans.
  { apply (block_run body (sh (sh q tELSE) tLBRACE)); [exact F|exact W| | | |]; cbn [top_state];
      destruct Q as [-> | ->]; vm_compute; reflexivity. }
  apply (go_reduce4 17).
  - cbn [fst]. revert N. generalize (la ts). intros a. destruct Q as [-> | ->]; by_tok a.
  - reflexivity.
  - reflexivity.
  - cbn [top_state]. destruct Q as [-> | ->]; vm_compute; reflexivity.
Qed.

Lemma if_case : forall b bs els, BP b -> Forall BP bs ->
  match els with None => True | Some body => Forall SP body end -> SP (SIf b bs els).
Proof.
  intros b bs els Pb Pbs Pe W stk ts C N. cbn [wf_s] in W. splitb.
  destruct (single_ctx_ok _ C) as (S1 & S2 & S3 & S4 & S5 & S6 & S7 & S8 & S9).
  cbn [toks_s]. cbn [app]. rewrite <- !app_assoc.
  eapply run_trans; [apply go_tok; exact S6|].
  set (rest := match els with None => [] | Some body => kwt kElse :: braces (flat_map toks_s body) end).
  assert (else_next (la (rest ++ ts)) = true) as N1.
  { unfold rest. destruct els; [reflexivity|]. cbn [app]. unfold else_next. now rewrite N. }
  set (mid := flat_map (fun b => kwt kElse :: kwt kIf :: toks_b b) bs).
  assert (else_next (la (mid ++ rest ++ ts)) = true) as N2.
  { unfold mid. destruct bs; [exact N1|reflexivity]. }
  destruct b as [c body].
  eapply run_trans; [apply (Pb H); left; reflexivity|].
  eapply run_trans.
  { apply (go_reduce5 16) with (v := VList [node_b IF (Branch c body)]) (j := qIFS).
    - cbn [fst top_state]. revert N2. generalize (la (mid ++ rest ++ ts)). intros a. by_tok a.
    - reflexivity.
    - reflexivity.
    - exact S9. }
  clear N2. unfold mid. clear mid.
  destruct bs as [|b2 bs].
  - cbn [flat_map app map]. unfold rest. destruct els as [eb|].
    + cbn [app]. eapply run_trans; [apply else_run; [exact Pe|assumption|exact N|now left]|].
      apply (go_reduce2 13).
      * cbn [fst]. revert N. generalize (la ts). intros a. by_tok a.
      * reflexivity.
      * reflexivity.
      * exact (g_ok _ _ C).
    + cbn [app]. apply (go_reduce1 12).
      * cbn [fst]. revert N. generalize (la ts). intros a. by_tok a.
      * reflexivity.
      * reflexivity.
      * exact (g_ok _ _ C).
  - inversion Pbs as [|b' bs' Pb2 Pbs2]; subst. cbn [forallb] in H1. apply andb_prop in H1. destruct H1 as [W1 W2].
    cbn [flat_map]. cbn [app]. rewrite <- app_assoc.
    assert (else_next (la (flat_map (fun b => kwt kElse :: kwt kIf :: toks_b b) bs ++ rest ++ ts)) = true) as N2.
    { destruct bs; [exact N1|reflexivity]. }
    eapply run_trans; [apply (go_tok _ _ _ qELSE1); vm_compute; reflexivity|].
    eapply run_trans; [apply (go_tok _ _ _ qELSEIF1); vm_compute; reflexivity|].
    destruct b2 as [c2 body2].
    eapply run_trans; [apply (Pb2 W1); right; left; reflexivity|].
    eapply run_trans.
    { apply (go_reduce6 18) with (v := VList [node_b ELSEIF (Branch c2 body2)]) (j := qELIF).
      - cbn [fst top_state]. revert N2.
        generalize (la (flat_map (fun b => kwt kElse :: kwt kIf :: toks_b b) bs ++ rest ++ ts)).
        intros a. by_tok a.
      - reflexivity.
      - reflexivity.
      - vm_compute. reflexivity. }
    eapply run_trans; [apply elifs_run; assumption|].
    assert (forall x : list node, semact f_single_code_if_elseif_else
       [VList [node_b IF (Branch c body)]; VList ([node_b ELSEIF (Branch c2 body2)] ++ map (node_b ELSEIF) bs); VList x]
       = Ok (VNode (Node IF_ELIF_ELSE (inr (node_b IF (Branch c body)) ::
           map (fun b => inr (node_b ELSEIF b)) (Branch c2 body2 :: bs) ++ map inr x)))) as SA.
    { intros x. unfold semact. cbn [mapM bind concat app map]. do 3 f_equal. f_equal. f_equal.
      rewrite map_app. cbn [map app]. rewrite app_nil_r, map_map. reflexivity. }
    unfold rest. destruct els as [eb|].
    + cbn [app]. eapply run_trans; [apply else_run; [exact Pe|assumption|exact N|now right]|].
      apply (go_reduce3 15).
      * cbn [fst]. revert N. generalize (la ts). intros a. by_tok a.
      * reflexivity.
      * cbn [snd]. exact (SA [Node ELSE [inr (body_node eb)]]).
      * exact (g_ok _ _ C).
    + cbn [app]. apply (go_reduce2 14).
      * cbn [fst]. revert N. generalize (la ts). intros a. by_tok a.
      * reflexivity.
      * cbn [snd]. change (p_fun (nprod 14)) with f_single_code_if_elseif_else.
        unfold semact. cbn [mapM bind concat app map node_s]. do 3 f_equal. f_equal. f_equal.
        rewrite !app_nil_r, map_map. reflexivity.
      * exact (g_ok _ _ C).
Qed.

(** ** Function headers *)

Definition qHEAD := Eval vm_compute in sh qFUN tCOLON.
Definition qHDR := Eval vm_compute in g nFuncname qHEAD.

(** Tokens that can follow an item of a header. *)
Definition head_next (t : tt) : bool :=
  words t || match t with tD_OP | tUPPERNAME | tLBRACE => true | _ => false end.

Definition hword_rule (t : tt) : nat :=
  match t with
  | tLOWERNAME => 28 | tOUTPUT => 29 | tFUNCTION => 30 | tLOOP => 31 | tOVER => 32 | tNAMED => 33
  | tSET => 34 | tTO => 35 | tIF => 36 | tELSE => 37 | _ => 38
  end.

Lemma head_first : forall h stk ts, top_state stk = qHEAD -> head_next (la ts) = true ->
  run stk (toks_h h ++ ts) ((qHDR, VNode (Node FUNCNAME_DEF [node_h h])) :: stk) ts.
Proof.
  intros h stk ts T N. destruct h as [w| |x|x ty]; cbn [toks_h app].
  - eapply run_trans.
    { apply (go_tok _ _ _ (sh qHEAD (fst (word_tok w)))). rewrite T.
      destruct w as [s|k]; [vm_compute; reflexivity|destruct k; vm_compute; reflexivity]. }
    apply (go_reduce1 (hword_rule (fst (word_tok w)))).
    + cbn [fst]. revert N. generalize (la ts). intros a.
      destruct w as [s|k]; [|destruct k]; cbn [word_tok kw_tok fst]; by_tok a.
    + destruct w as [s|k]; [|destruct k]; reflexivity.
    + destruct w as [s|k]; [|destruct k]; reflexivity.
    + rewrite T. destruct w as [s|k]; [|destruct k]; vm_compute; reflexivity.
  - eapply run_trans.
    { apply (go_tok _ _ _ (sh qHEAD tD_OP)). rewrite T. vm_compute. reflexivity. }
    apply (go_reduce1 51); [|reflexivity|reflexivity|rewrite T; vm_compute; reflexivity].
    cbn [fst]. revert N. generalize (la ts). intros a. by_tok a.
  - eapply run_trans.
    { apply (go_tok _ _ _ (sh qHEAD tUPPERNAME)). rewrite T. vm_compute. reflexivity. }
    eapply run_trans.
    { apply (go_reduce1 21) with (j := g nVar qHEAD); [|reflexivity|reflexivity|rewrite T; vm_compute; reflexivity].
      cbn [fst]. revert N. generalize (la ts). intros a. by_tok a. }
    apply (go_reduce1 53); [|reflexivity|reflexivity|rewrite T; vm_compute; reflexivity].
    cbn [fst]. revert N. generalize (la ts). intros a. by_tok a.
  - eapply run_trans.
    { apply (go_tok _ _ _ (sh qHEAD tUPPERNAME)). rewrite T. vm_compute. reflexivity. }
    eapply run_trans.
    { apply (go_reduce1 21) with (j := g nVar qHEAD); [|reflexivity|reflexivity|rewrite T; vm_compute; reflexivity].
      vm_compute. reflexivity. }
    eapply run_trans; [apply (go_tok _ _ _ (sh (g nVar qHEAD) tCOLON)); vm_compute; reflexivity|].
    destruct ty as [|s].
    + eapply run_trans; [apply (go_tok _ _ _ (sh (sh (g nVar qHEAD) tCOLON) tD_OP)); vm_compute; reflexivity|].
      apply (go_reduce3 54); [|reflexivity|reflexivity|rewrite T; vm_compute; reflexivity].
      cbn [fst]. revert N. generalize (la ts). intros a. by_tok a.
    + eapply run_trans; [apply (go_tok _ _ _ (sh (sh (g nVar qHEAD) tCOLON) tLOWERNAME)); vm_compute; reflexivity|].
      apply (go_reduce3 55); [|reflexivity|reflexivity|rewrite T; vm_compute; reflexivity].
      cbn [fst]. revert N. generalize (la ts). intros a. by_tok a.
Qed.

Lemma head_one : forall h vs stk ts, top_state stk = qHEAD -> head_next (la ts) = true ->
  run ((qHDR, VNode (Node FUNCNAME_DEF vs)) :: stk) (toks_h h ++ ts)
      ((qHDR, VNode (Node FUNCNAME_DEF (vs ++ [node_h h]))) :: stk) ts.
Proof.
  intros h vs stk ts T N. destruct h as [w| |x|x ty]; cbn [toks_h app].
  - eapply run_trans.
    { apply (go_tok _ _ _ (sh qHDR (fst (word_tok w)))). cbn [top_state].
      destruct w as [s|k]; [vm_compute; reflexivity|destruct k; vm_compute; reflexivity]. }
    apply (go_reduce2 (11 + hword_rule (fst (word_tok w)))).
    + cbn [fst]. revert N. generalize (la ts). intros a.
      destruct w as [s|k]; [|destruct k]; cbn [word_tok kw_tok fst]; by_tok a.
    + destruct w as [s|k]; [|destruct k]; reflexivity.
    + destruct w as [s|k]; [|destruct k]; reflexivity.
    + rewrite T. destruct w as [s|k]; [|destruct k]; vm_compute; reflexivity.
  - eapply run_trans.
    { apply (go_tok _ _ _ (sh qHDR tD_OP)). vm_compute. reflexivity. }
    apply (go_reduce2 52); [|reflexivity|reflexivity|rewrite T; vm_compute; reflexivity].
    cbn [fst]. revert N. generalize (la ts). intros a. by_tok a.
  - eapply run_trans.
    { apply (go_tok _ _ _ (sh qHDR tUPPERNAME)). vm_compute. reflexivity. }
    eapply run_trans.
    { apply (go_reduce1 21) with (j := g nVar qHDR); [|reflexivity|reflexivity|vm_compute; reflexivity].
      cbn [fst]. revert N. generalize (la ts). intros a. by_tok a. }
    apply (go_reduce2 56); [|reflexivity|reflexivity|rewrite T; vm_compute; reflexivity].
    cbn [fst]. revert N. generalize (la ts). intros a. by_tok a.
  - eapply run_trans.
    { apply (go_tok _ _ _ (sh qHDR tUPPERNAME)). vm_compute. reflexivity. }
    eapply run_trans.
    { apply (go_reduce1 21) with (j := g nVar qHDR); [|reflexivity|reflexivity|vm_compute; reflexivity].
      vm_compute. reflexivity. }
    eapply run_trans; [apply (go_tok _ _ _ (sh (g nVar qHDR) tCOLON)); vm_compute; reflexivity|].
    destruct ty as [|s].
    + eapply run_trans; [apply (go_tok _ _ _ (sh (sh (g nVar qHDR) tCOLON) tD_OP)); vm_compute; reflexivity|].
      apply (go_reduce4 57); [|reflexivity|reflexivity|rewrite T; vm_compute; reflexivity].
      cbn [fst]. revert N. generalize (la ts). intros a. by_tok a.
    + eapply run_trans; [apply (go_tok _ _ _ (sh (sh (g nVar qHDR) tCOLON) tLOWERNAME)); vm_compute; reflexivity|].
      apply (go_reduce4 58); [|reflexivity|reflexivity|rewrite T; vm_compute; reflexivity].
      cbn [fst]. revert N. generalize (la ts). intros a. by_tok a.
Qed.

Lemma la_head : forall hs ts, la ts = tLBRACE -> head_next (la (flat_map toks_h hs ++ ts)) = true.
Proof.
  intros [|h hs] ts A; [cbn [flat_map app]; now rewrite A|].
  cbn [flat_map]. destruct h as [w| |x|x ty]; try reflexivity.
  cbn [toks_h app]. pose proof (word_words w) as H. destruct (word_tok w) as [t v]. cbn [fst] in H.
  unfold head_next. cbn [la]. now rewrite H.
Qed.

Lemma head_more : forall hs vs stk ts, top_state stk = qHEAD -> la ts = tLBRACE ->
  run ((qHDR, VNode (Node FUNCNAME_DEF vs)) :: stk) (flat_map toks_h hs ++ ts)
      ((qHDR, VNode (Node FUNCNAME_DEF (vs ++ map node_h hs))) :: stk) ts.
Proof.
  intros hs; induction hs as [|h hs IH]; intros vs stk ts T A.
  - cbn [flat_map map app]. rewrite app_nil_r. apply run_refl.
  - cbn [flat_map map]. rewrite <- app_assoc.
    replace (vs ++ node_h h :: map node_h hs) with ((vs ++ [node_h h]) ++ map node_h hs)
      by (rewrite <- app_assoc; reflexivity).
    eapply run_trans; [apply head_one; [exact T|exact (la_head hs ts A)]|]. now apply IH.
Qed.

(** ** Statements *)

Theorem stmts_ok : (forall s, SP s) /\ (forall b, BP b).
Proof.
  apply stmt_ind2.
  - (* output *)
    intros e W stk ts C N. cbn [wf_s] in W.
    destruct (single_ctx_ok _ C) as (S1 & S2 & S3 & S4 & S5 & S6 & S7 & S8 & S9).
    cbn [toks_s node_s]. cbn [app].
    eapply run_trans; [apply go_tok; exact S1|].
    eapply run_trans.
    { apply expr_in; [exact W|vm_compute; reflexivity|vm_compute; reflexivity|exact (next_closes _ N)|].
      intros E; vm_compute in E; discriminate E. }
    apply (go_reduce2 5); [|reflexivity|reflexivity|exact (g_ok _ _ C)].
    cbn [fst]. revert N. generalize (la ts). intros a. by_tok a.
  - intros e p ps W stk ts C N. cbn [wf_s] in W.
    destruct (single_ctx_ok _ C) as (S1 & S2 & S3 & S4 & S5 & S6 & S7 & S8 & S9).
    cbn [toks_s node_s]. cbn [app]. rewrite <- app_assoc.
    eapply run_trans; [apply go_tok; exact S1|].
    eapply run_trans.
    { apply expr_in; [exact W|vm_compute; reflexivity|vm_compute; reflexivity|reflexivity|].
      intros E; vm_compute in E; discriminate E. }
    change ((kwt kNamed :: map part_tok (p :: ps)) ++ ts) with (kwt kNamed :: (map part_tok (p :: ps) ++ ts)).
    eapply run_trans; [apply (go_tok _ _ _ (sh (g nExpr qOUT) tNAMED)); vm_compute; reflexivity|].
    eapply run_trans.
    { apply string_run; [vm_compute; reflexivity|].
      pose proof (next_closes _ N) as Cl. unfold closes in Cl. now splitb. }
    apply (go_reduce4 6); [|reflexivity|reflexivity|exact (g_ok _ _ C)].
    cbn [fst]. revert N. generalize (la ts). intros a. by_tok a.
  - (* function *)
    intros h hs body F W stk ts C N. cbn [wf_s] in W.
    destruct (single_ctx_ok _ C) as (S1 & S2 & S3 & S4 & S5 & S6 & S7 & S8 & S9).
    cbn [toks_s node_s]. cbn [app]. rewrite <- app_assoc.
    eapply run_trans; [apply go_tok; exact S2|].
    eapply run_trans; [apply (go_tok _ _ _ qHEAD); vm_compute; reflexivity|].
    cbn [flat_map]. rewrite <- app_assoc.
    eapply run_trans; [apply head_first; [reflexivity|apply la_head; reflexivity]|].
    eapply run_trans; [apply head_more; [reflexivity|reflexivity]|].
    eapply run_trans.
    { apply (block_run body (sh qHDR tLBRACE)); [exact F|exact W| | | |]; vm_compute; reflexivity. }
    apply (go_reduce6 7); [|reflexivity|reflexivity|exact (g_ok _ _ C)].
    cbn [fst]. revert N. generalize (la ts). intros a. by_tok a.
  - (* loop *)
    intros x e body F W stk ts C N. cbn [wf_s] in W. apply andb_prop in W. destruct W as [We Wb].
    destruct (single_ctx_ok _ C) as (S1 & S2 & S3 & S4 & S5 & S6 & S7 & S8 & S9).
    cbn [toks_s node_s]. cbn [app]. rewrite <- app_assoc.
    eapply run_trans; [apply go_tok; exact S3|].
    eapply run_trans; [apply (go_tok _ _ _ (sh qLOOP tUPPERNAME)); vm_compute; reflexivity|].
    eapply run_trans.
    { apply (go_reduce1 21) with (j := g nVar qLOOP); [vm_compute; reflexivity|reflexivity|reflexivity|vm_compute; reflexivity]. }
    eapply run_trans; [apply (go_tok _ _ _ (sh (g nVar qLOOP) tOVER)); vm_compute; reflexivity|].
    eapply run_trans.
    { apply expr_in; [exact We|vm_compute; reflexivity|vm_compute; reflexivity|reflexivity|].
      intros E; vm_compute in E; discriminate E. }
    eapply run_trans.
    { apply (block_run body (sh (g nExpr (sh (g nVar qLOOP) tOVER)) tLBRACE)); [exact F|exact Wb| | | |]; vm_compute; reflexivity. }
    apply (go_reduce7 8); [|reflexivity|reflexivity|exact (g_ok _ _ C)].
    cbn [fst]. revert N. generalize (la ts). intros a. by_tok a.
  - (* result *)
    intros e W stk ts C N. cbn [wf_s] in W.
    destruct (single_ctx_ok _ C) as (S1 & S2 & S3 & S4 & S5 & S6 & S7 & S8 & S9).
    cbn [toks_s node_s]. cbn [app].
    eapply run_trans; [apply go_tok; exact S4|].
    eapply run_trans; [apply (go_tok _ _ _ (sh qRES tCOLON)); vm_compute; reflexivity|].
    eapply run_trans.
    { apply expr_in; [exact W|vm_compute; reflexivity|vm_compute; reflexivity|exact (next_closes _ N)|].
      intros E; vm_compute in E; discriminate E. }
    apply (go_reduce3 9); [|reflexivity|reflexivity|exact (g_ok _ _ C)].
    cbn [fst]. revert N. generalize (la ts). intros a. by_tok a.
  - (* set *)
    intros p ps v W stk ts C N. cbn [wf_s] in W.
    destruct (single_ctx_ok _ C) as (S1 & S2 & S3 & S4 & S5 & S6 & S7 & S8 & S9).
    cbn [toks_s node_s].
    change ((kwt kSet :: map part_tok (p :: ps) ++ kwt kTo :: toks_e v) ++ ts)
      with (kwt kSet :: ((map part_tok (p :: ps) ++ kwt kTo :: toks_e v) ++ ts)).
    rewrite <- app_assoc.
    eapply run_trans; [apply go_tok; exact S5|].
    eapply run_trans; [apply string_run; [vm_compute; reflexivity|reflexivity]|].
    cbn [app]. eapply run_trans; [apply (go_tok _ _ _ qSETTO); vm_compute; reflexivity|].
    destruct (plain_str v) eqn:PS.
    + destruct v as [| | |[]]; try discriminate PS. cbn [toks_e toks_t node_e node_t].
      eapply run_trans.
      { apply string_run; [vm_compute; reflexivity|].
        pose proof (next_closes _ N) as Cl. unfold closes in Cl. now splitb. }
      apply (go_reduce4 10); [|reflexivity|reflexivity|exact (g_ok _ _ C)].
      cbn [fst]. revert N. generalize (la ts). intros a. by_tok a.
    + eapply run_trans.
      { apply expr_in; [exact W|vm_compute; reflexivity|vm_compute; reflexivity|exact (next_closes _ N)|].
        intros _. exact PS. }
      apply (go_reduce4 11); [|reflexivity|reflexivity|exact (g_ok _ _ C)].
      cbn [fst]. revert N. generalize (la ts). intros a. by_tok a.
  - (* assignment *)
    intros x e W stk ts C N. cbn [wf_s] in W.
    destruct (single_ctx_ok _ C) as (S1 & S2 & S3 & S4 & S5 & S6 & S7 & S8 & S9).
    cbn [toks_s node_s]. cbn [app].
    eapply run_trans; [apply go_shift; exact S7|].
    eapply run_trans.
    { apply (go_reduce1 21); [vm_compute; reflexivity|reflexivity|reflexivity|exact S8]. }
    eapply run_trans; [apply (go_tok _ _ _ (sh qVAR0 tCOLON)); vm_compute; reflexivity|].
    eapply run_trans.
    { apply expr_in; [exact W|vm_compute; reflexivity|vm_compute; reflexivity|exact (next_closes _ N)|].
      intros E; vm_compute in E; discriminate E. }
    apply (go_reduce3 20); [|reflexivity|reflexivity|exact (g_ok _ _ C)].
    cbn [fst]. revert N. generalize (la ts). intros a. by_tok a.
  - exact if_case.
  - exact branch_ok.
Qed.

(** ** Programs *)

Theorem parse_complete : forall p, wf p = true -> parse (toks p) = Ok (VNode (tree p)).
Proof.
  intros p W. unfold wf in W. unfold toks.
  apply (parse_done _ [(g nMulti 0, VNode (tree p))] []).
  - rewrite <- (app_nil_r (flat_map toks_s p)).
    apply (body_run p [] []); [|exact W|vm_compute; reflexivity|reflexivity].
    clear W. induction p as [|s p IH]; constructor; [apply stmts_ok|exact IH].
  - unfold parse_step. cbn [top_state la].
    replace (action_at (g nMulti 0) tEnd) with (Some Accept) by (vm_compute; reflexivity). reflexivity.
Qed.
