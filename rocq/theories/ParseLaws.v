(** Consequences of ParseSound.v for source texts. *)
From Coq Require Import String Bool List Arith Lia.
From Verif Require Import PyBase LexModel LexSpec LexFacts GramModel ParseModel LrFacts SynSpec SynInd ExprParse ExprParse2 StmtParse SynNorm ParseSound.
Import ListNotations.
Open Scope list_scope.

Lemma tokens_good : forall ps, Forall piece_ok ps -> Forall good (tokens_of ps).
Proof.
  intros ps F. apply Forall_forall. intros k K. rewrite Forall_forall in F.
  unfold tokens_of in K. apply in_flat_map in K. destruct K as (p & P & K).
  specialize (F _ P). destruct p as [[t s]| |]; cbn in K; try contradiction K.
  destruct K as [<-|[]]. exact F.
Qed.

Lemma scan_good : forall s ts, scan s = Some ts -> Forall good ts.
Proof.
  intros s ts E. destruct (scan_pieces s ts E) as (ps & _ & -> & _ & F & _). now apply tokens_good.
Qed.

(** ** Trees of operators *)

Inductive optree : Set := Leaf (t : term) | Op (o : binop) (l r : optree).

(** The tree written without, and with all, brackets. *)
Fixpoint bare (x : optree) : expr :=
  match x with Leaf t => ETerm t | Op o l r => EBin o (bare l) (bare r) end.
Fixpoint bracketed (x : optree) : expr :=
  match x with
  | Leaf t => ETerm t
  | Op o l r => EBin o (ETerm (TGroup (bracketed l))) (ETerm (TGroup (bracketed r)))
  end.

Fixpoint leaves_wf (x : optree) : bool :=
  match x with Leaf t => wf_t t | Op _ l r => leaves_wf l && leaves_wf r end.

(** The tree that a node of the parser stands for, brackets removed. *)
Inductive stands_for : node -> optree -> Prop :=
| sf_leaf t : stands_for (node_t t) (Leaf t)
| sf_op o a b l r : stands_for a l -> stands_for b r ->
    stands_for (Node EXPR_OP [inl (op_text o); inr a; inr b]) (Op o l r)
| sf_group a x : stands_for a x -> stands_for (Node GROUP [inr a]) x.

Lemma bracketed_wf : forall x, leaves_wf x = true -> wf_e (bracketed x) = true.
Proof.
  intros x; induction x as [t|o l IHl r IHr]; intros W; cbn [leaves_wf bracketed] in *; [exact W|].
  apply andb_prop in W. destruct W as [Wl Wr].
  cbn [wf_e wf_t level]. rewrite IHl, IHr by assumption. pose proof (op_level_lt o).
  rewrite !andb_true_r. apply andb_true_intro. split; [apply Nat.leb_le|apply Nat.ltb_lt]; lia.
Qed.

Lemma bracketed_stands : forall x, stands_for (node_e (bracketed x)) x.
Proof.
  intros x; induction x as [t|o l IHl r IHr]; cbn [bracketed node_e node_t].
  - apply sf_leaf.
  - apply sf_op; apply sf_group; assumption.
Qed.

Theorem brackets_decide : forall x, leaves_wf x = true ->
  exists n, parse (toks [SOutput (bracketed x)])
              = Ok (VNode (Node MULTILINE_CODE [inr (Node OUTPUT [inr n])])) /\ stands_for n x.
Proof.
  intros x W. exists (node_e (bracketed x)). split; [|apply bracketed_stands].
  rewrite parse_complete; [reflexivity|]. unfold wf. cbn [forallb wf_s]. now rewrite bracketed_wf.
Qed.

(** A chain of operators without brackets. *)
Theorem two_ops : forall a b c o1 o2, wf_t a = true -> wf_t b = true -> wf_t c = true ->
  parse (kwt kOutput :: toks_t a ++ op_toks o1 ++ toks_t b ++ op_toks o2 ++ toks_t c) =
  Ok (VNode (Node MULTILINE_CODE [inr (Node OUTPUT [inr
    (if Nat.leb (op_level o2) (op_level o1)
     then Node EXPR_OP [inl (op_text o2);
            inr (Node EXPR_OP [inl (op_text o1); inr (node_t a); inr (node_t b)]); inr (node_t c)]
     else Node EXPR_OP [inl (op_text o1); inr (node_t a);
            inr (Node EXPR_OP [inl (op_text o2); inr (node_t b); inr (node_t c)])])])])).
Proof.
  intros a b c o1 o2 A B C. pose proof (op_level_lt o1). pose proof (op_level_lt o2).
  destruct (Nat.leb (op_level o2) (op_level o1)) eqn:E.
  - assert (wf [SOutput (EBin o2 (EBin o1 (ETerm a) (ETerm b)) (ETerm c))] = true) as W.
    { unfold wf. cbn [forallb wf_s wf_e level]. rewrite A, B, C, E, !andb_true_r.
      repeat (apply andb_true_intro; split); try reflexivity; first [apply Nat.leb_le|apply Nat.ltb_lt]; lia. }
    pose proof (parse_complete _ W) as P. unfold toks in P. cbn [flat_map toks_s toks_e] in P.
    rewrite app_nil_r, <- !app_assoc in P. exact P.
  - apply Nat.leb_gt in E.
    assert (wf [SOutput (EBin o1 (ETerm a) (EBin o2 (ETerm b) (ETerm c)))] = true) as W.
    { unfold wf. cbn [forallb wf_s wf_e level]. rewrite A, B, C, !andb_true_r.
      repeat (apply andb_true_intro; split); try reflexivity; first [apply Nat.leb_le|apply Nat.ltb_lt]; lia. }
    pose proof (parse_complete _ W) as P. unfold toks in P. cbn [flat_map toks_s toks_e] in P.
    rewrite app_nil_r in P. exact P.
Qed.

(** ** A call that begins with a call *)

Theorem nested_call_fails : forall cs w ts, wf_t (TCall cs) = true ->
  parse (kwt kOutput :: (tLBRACKET, "["%string) :: toks_t (TCall cs) ++ word_tok w :: ts) = Err IndexErr.
Proof.
  intros cs w ts W.
  apply (parse_done _ ((g nExpr qBRACK, VNode (node_t (TCall cs))) :: (qBRACK, VStr "[") ::
                       (qOUT, VStr "output") :: []) (word_tok w :: ts)).
  - eapply run_trans; [apply (go_tok _ _ _ qOUT); vm_compute; reflexivity|].
    eapply run_trans; [apply (go_shift _ _ _ _ qBRACK); vm_compute; reflexivity|].
    apply (proj1 syntax_ok (ETerm (TCall cs)) W).
    + vm_compute; reflexivity.
    + vm_compute; lia.
    + pose proof (word_words w) as H. destruct (word_tok w) as [t v]. cbn [fst la] in *.
      destruct t; try discriminate H; reflexivity.
    + pose proof (word_words w) as H. destruct (word_tok w) as [t v]. cbn [fst la] in *.
      destruct t; try discriminate H; cbn; lia.
    + pose proof (word_words w) as H. destruct (word_tok w) as [t v]. cbn [fst la] in *.
      destruct t; try discriminate H; reflexivity.
    + pose proof (word_words w) as H. destruct (word_tok w) as [t v]. cbn [fst la] in *.
      rewrite andb_comm. destruct t; try discriminate H; reflexivity.
    + intros Z. vm_compute in Z. discriminate Z.
  - unfold parse_step. cbn [top_state].
    replace (action_at (g nExpr qBRACK) (la (word_tok w :: ts))) with (Some (Reduce 115)).
    + reflexivity.
    + destruct w as [s|k]; [vm_compute; reflexivity|destruct k; vm_compute; reflexivity].
Qed.

Theorem nameless_fails : forall ts,
  parse (kwt kFunction :: colon :: (tLBRACE, "{"%string) :: ts) = Err IndexErr.
Proof.
  intros ts.
  apply (parse_done _ ((qHEAD, VStr ":") :: (qFUN, VStr "function") :: []) ((tLBRACE, "{"%string) :: ts)).
  - eapply run_trans; [apply (go_tok _ _ _ qFUN); vm_compute; reflexivity|].
    apply (go_tok [(qFUN, VStr "function"%string)] colon ((tLBRACE, "{"%string) :: ts) qHEAD); vm_compute; reflexivity.
  - unfold parse_step. cbn [top_state la].
    replace (action_at qHEAD tLBRACE) with (Some (Reduce 50)) by (vm_compute; reflexivity). reflexivity.
Qed.
