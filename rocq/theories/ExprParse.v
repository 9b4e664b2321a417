(** The parser reads every well-formed expression of SynSpec.v as its tree. *)
From Coq Require Import String Bool List Arith Lia.
From Verif Require Import PyBase LexModel GramModel ParseModel LrFacts SynSpec SynInd.
Import ListNotations.
Open Scope list_scope.

(** ** Steps *)

Lemma go_shift : forall stk t v ts j, action_at (top_state stk) t = Some (Shift j) ->
  run stk ((t, v) :: ts) ((j, VStr v) :: stk) ts.
Proof.
  intros stk t v ts j A. apply run_one. unfold parse_step. cbn [la]. now rewrite A.
Qed.

Lemma go_tok : forall stk k ts j, action_at (top_state stk) (fst k) = Some (Shift j) ->
  run stk (k :: ts) ((j, VStr (snd k)) :: stk) ts.
Proof. intros stk [t v] ts j A. now apply go_shift. Qed.

Lemma go_reduce : forall p pop stk ts v j,
  action_at (top_state (pop ++ stk)) (la ts) = Some (Reduce p) ->
  length pop = length (p_rhs (nprod p)) ->
  semact (p_fun (nprod p)) (rev (map snd pop)) = Ok v ->
  assoc_nt (p_lhs (nprod p)) (goto_row (top_state stk)) = Some j ->
  run (pop ++ stk) ts ((j, v) :: stk) ts.
Proof.
  intros p pop stk ts v j A L S G. apply run_one. unfold parse_step. rewrite A.
  unfold do_reduce. rewrite <- L.
  rewrite firstn_app, Nat.sub_diag, firstn_all, firstn_O, app_nil_r, S.
  rewrite skipn_app, Nat.sub_diag, skipn_all. cbn [app skipn]. now rewrite G.
Qed.

Lemma go_reduce1 : forall p e1 stk ts v j,
  action_at (fst e1) (la ts) = Some (Reduce p) ->
  length (p_rhs (nprod p)) = 1 ->
  semact (p_fun (nprod p)) [snd e1] = Ok v ->
  assoc_nt (p_lhs (nprod p)) (goto_row (top_state stk)) = Some j ->
  run (e1 :: stk) ts ((j, v) :: stk) ts.
Proof.
  intros p e1 stk ts v j A L S G. apply (go_reduce p [e1] stk ts v j).
  - destruct e1. exact A.
  - now rewrite L.
  - exact S.
  - exact G.
Qed.

Lemma go_reduce2 : forall p e1 e2 stk ts v j,
  action_at (fst e1) (la ts) = Some (Reduce p) ->
  length (p_rhs (nprod p)) = 2 ->
  semact (p_fun (nprod p)) [snd e2; snd e1] = Ok v ->
  assoc_nt (p_lhs (nprod p)) (goto_row (top_state stk)) = Some j ->
  run (e1 :: e2 :: stk) ts ((j, v) :: stk) ts.
Proof.
  intros p e1 e2 stk ts v j A L S G. apply (go_reduce p [e1; e2] stk ts v j).
  - destruct e1. exact A.
  - now rewrite L.
  - exact S.
  - exact G.
Qed.

Lemma go_reduce3 : forall p e1 e2 e3 stk ts v j,
  action_at (fst e1) (la ts) = Some (Reduce p) ->
  length (p_rhs (nprod p)) = 3 ->
  semact (p_fun (nprod p)) [snd e3; snd e2; snd e1] = Ok v ->
  assoc_nt (p_lhs (nprod p)) (goto_row (top_state stk)) = Some j ->
  run (e1 :: e2 :: e3 :: stk) ts ((j, v) :: stk) ts.
Proof.
  intros p e1 e2 e3 stk ts v j A L S G. apply (go_reduce p [e1; e2; e3] stk ts v j).
  - destruct e1. exact A.
  - now rewrite L.
  - exact S.
  - exact G.
Qed.

Lemma go_reduce4 : forall p e1 e2 e3 e4 stk ts v j,
  action_at (fst e1) (la ts) = Some (Reduce p) ->
  length (p_rhs (nprod p)) = 4 ->
  semact (p_fun (nprod p)) [snd e4; snd e3; snd e2; snd e1] = Ok v ->
  assoc_nt (p_lhs (nprod p)) (goto_row (top_state stk)) = Some j ->
  run (e1 :: e2 :: e3 :: e4 :: stk) ts ((j, v) :: stk) ts.
Proof.
  intros p e1 e2 e3 e4 stk ts v j A L S G. apply (go_reduce p [e1; e2; e3; e4] stk ts v j).
  - destruct e1. exact A.
  - now rewrite L.
  - exact S.
  - exact G.
Qed.

Lemma go_reduce5 : forall p e1 e2 e3 e4 e5 stk ts v j,
  action_at (fst e1) (la ts) = Some (Reduce p) ->
  length (p_rhs (nprod p)) = 5 ->
  semact (p_fun (nprod p)) [snd e5; snd e4; snd e3; snd e2; snd e1] = Ok v ->
  assoc_nt (p_lhs (nprod p)) (goto_row (top_state stk)) = Some j ->
  run (e1 :: e2 :: e3 :: e4 :: e5 :: stk) ts ((j, v) :: stk) ts.
Proof.
  intros p e1 e2 e3 e4 e5 stk ts v j A L S G. apply (go_reduce p [e1; e2; e3; e4; e5] stk ts v j).
  - destruct e1. exact A.
  - now rewrite L.
  - exact S.
  - exact G.
Qed.

Lemma go_reduce6 : forall p e1 e2 e3 e4 e5 e6 stk ts v j,
  action_at (fst e1) (la ts) = Some (Reduce p) ->
  length (p_rhs (nprod p)) = 6 ->
  semact (p_fun (nprod p)) [snd e6; snd e5; snd e4; snd e3; snd e2; snd e1] = Ok v ->
  assoc_nt (p_lhs (nprod p)) (goto_row (top_state stk)) = Some j ->
  run (e1 :: e2 :: e3 :: e4 :: e5 :: e6 :: stk) ts ((j, v) :: stk) ts.
Proof.
  intros p e1 e2 e3 e4 e5 e6 stk ts v j A L S G. apply (go_reduce p [e1; e2; e3; e4; e5; e6] stk ts v j).
  - destruct e1. exact A.
  - now rewrite L.
  - exact S.
  - exact G.
Qed.

Lemma go_reduce7 : forall p e1 e2 e3 e4 e5 e6 e7 stk ts v j,
  action_at (fst e1) (la ts) = Some (Reduce p) ->
  length (p_rhs (nprod p)) = 7 ->
  semact (p_fun (nprod p)) [snd e7; snd e6; snd e5; snd e4; snd e3; snd e2; snd e1] = Ok v ->
  assoc_nt (p_lhs (nprod p)) (goto_row (top_state stk)) = Some j ->
  run (e1 :: e2 :: e3 :: e4 :: e5 :: e6 :: e7 :: stk) ts ((j, v) :: stk) ts.
Proof.
  intros p e1 e2 e3 e4 e5 e6 e7 stk ts v j A L S G. apply (go_reduce p [e1; e2; e3; e4; e5; e6; e7] stk ts v j).
  - destruct e1. exact A.
  - now rewrite L.
  - exact S.
  - exact G.
Qed.

(** ** Checks on the tables *)

Definition is_ctx (n : nt) (q : nat) : bool :=
  match assoc_nt n (goto_row q) with Some _ => true | None => false end.
Definition g (n : nt) (q : nat) : nat :=
  match assoc_nt n (goto_row q) with Some j => j | None => 0 end.

Lemma g_ok : forall n q, is_ctx n q = true -> assoc_nt n (goto_row q) = Some (g n q).
Proof. intros n q. unfold is_ctx, g. destruct (assoc_nt n (goto_row q)); [reflexivity|discriminate]. Qed.

Lemma ctx_check : forall n (f : nat -> bool),
  forallb (fun q => implb (is_ctx n q) (f q)) all_states = true ->
  forall q, is_ctx n q = true -> f q = true.
Proof.
  intros n f H q C. rewrite forallb_forall in H.
  assert (q < nstates) as L.
  { apply goto_dom. intros E. unfold is_ctx in C. rewrite E in C. discriminate C. }
  specialize (H q). cbv beta in H. rewrite C in H. apply H. apply in_seq. lia.
Qed.

Lemma all_tt_complete : forall t, In t all_tt.
Proof. intros t. destruct t; vm_compute; repeat (first [left; reflexivity | right]). Qed.

Lemma tok_check : forall (f : tt -> bool), forallb f all_tt = true -> forall t, f t = true.
Proof. intros f H t. rewrite forallb_forall in H. apply H. apply all_tt_complete. Qed.

Definition shifts (q : nat) (t : tt) (j : nat) : bool :=
  match action_at q t with Some (Shift k) => Nat.eqb j k | _ => false end.
Definition reduces (q : nat) (t : tt) (p : nat) : bool :=
  match action_at q t with Some (Reduce k) => Nat.eqb p k | _ => false end.

Lemma shifts_ok : forall q t j, shifts q t j = true -> action_at q t = Some (Shift j).
Proof.
  intros q t j. unfold shifts. destruct (action_at q t) as [[k|p|]|]; try discriminate.
  intros E. apply Nat.eqb_eq in E. now subst.
Qed.
Lemma reduces_ok : forall q t j, reduces q t j = true -> action_at q t = Some (Reduce j).
Proof.
  intros q t j. unfold reduces. destruct (action_at q t) as [[k|p|]|]; try discriminate.
  intros E. apply Nat.eqb_eq in E. now subst.
Qed.

Definition sh (q : nat) (t : tt) : nat := match action_at q t with Some (Shift j) => j | _ => 0 end.

(** Tokens that may follow a term. *)
Definition after_term (t : tt) : bool := match t with tCOLON | tDOT => false | _ => true end.

(** Numbers of states, found by following a program. *)
Definition qOUT := Eval vm_compute in sh 0 tOUTPUT.
Definition qNUM := Eval vm_compute in sh qOUT tNUMBER.
Definition qUP := Eval vm_compute in sh qOUT tUPPERNAME.
Definition qVAR := Eval vm_compute in g nVar qOUT.
Definition qSTR := Eval vm_compute in g nString qOUT.
Definition qBRACE := Eval vm_compute in sh qOUT tLBRACE.
Definition qPAREN := Eval vm_compute in sh qOUT tLPAREN.
Definition qBRACK := Eval vm_compute in sh qOUT tLBRACKET.
Definition qTERM := Eval vm_compute in g nTerm qOUT.
Definition qDIE := Eval vm_compute in sh qOUT tD_OP.
Definition qDICE := Eval vm_compute in sh qTERM tD_OP.
Definition qSET := Eval vm_compute in sh 0 tSET.
Definition qSETTO := Eval vm_compute in sh (g nString qSET) tTO.

(** ** Strings *)

Lemma inner_brackets : forall v, inner ("[" ++ v ++ "]")%string = v.
Proof.
  intros v. unfold inner.
  assert (String.length ("[" ++ v ++ "]") = S (S (String.length v))) as ->.
  { cbn [append String.length]. f_equal. induction v as [|c v IH]; [reflexivity|].
    cbn [append String.length]. now rewrite IH. }
  cbn [append substring]. replace (S (S (String.length v)) - 2) with (String.length v) by lia.
  induction v as [|c v IH]; [reflexivity|]. cbn [append String.length substring]. now rewrite IH.
Qed.

Definition str_first (q : nat) : bool :=
  forallb (fun t => implb (in_string t)
     (Nat.ltb 0 (sh q t) && shifts q t (sh q t) &&
      forallb (fun a => implb (after_term a)
        (reduces (sh q t) a (match t with tINSTRING_ANY => 22 | tINSTRING_NONVAR => 23 | _ => 26 end))) all_tt)) all_tt.
Definition str_next (q : nat) : bool :=
  let q' := g nString q in
  forallb (fun t => implb (in_string t)
     (shifts q' t (sh q' t) &&
      forallb (fun a => implb (after_term a)
        (reduces (sh q' t) a (match t with tINSTRING_ANY => 24 | tINSTRING_NONVAR => 25 | _ => 27 end))) all_tt)) all_tt.

Lemma str_first_ok : forall q, is_ctx nString q = true -> str_first q = true.
Proof. apply ctx_check. vm_compute. reflexivity. Qed.
Lemma str_next_ok : forall q, is_ctx nString q = true -> str_next q = true.
Proof. apply ctx_check. vm_compute. reflexivity. Qed.

Lemma in_string_after : forall t, in_string t = true -> after_term t = true.
Proof. intros t; destruct t; intros H; try discriminate H; reflexivity. Qed.

Lemma part_in_string : forall p, in_string (fst (part_tok p)) = true.
Proof. intros [s|s|v]; reflexivity. Qed.

Lemma string_more : forall ps q0 v0 stk vs ts, is_ctx nString q0 = true -> top_state stk = q0 ->
  after_term (la ts) = true ->
  v0 = VNode (Node STRING vs) ->
  run ((g nString q0, v0) :: stk) (map part_tok ps ++ ts)
      ((g nString q0, VNode (Node STRING (vs ++ map part_node ps))) :: stk) ts.
Proof.
  intros ps; induction ps as [|p ps IH]; intros q0 v0 stk vs ts C T A ->.
  - cbn [map app]. rewrite app_nil_r. apply run_refl.
  - cbn [map app]. pose proof (str_next_ok _ C) as F. unfold str_next in F. cbv zeta in F.
    pose proof (tok_check _ F (fst (part_tok p))) as F1. cbv beta in F1.
    rewrite part_in_string in F1. cbn [implb] in F1.
    apply andb_prop in F1. destruct F1 as [F1 F2]. apply shifts_ok in F1.
    set (a := la (map part_tok ps ++ ts)).
    assert (after_term a = true) as Ha.
    { unfold a. destruct ps as [|p' ps']; [exact A|]. cbn [map app]. destruct p'; reflexivity. }
    pose proof (tok_check _ F2 a) as F3. cbv beta in F3. rewrite Ha in F3. cbn [implb] in F3.
    apply reduces_ok in F3.
    eapply run_trans.
    { apply go_tok. exact F1. }
    eapply run_trans.
    { match goal with |- run (?e1 :: ?e2 :: stk) _ _ _ =>
        change (e1 :: e2 :: stk) with ([e1; e2] ++ stk) end.
      eapply go_reduce with (p := match p with PAny _ => 24 | PNonvar _ => 25 | PVar _ => 27 end)
        (v := VNode (Node STRING (vs ++ [part_node p]))) (j := g nString q0).
      - cbn [app top_state]. destruct p as [s|s|v]; exact F3.
      - destruct p as [s|s|v]; reflexivity.
      - destruct p as [s|s|v]; try reflexivity.
        cbn [part_tok fst rev map snd app].
        unfold semact. change (p_fun (nprod 27)) with f_strvar_instring.
        cbn [arg nth_error bind is_node Nat.sub]. cbv beta. rewrite inner_brackets. reflexivity.
      - rewrite T. destruct p as [s|s|v]; exact (g_ok _ _ C). }
    replace (vs ++ part_node p :: map part_node ps) with ((vs ++ [part_node p]) ++ map part_node ps)
      by (rewrite <- app_assoc; reflexivity).
    apply IH; try assumption. reflexivity.
Qed.

Lemma string_run : forall p ps stk ts, is_ctx nString (top_state stk) = true ->
  after_term (la ts) = true ->
  run stk (map part_tok (p :: ps) ++ ts)
      ((g nString (top_state stk), VNode (string_node (p :: ps))) :: stk) ts.
Proof.
  intros p ps stk ts C A. cbn [map app].
  pose proof (str_first_ok _ C) as F. unfold str_first in F.
  pose proof (tok_check _ F (fst (part_tok p))) as F1. cbv beta in F1.
  rewrite part_in_string in F1. cbn [implb] in F1.
  apply andb_prop in F1. destruct F1 as [F1 F2]. apply andb_prop in F1. destruct F1 as [_ F1].
  apply shifts_ok in F1.
  set (a := la (map part_tok ps ++ ts)).
  assert (after_term a = true) as Ha.
  { unfold a. destruct ps as [|p' ps']; [exact A|]. cbn [map app]. destruct p'; reflexivity. }
  pose proof (tok_check _ F2 a) as F3. cbv beta in F3. rewrite Ha in F3. cbn [implb] in F3.
  apply reduces_ok in F3.
  eapply run_trans.
  { apply go_tok. exact F1. }
  eapply run_trans.
  { match goal with |- run (?e1 :: stk) _ _ _ => change (e1 :: stk) with ([e1] ++ stk) end.
    eapply go_reduce with (p := match p with PAny _ => 22 | PNonvar _ => 23 | PVar _ => 26 end)
        (v := VNode (Node STRING [part_node p])) (j := g nString (top_state stk)).
    - cbn [app top_state]. destruct p as [s|s|v]; exact F3.
    - destruct p as [s|s|v]; reflexivity.
    - destruct p as [s|s|v]; try reflexivity.
      change (p_fun (nprod 26)) with f_strvar_instring.
      cbn [part_tok fst snd rev map app]. unfold semact.
      cbn [arg nth_error bind is_node Nat.sub]. cbv beta. rewrite inner_brackets. reflexivity.
    - destruct p as [s|s|v]; exact (g_ok _ _ C). }
  apply (string_more ps (top_state stk) _ stk [part_node p]); try assumption; reflexivity.
Qed.

(** ** First and last tokens *)

Lemma la_app : forall l ts, l <> [] -> la (l ++ ts) = first l.
Proof. intros [|[t v] l] ts H; [contradiction|reflexivity]. Qed.

Lemma final_app : forall l m, m <> [] -> final (l ++ m) = final m.
Proof.
  intros l m H. unfold final. rewrite rev_app_distr.
  destruct (rev m) as [|[t v] r] eqn:E; [|reflexivity].
  exfalso. apply H. rewrite <- (rev_involutive m), E. reflexivity.
Qed.
Lemma final_cons : forall k m, m <> [] -> final (k :: m) = final m.
Proof. intros k m H. exact (final_app [k] m H). Qed.
Lemma final_one : forall l k, final (l ++ [k]) = fst k.
Proof. intros l [t v]. rewrite final_app by discriminate. reflexivity. Qed.

Lemma toks_ne : (forall e, toks_e e <> []) /\ (forall t, toks_t t <> []) /\
  (forall x, toks_l x <> []) /\ (forall c, toks_c c <> []).
Proof.
  apply syn_ind; intros; cbn [toks_e toks_t toks_l toks_c map]; try discriminate; try assumption.
  - destruct (toks_e l); [contradiction|discriminate].
  - destruct (toks_t n); [contradiction|discriminate].
  - destruct (toks_e a); [contradiction|discriminate].
Qed.
Lemma toks_e_ne : forall e, toks_e e <> []. Proof. apply toks_ne. Qed.
Lemma toks_t_ne : forall t, toks_t t <> []. Proof. apply toks_ne. Qed.
Lemma toks_l_ne : forall x, toks_l x <> []. Proof. apply toks_ne. Qed.

(** Tokens an expression can start with. *)
Definition starts (t : tt) : bool :=
  match t with
  | tPLUS | tMINUS | tHASH | tEXCLAMATION | tLPAREN | tLBRACE | tLBRACKET | tUPPERNAME | tNUMBER
  | tD_OP | tINSTRING_ANY | tINSTRING_VAR | tINSTRING_NONVAR => true
  | _ => false
  end.

Lemma first_app : forall l m, l <> [] -> first (l ++ m) = first l.
Proof. intros [|[t v] l] m H; [contradiction|reflexivity]. Qed.

Lemma starts_ok : (forall e, starts (first (toks_e e)) = true) /\
  (forall t, starts (first (toks_t t)) = true /\ first (toks_t t) <> tD_OP) /\
  (forall x : element, True) /\ (forall c : citem, True).
Proof.
  apply syn_ind; intros; cbn [toks_e toks_t]; try exact I;
    try (split; [reflexivity|discriminate]); try reflexivity.
  - rewrite first_app by apply toks_e_ne. assumption.
  - rewrite first_app by apply toks_t_ne. apply H.
  - apply H.
  - destruct p; (split; [reflexivity|discriminate]).
  - destruct u; (split; [reflexivity|discriminate]).
Qed.

(** ** Terms and expressions *)

Definition tok_level (t : tt) : nat :=
  match t with
  | tOR => 1 | tAND => 2
  | tLESS | tGREATER | tEQUALS | tNOTEQUALS => 3
  | tPLUS | tMINUS => 4
  | tTIMES | tDIVIDE => 5
  | tPOWER => 6
  | tAT => 7
  | _ => 0
  end.

Definition is_d (t : tt) : bool := match t with tD_OP => true | _ => false end.

Definition ctx_level (q : nat) : nat := match acc q with T t => tok_level t | N _ => 0 end.

Definition is_str (t : term) : bool := match t with TStr _ _ => true | _ => false end.
Definition plain_str (e : expr) : bool := match e with ETerm t => is_str t | _ => false end.

Definition TP (t : term) : Prop := wf_t t = true -> forall stk ts,
  is_ctx nTerm (top_state stk) = true -> after_term (la ts) = true ->
  in_string (final (toks_t t)) && in_string (la ts) = false ->
  (top_state stk = qSETTO -> is_str t = true -> Nat.ltb 0 (tok_level (la ts)) || is_d (la ts) = true) ->
  run stk (toks_t t ++ ts) ((g nTerm (top_state stk), VNode (node_t t)) :: stk) ts.

Definition EP (e : expr) : Prop := wf_e e = true -> forall stk ts,
  is_ctx nExpr (top_state stk) = true -> ctx_level (top_state stk) < level e ->
  after_term (la ts) = true -> tok_level (la ts) <= level e ->
  ends_plain e && is_d (la ts) = false ->
  in_string (final (toks_e e)) && in_string (la ts) = false ->
  (top_state stk = qSETTO -> plain_str e = true -> 0 < tok_level (la ts)) ->
  run stk (toks_e e ++ ts) ((g nExpr (top_state stk), VNode (node_e e)) :: stk) ts.

Definition qCOMMA := Eval vm_compute in sh (g nElements qBRACE) tCOMMA.
Definition qRANGE := Eval vm_compute in sh (g nExpr qBRACE) tDOUBLE_DOT.

Definition LP (x : element) : Prop := wf_l x = true -> forall stk ts,
  top_state stk = qBRACE \/ top_state stk = qCOMMA ->
  la ts = tCOMMA \/ la ts = tRBRACE ->
  run stk (toks_l x ++ ts) ((g nElement (top_state stk), VNode (node_l x)) :: stk) ts.

Definition CP (c : citem) : Prop := match c with CWord _ => True | CArg e => EP e end.

(** Shifts of the first token of a term. *)
Definition term_starts (q : nat) : bool :=
  shifts q tNUMBER qNUM && shifts q tUPPERNAME qUP && shifts q tLBRACE qBRACE &&
  shifts q tLPAREN qPAREN && shifts q tLBRACKET qBRACK &&
  forallb (fun t => shifts q t (sh qOUT t)) [tPLUS; tMINUS; tEXCLAMATION; tHASH] &&
  Nat.eqb (g nVar q) qVAR && is_ctx nVar q && is_ctx nString q &&
  (Nat.eqb (g nString q) qSTR || Nat.eqb q qSETTO).

Lemma term_starts_ok : forall q, is_ctx nTerm q = true -> term_starts q = true.
Proof. apply ctx_check. vm_compute. reflexivity. Qed.

Ltac splitb :=
  repeat match goal with
  | H : _ && _ = true |- _ => apply andb_prop in H; destruct H
  end.

Lemma ts_facts : forall q, is_ctx nTerm q = true ->
  action_at q tNUMBER = Some (Shift qNUM) /\ action_at q tUPPERNAME = Some (Shift qUP) /\
  action_at q tLBRACE = Some (Shift qBRACE) /\ action_at q tLPAREN = Some (Shift qPAREN) /\
  action_at q tLBRACKET = Some (Shift qBRACK) /\
  (forall t, In t [tPLUS; tMINUS; tEXCLAMATION; tHASH] -> action_at q t = Some (Shift (sh qOUT t))) /\
  assoc_nt nVar (goto_row q) = Some qVAR /\ is_ctx nString q = true /\
  (g nString q = qSTR \/ q = qSETTO).
Proof.
  intros q C. pose proof (term_starts_ok q C) as H. unfold term_starts in H. splitb.
  repeat match goal with
  | H : shifts _ _ _ = true |- _ => apply shifts_ok in H
  end.
  repeat (split; [try assumption|]); try assumption.
  - intros t I. match goal with H : forallb _ _ = true |- _ => rewrite forallb_forall in H; specialize (H t I); now apply shifts_ok in H end.
  - rewrite (g_ok nVar q) by assumption. f_equal. now apply Nat.eqb_eq.
  - match goal with H : _ || _ = true |- _ => apply orb_prop in H; destruct H as [H|H]; apply Nat.eqb_eq in H; [now left|now right] end.
Qed.

(** A reduction in a known state by a known rule. *)
Ltac by_tok a := destruct a; intros; try discriminate; vm_compute; reflexivity.

Lemma red_num : forall a, after_term a = true -> action_at qNUM a = Some (Reduce 81).
Proof. intros a; by_tok a. Qed.
Definition qDOT := Eval vm_compute in sh qNUM tDOT.
Definition qDEC := Eval vm_compute in sh qDOT tNUMBER.
Lemma red_dec : forall a, after_term a = true -> action_at qDEC a = Some (Reduce 82).
Proof. intros a; by_tok a. Qed.
Lemma red_up : forall a, after_term a = true -> action_at qUP a = Some (Reduce 21).
Proof. intros a; by_tok a. Qed.
Lemma red_var : forall a, after_term a = true -> action_at qVAR a = Some (Reduce 83).
Proof. intros a; by_tok a. Qed.
Lemma red_str : forall a, after_term a = true -> in_string a = false -> action_at qSTR a = Some (Reduce 91).
Proof. intros a; by_tok a. Qed.
Lemma red_set_str : forall a, Nat.ltb 0 (tok_level a) || is_d a = true ->
  action_at (g nString qSETTO) a = Some (Reduce 91).
Proof. intros a; by_tok a. Qed.
Definition qSEQ0 := Eval vm_compute in sh qBRACE tRBRACE.
Definition qELS := Eval vm_compute in g nElements qBRACE.
Definition qSEQ := Eval vm_compute in sh qELS tRBRACE.
Lemma red_seq0 : forall a, after_term a = true -> action_at qSEQ0 a = Some (Reduce 84).
Proof. intros a; by_tok a. Qed.
Lemma red_seq : forall a, after_term a = true -> action_at qSEQ a = Some (Reduce 85).
Proof. intros a; by_tok a. Qed.
Definition qGROUP := Eval vm_compute in sh (g nExpr qPAREN) tRPAREN.
Lemma red_group : forall a, after_term a = true -> action_at qGROUP a = Some (Reduce 80).
Proof. intros a; by_tok a. Qed.
Definition qCALL := Eval vm_compute in g nCall qBRACK.
Definition qCALLED := Eval vm_compute in sh qCALL tRBRACKET.
Lemma red_call : forall a, after_term a = true -> action_at qCALLED a = Some (Reduce 92).
Proof. intros a; by_tok a. Qed.
Definition un_rule (t : tt) : nat := match t with tPLUS => 76 | tMINUS => 77 | tEXCLAMATION => 78 | _ => 79 end.
Lemma red_un : forall t a, In t [tPLUS; tMINUS; tEXCLAMATION; tHASH] -> after_term a = true ->
  action_at (g nTerm (sh qOUT t)) a = Some (Reduce (un_rule t)).
Proof.
  intros t a I. cbn [In] in I.
  destruct I as [<-|[<-|[<-|[<-|[]]]]]; by_tok a.
Qed.
Lemma ctx_un : forall t, In t [tPLUS; tMINUS; tEXCLAMATION; tHASH] ->
  is_ctx nTerm (sh qOUT t) = true /\ sh qOUT t <> qSETTO.
Proof.
  intros t I. cbn [In] in I.
  destruct I as [<-|[<-|[<-|[<-|[]]]]]; (split; [vm_compute; reflexivity|vm_compute; discriminate]).
Qed.
Lemma red_term : forall a, after_term a = true -> is_d a = false -> action_at qTERM a = Some (Reduce 75).
Proof. intros a; by_tok a. Qed.
Lemma red_dice : forall a, after_term a = true -> action_at (g nTerm qDICE) a = Some (Reduce 67).
Proof. intros a; by_tok a. Qed.
Lemma red_die : forall a, after_term a = true -> action_at (g nTerm qDIE) a = Some (Reduce 68).
Proof. intros a; by_tok a. Qed.

Definition expr_ctx (q : nat) : bool :=
  is_ctx nTerm q && Nat.eqb (g nTerm q) qTERM && shifts q tD_OP qDIE.
Lemma expr_ctx_ok : forall q, is_ctx nExpr q = true ->
  is_ctx nTerm q = true /\ g nTerm q = qTERM /\ action_at q tD_OP = Some (Shift qDIE).
Proof.
  intros q C.
  assert (expr_ctx q = true) as H.
  { revert q C. apply ctx_check. vm_compute. reflexivity. }
  unfold expr_ctx in H. splitb. split; [assumption|]. split; [now apply Nat.eqb_eq|].
  now apply shifts_ok.
Qed.

(** Operators: the state after one, and the rule that completes it. *)
Definition qOP (t : tt) : nat := sh (g nExpr qOUT) t.

Lemma op_shift : forall q, is_ctx nExpr q = true -> forall t, ctx_level q < tok_level t ->
  action_at (g nExpr q) t = Some (Shift (qOP t)).
Proof.
  intros q C t L.
  assert (forallb (fun t => implb (Nat.ltb (ctx_level q) (tok_level t))
                              (shifts (g nExpr q) t (qOP t))) all_tt = true) as H.
  { revert q C L. intros q C _. revert q C. apply ctx_check. vm_compute. reflexivity. }
  pose proof (tok_check _ H t) as F. cbv beta in F.
  apply Nat.ltb_lt in L. rewrite L in F. now apply shifts_ok.
Qed.

Definition op_rule (o : binop) : nat :=
  match o with
  | OAdd => 59 | OSub => 60 | OMul => 61 | ODiv => 62 | OPow => 63 | OAt => 64
  | OAnd => 65 | OOr => 66 | OLt => 69 | OGt => 70 | OEq => 71 | ONe => 72 | OLe => 73 | OGe => 74
  end.
Definition op_first (o : binop) : tt := first (op_toks o).

(** The state in which the right operand of an operator starts. *)
Definition qRIGHT (o : binop) : nat :=
  match o with
  | OLe | OGe => sh (qOP (op_first o)) tEQUALS
  | _ => qOP (op_first o)
  end.

Lemma op_facts : forall o, is_ctx nExpr (qRIGHT o) = true /\ ctx_level (qRIGHT o) = op_level o /\
  qRIGHT o <> qSETTO /\ tok_level (op_first o) = op_level o.
Proof.
  intros o. destruct o; (split; [vm_compute; reflexivity|]); (split; [vm_compute; reflexivity|]);
    (split; [vm_compute; discriminate|vm_compute; reflexivity]).
Qed.
Lemma op_reduce : forall o a, after_term a = true -> tok_level a <= op_level o ->
  action_at (g nExpr (qRIGHT o)) a = Some (Reduce (op_rule o)).
Proof.
  intros o a A L. apply Nat.leb_le in L. revert A L.
  destruct o, a; intros A L; try discriminate A; try discriminate L; vm_compute; reflexivity.
Qed.

(** The stack after the tokens of an operator. *)
Lemma op_run : forall o stk ts, action_at (top_state stk) (op_first o) = Some (Shift (qOP (op_first o))) ->
  run stk (op_toks o ++ ts) (match o with
     | OLe => [(qRIGHT o, VStr "="); (qOP tLESS, VStr "<")]
     | OGe => [(qRIGHT o, VStr "="); (qOP tGREATER, VStr ">")]
     | _ => [(qRIGHT o, VStr (op_text o))]
     end ++ stk) ts.
Proof.
  intros o stk ts A.
  destruct o; cbn [op_toks app]; try (apply (go_shift stk); exact A).
  - eapply run_trans; [apply go_shift; exact A|]. apply go_shift. vm_compute. reflexivity.
  - eapply run_trans; [apply go_shift; exact A|]. apply go_shift. vm_compute. reflexivity.
Qed.

Definition words (t : tt) : bool :=
  match t with
  | tLOWERNAME | tOUTPUT | tFUNCTION | tLOOP | tOVER | tNAMED | tSET | tTO | tIF | tELSE | tRESULT => true
  | _ => false
  end.
(** Tokens that can follow an item of a call. *)
Definition call_next (t : tt) : bool :=
  words t || match t with
  | tHASH | tEXCLAMATION | tLPAREN | tLBRACE | tLBRACKET | tRBRACKET | tUPPERNAME | tNUMBER
  | tD_OP | tINSTRING_ANY | tINSTRING_VAR | tINSTRING_NONVAR => true
  | _ => false
  end.

(** Tokens that can follow a word of a call. *)
Definition word_next (t : tt) : bool := call_next t || starts t.

Lemma word_words : forall w, words (fst (word_tok w)) = true.
Proof. intros [s|k]; [reflexivity|destruct k; reflexivity]. Qed.

Definition word_rule (t : tt) : nat :=
  match t with
  | tLOWERNAME => 93 | tOUTPUT => 94 | tFUNCTION => 95 | tLOOP => 96 | tOVER => 97 | tNAMED => 98
  | tSET => 99 | tTO => 100 | tIF => 101 | tELSE => 102 | _ => 103
  end.

Lemma first_word : forall w stk ts, top_state stk = qBRACK -> word_next (la ts) = true ->
  run stk (word_tok w :: ts) ((qCALL, VNode (Node CALL [inl (snd (word_tok w))])) :: stk) ts.
Proof.
  intros w stk ts T C.
  eapply run_trans.
  { apply (go_tok _ _ _ (sh qBRACK (fst (word_tok w)))). rewrite T.
    destruct w as [s|k]; [vm_compute; reflexivity|destruct k; vm_compute; reflexivity]. }
  match goal with |- run (?e1 :: stk) _ _ _ => change (e1 :: stk) with ([e1] ++ stk) end.
  apply (go_reduce (word_rule (fst (word_tok w)))).
  - cbn [app top_state]. revert C. generalize (la ts). intros a.
    destruct w as [s|k]; [|destruct k]; cbn [word_tok kw_tok fst]; by_tok a.
  - destruct w as [s|k]; [|destruct k]; reflexivity.
  - destruct w as [s|k]; [|destruct k]; reflexivity.
  - rewrite T. destruct w as [s|k]; [|destruct k]; vm_compute; reflexivity.
Qed.

Lemma next_word : forall w vs stk ts, top_state stk = qBRACK -> word_next (la ts) = true ->
  run ((qCALL, VNode (Node CALL vs)) :: stk) (word_tok w :: ts)
      ((qCALL, VNode (Node CALL (vs ++ [inl (snd (word_tok w))]))) :: stk) ts.
Proof.
  intros w vs stk ts T C.
  eapply run_trans.
  { apply (go_tok _ _ _ (sh qCALL (fst (word_tok w)))). cbn [top_state].
    destruct w as [s|k]; [vm_compute; reflexivity|destruct k; vm_compute; reflexivity]. }
  match goal with |- run (?e1 :: ?e2 :: stk) _ _ _ => change (e1 :: e2 :: stk) with ([e1; e2] ++ stk) end.
  apply (go_reduce (11 + word_rule (fst (word_tok w)))).
  - cbn [app top_state]. revert C. generalize (la ts). intros a.
    destruct w as [s|k]; [|destruct k]; cbn [word_tok kw_tok fst]; by_tok a.
  - destruct w as [s|k]; [|destruct k]; reflexivity.
  - destruct w as [s|k]; [|destruct k]; reflexivity.
  - rewrite T. destruct w as [s|k]; [|destruct k]; vm_compute; reflexivity.
Qed.
