(** What the parser accepts is a well-formed program of SynSpec.v. *)
From Coq Require Import String Bool List Arith Lia.
From Verif Require Import PyBase LexModel LexSpec LexFacts GramModel ParseModel LrFacts SynSpec SynInd ExprParse ExprParse2 StmtParse SynNorm.
Import ListNotations.
Open Scope list_scope.

Definition good (k : tok) : Prop := token_text (fst k) (snd k).

Definition comma : tok := (tCOMMA, ","%string).

(** What a symbol of the grammar stands for. *)
Definition D (x : sym) (w : list tok) (v : sval) : Prop :=
  match x with
  | T t => exists s, w = [(t, s)] /\ v = VStr s
  | N nStart => True
  | N nMulti => exists p, rw p = true /\ w = toks p /\ v = VNode (tree p)
  | N nEmpty => w = [] /\ v = VNone
  | N nSingle => exists s, rw_s s = true /\ w = toks_s s /\ v = VNode (node_s s)
  | N nIf => exists b, rw_b b = true /\ w = kwt kIf :: toks_b b /\ v = VList [node_b IF b]
  | N nElse => exists body, forallb rw_s body = true /\
      w = kwt kElse :: braces (flat_map toks_s body) /\ v = VList [Node ELSE [inr (body_node body)]]
  | N nElif => exists bs, forallb rw_b bs = true /\
      w = flat_map (fun b => kwt kElse :: kwt kIf :: toks_b b) bs /\ v = VList (map (node_b ELSEIF) bs)
  | N nVar => exists x, w = [(tUPPERNAME, x)] /\ v = VStr x
  | N nString => exists p ps, w = map part_tok (p :: ps) /\ v = VNode (string_node (p :: ps))
  | N nFuncname => exists h hs, w = flat_map toks_h (h :: hs) /\
      v = VNode (Node FUNCNAME_DEF (map node_h (h :: hs)))
  | N nExpr => exists e, rw_e e = true /\ w = toks_e e /\ v = VNode (node_e e)
  | N nTerm => exists t, rw_t t = true /\ w = toks_t t /\ v = VNode (node_t t)
  | N nElements => exists x xs, forallb rw_l (x :: xs) = true /\
      w = sepby comma (map toks_l (x :: xs)) /\
      v = VNode (Node SEQ (map (fun x => inr (node_l x)) (x :: xs)))
  | N nElement => exists x, rw_l x = true /\ w = toks_l x /\ v = VNode (node_l x)
  | N nRange => exists a b, rw_e a = true /\ rw_e b = true /\ w = toks_l (LRange a b) /\
      v = VNode (node_l (LRange a b))
  | N nCall => exists cs, call_start cs = true /\ forallb rw_c cs = true /\
      w = flat_map toks_c cs /\ v = VNode (Node CALL (map node_c cs))
  end.

Definition I (x : sym) (w : list tok) (v : sval) : Prop := Forall good w -> D x w v.

Lemma I_token : forall t v, I (T t) [(t, v)] (VStr v).
Proof. intros t v _. exists v. now split. Qed.

(** ** The texts of tokens *)

Definition fixed_text (t : tt) : option string :=
  match t with
  | tPLUS => Some "+" | tMINUS => Some "-" | tTIMES => Some "*" | tDIVIDE => Some "/"
  | tPOWER => Some "^" | tCOLON => Some ":" | tLESS => Some "<" | tGREATER => Some ">"
  | tEQUALS => Some "=" | tNOTEQUALS => Some "!=" | tAT => Some "@" | tHASH => Some "#"
  | tOR => Some "|" | tAND => Some "&" | tEXCLAMATION => Some "!" | tDOT => Some "."
  | tDOUBLE_DOT => Some ".." | tCOMMA => Some "," | tLPAREN => Some "(" | tRPAREN => Some ")"
  | tLBRACE => Some "{" | tRBRACE => Some "}" | tLBRACKET => Some "[" | tRBRACKET => Some "]"
  | tD_OP => Some "d" | tOUTPUT => Some "output" | tFUNCTION => Some "function"
  | tLOOP => Some "loop" | tOVER => Some "over" | tNAMED => Some "named" | tSET => Some "set"
  | tTO => Some "to" | tIF => Some "if" | tELSE => Some "else" | tRESULT => Some "result"
  | _ => None
  end%string.

Lemma good_fixed : forall t s, good (t, s) -> match fixed_text t with Some x => s = x | None => True end.
Proof.
  intros t s G. unfold good in G. cbn [fst snd] in G.
  destruct G as [| | | | | | | | | | | | | | | | | | | | | | | |s H|s H| |s t K|s H|s H|v H|s H];
    try reflexivity; try exact Logic.I.
  destruct K; reflexivity.
Qed.

Lemma good_word : forall t s, good (t, s) -> words t = true -> exists w, word_tok w = (t, s).
Proof.
  intros t s G W. pose proof (good_fixed t s G) as F.
  destruct t; try discriminate W; cbn [fixed_text] in F; subst.
  all: first [ now exists (WName s) | now exists (WKey kOutput) | now exists (WKey kFunction)
             | now exists (WKey kLoop) | now exists (WKey kOver) | now exists (WKey kNamed)
             | now exists (WKey kSet) | now exists (WKey kTo) | now exists (WKey kIf)
             | now exists (WKey kElse) | now exists (WKey kResult) ].
Qed.

Lemma good_var : forall s, good (tINSTRING_VAR, s) -> exists v, s = ("[" ++ v ++ "]")%string.
Proof.
  intros s G. unfold good in G. cbn [fst snd] in G.
  inversion G as [| | | | | | | | | | | | | | | | | | | | | | | | | | |s' t' K| | | |]; subst.
  - inversion K.
  - eauto.
Qed.

(** ** Productions *)

Lemma args_cons : forall x xs tss vs,
  Forall2 (fun x tv => I x (fst tv) (snd tv)) (x :: xs) (combine tss vs) -> length tss = length vs ->
  Forall good (concat tss) ->
  exists w tss' v vs', tss = w :: tss' /\ vs = v :: vs' /\ D x w v /\ Forall good w /\
    Forall2 (fun x tv => I x (fst tv) (snd tv)) xs (combine tss' vs') /\ length tss' = length vs' /\
    Forall good (concat tss').
Proof.
  intros x xs [|w tss] [|v vs] F L G; cbn [combine] in F; try (inversion F; fail); try discriminate L.
  inversion F as [|a b c d F1 F2]; subst. cbn [concat] in G. apply Forall_app in G. destruct G as [G1 G2].
  exists w, tss, v, vs. cbn [fst snd] in F1. cbn [length] in L.
  repeat (split; [first [reflexivity|exact (F1 G1)|exact G1|exact F2|lia]|]). exact G2.
Qed.

Lemma args_nil : forall tss vs,
  Forall2 (fun x tv => I x (fst tv) (snd tv)) [] (combine tss vs) -> length tss = length vs ->
  tss = [] /\ vs = [].
Proof. intros [|w tss] [|v vs] F L; try discriminate L; [now split|]. inversion F. Qed.

Ltac args F L G :=
  match type of F with
  | Forall2 _ (?x :: _) _ =>
      let w := fresh "w" in let tss' := fresh "tss" in let v := fresh "v" in let vs' := fresh "vs" in
      let E1 := fresh "E" in let E2 := fresh "E" in let Dx := fresh "Dx" in let Gx := fresh "Gx" in
      destruct (args_cons _ _ _ _ F L G) as (w & tss' & v & vs' & E1 & E2 & Dx & Gx & F' & L' & G');
      subst; clear F L G; rename F' into F, L' into L, G' into G; args F L G
  | Forall2 _ [] _ => destruct (args_nil _ _ F L) as [-> ->]; clear F L G
  end.

Lemma sepby_snoc : forall s x xs y, sepby s ((x :: xs) ++ [y]) = sepby s (x :: xs) ++ s :: y.
Proof.
  intros s x xs y; revert x; induction xs as [|z xs IH]; intros x; [reflexivity|].
  change ((x :: z :: xs) ++ [y]) with (x :: ((z :: xs) ++ [y])).
  change (sepby s (x :: z :: xs)) with (x ++ s :: sepby s (z :: xs)).
  change (sepby s (x :: ((z :: xs) ++ [y]))) with (x ++ s :: sepby s ((z :: xs) ++ [y])).
  rewrite IH. now rewrite <- app_assoc.
Qed.

Lemma inner_var : forall v, inner ("[" ++ v ++ "]") = v.
Proof. exact inner_brackets. Qed.

Lemma forallb_snoc : forall A (f : A -> bool) l x, forallb f l = true -> f x = true -> forallb f (l ++ [x]) = true.
Proof. intros A f l x H1 H2. rewrite forallb_app, H1. cbn. now rewrite H2. Qed.

Lemma call_start_snoc : forall cs c, call_start cs = true -> call_start (cs ++ [c]) = true.
Proof.
  intros cs c H; destruct cs as [|[w|e] cs]; [discriminate H|reflexivity|].
  destruct e as [| | |t]; try reflexivity. destruct t; try reflexivity. discriminate H.
Qed.

(** The tokens of a terminal, with its text. *)
Ltac token H :=
  match type of H with
  | D (T ?t) ?w ?v =>
      let s := fresh "s" in
      destruct H as (s & -> & ->);
      match goal with G : Forall good [(t, s)] |- _ =>
        let K := fresh "K" in
        pose proof (Forall_inv G) as K; clear G;
        let E := fresh "E" in
        pose proof (good_fixed t s K) as E; cbn [fixed_text] in E;
        first [subst s; clear K | clear E]
      end
  end.

(** What a failing production means: a function without a name, or a call that
    begins with a call. *)
Definition bad_start (p : nat) (w : list tok) : Prop :=
  p = 50 \/ (p = 115 /\ exists cs, rw_t (TCall cs) = true /\ w = toks_t (TCall cs)).

Definition sound (p : nat) : Prop := forall tss vs,
  Forall2 (fun x tv => I x (fst tv) (snd tv)) (p_rhs (nprod p)) (combine tss vs) ->
  length tss = length vs -> Forall good (concat tss) ->
  match semact (p_fun (nprod p)) vs with
  | Ok v => D (N (p_lhs (nprod p))) (concat tss) v
  | Err e => e = IndexErr /\ bad_start p (concat tss)
  end.

Ltac start p :=
  intros tss vs F L G;
  let r := eval vm_compute in (p_rhs (nprod p)) in change (p_rhs (nprod p)) with r in F;
  let f := eval vm_compute in (p_fun (nprod p)) in change (p_fun (nprod p)) with f;
  let l := eval vm_compute in (p_lhs (nprod p)) in change (p_lhs (nprod p)) with l;
  args F L G;
  repeat match goal with H : D (T _) _ _ |- _ => token H end;
  repeat match goal with H : D (N _) _ _ |- _ => cbn [D] in H end.

Lemma sound_multi : sound 1 /\ sound 2 /\ sound 3 /\ sound 4.
Proof.
  split; [|split; [|split]].
  - start 1. destruct Dx as (s & R & -> & ->).
    unfold semact. cbn [arg nth_error Nat.sub bind type_of]. rewrite single_not_multi.
    exists [s]. cbn [rw forallb]. unfold rw. cbn [forallb]. rewrite R. repeat split.
  - start 2. destruct Dx as (p & R & -> & ->). destruct Dx0 as (s & R0 & -> & ->).
    exists (p ++ [s]). unfold rw. split; [apply forallb_snoc; assumption|].
    unfold toks, tree. rewrite flat_map_app, map_app. split; [reflexivity|reflexivity].
  - start 3. destruct Dx as [-> ->]. exists []. repeat split.
  - start 4. repeat split.
Qed.

Lemma sound_single : sound 5 /\ sound 6 /\ sound 7 /\ sound 8 /\ sound 9 /\ sound 10 /\ sound 11 /\ sound 20.
Proof.
  repeat match goal with |- _ /\ _ => split end.
  - start 5. destruct Dx0 as (e & R & -> & ->). exists (SOutput e). split; [exact R|].
    cbn [concat]. rewrite app_nil_r. repeat split.
  - start 6. destruct Dx0 as (e & R & -> & ->). destruct Dx2 as (p & ps & -> & ->).
    exists (SNamed e p ps). split; [exact R|]. cbn [concat]. rewrite app_nil_r. repeat split.
  - start 7. destruct Dx1 as (h & hs & -> & ->). destruct Dx3 as (p & R & -> & ->).
    exists (SFunction h hs p). split; [exact R|]. cbn [concat]. repeat split.
  - start 8. destruct Dx0 as (x & -> & ->). destruct Dx2 as (e & R & -> & ->). destruct Dx4 as (p & R1 & -> & ->).
    exists (SLoop x e p). split; [cbn [rw_s]; unfold rw in R1; now rewrite R, R1|]. cbn [concat]. repeat split.
  - start 9. destruct Dx1 as (e & R & -> & ->). exists (SResult e). split; [exact R|].
    cbn [concat]. rewrite app_nil_r. repeat split.
  - start 10. destruct Dx0 as (p & ps & -> & ->). destruct Dx2 as (q & qs & -> & ->).
    exists (SSet p ps (ETerm (TStr q qs))). split; [reflexivity|]. cbn [concat]. rewrite app_nil_r. repeat split.
  - start 11. destruct Dx0 as (p & ps & -> & ->). destruct Dx2 as (e & R & -> & ->).
    exists (SSet p ps e). split; [exact R|]. cbn [concat]. rewrite app_nil_r. repeat split.
  - start 20. destruct Dx as (x & -> & ->). destruct Dx1 as (e & R & -> & ->).
    exists (SAssign x e). split; [exact R|]. cbn [concat]. rewrite app_nil_r. repeat split.
Qed.

Lemma sound_if : sound 12 /\ sound 13 /\ sound 14 /\ sound 15 /\ sound 16 /\ sound 17 /\ sound 18 /\ sound 19.
Proof.
  repeat match goal with |- _ /\ _ => split end.
  - start 12. destruct Dx as (b & R & -> & ->). exists (SIf b [] None).
    split; [cbn [rw_s forallb]; now rewrite R|]. cbn [concat toks_s flat_map]. rewrite !app_nil_r. repeat split.
  - start 13. destruct Dx as (b & R & -> & ->). destruct Dx0 as (body & R1 & -> & ->).
    exists (SIf b [] (Some body)). split; [cbn [rw_s forallb]; now rewrite R, R1|].
    cbn [concat toks_s flat_map]. rewrite !app_nil_r. repeat split.
  - start 14. destruct Dx as (b & R & -> & ->). destruct Dx0 as (bs & R1 & -> & ->).
    exists (SIf b bs None). split; [cbn [rw_s forallb]; now rewrite R, R1|].
    cbn [concat toks_s]. rewrite !app_nil_r. split; [reflexivity|].
    cbn [node_s app map]. rewrite app_nil_r, map_map. reflexivity.
  - start 15. destruct Dx as (b & R & -> & ->). destruct Dx0 as (bs & R1 & -> & ->).
    destruct Dx1 as (body & R2 & -> & ->).
    exists (SIf b bs (Some body)). split; [cbn [rw_s forallb]; now rewrite R, R1, R2|].
    cbn [concat toks_s]. rewrite !app_nil_r. split; [reflexivity|].
    cbn [node_s app map]. rewrite map_app, map_map. reflexivity.
  - start 16. destruct Dx0 as (c & R & -> & ->). destruct Dx2 as (p & R1 & -> & ->).
    exists (Branch c p). split; [cbn [rw_b]; unfold rw in R1; now rewrite R, R1|]. repeat split.
  - start 17. destruct Dx1 as (p & R & -> & ->). exists p. split; [exact R|]. repeat split.
  - start 18. destruct Dx1 as (c & R & -> & ->). destruct Dx3 as (p & R1 & -> & ->).
    exists [Branch c p]. split; [cbn [rw_b forallb]; unfold rw in R1; now rewrite R, R1|].
    split; [|reflexivity]. cbn [concat flat_map toks_b]. rewrite !app_nil_r. reflexivity.
  - start 19. destruct Dx as (bs & R0 & -> & ->). destruct Dx2 as (c & R & -> & ->). destruct Dx4 as (p & R1 & -> & ->).
    exists (bs ++ [Branch c p]).
    split; [apply forallb_snoc; [exact R0|]; cbn [rw_b forallb]; unfold rw in R1; now rewrite R, R1|].
    rewrite flat_map_app, map_app. split; [|reflexivity].
    cbn [concat flat_map toks_b]. unfold braces. rewrite !app_nil_r. reflexivity.
Qed.

Lemma sound_var : sound 21.
Proof. start 21. exists s. now split. Qed.

Lemma sound_string : sound 22 /\ sound 23 /\ sound 24 /\ sound 25 /\ sound 26 /\ sound 27.
Proof.
  repeat match goal with |- _ /\ _ => split end.
  - start 22. exists (PAny s), []. now split.
  - start 23. exists (PNonvar s), []. now split.
  - start 24. destruct Dx as (p & ps & -> & ->). exists p, (ps ++ [PAny s]).
    rewrite app_comm_cons, map_app. unfold string_node. rewrite map_app. repeat split.
  - start 25. destruct Dx as (p & ps & -> & ->). exists p, (ps ++ [PNonvar s]).
    rewrite app_comm_cons, map_app. unfold string_node. rewrite map_app. repeat split.
  - start 26. destruct (good_var _ K) as [v ->]. exists (PVar v), [].
    unfold semact. cbn [arg nth_error Nat.sub bind is_node]. rewrite inner_var. now split.
  - start 27. destruct Dx as (p & ps & -> & ->). destruct (good_var _ K) as [v ->].
    exists p, (ps ++ [PVar v]).
    unfold semact. cbn [arg nth_error Nat.sub bind is_node]. rewrite inner_var.
    rewrite app_comm_cons, map_app. unfold string_node. rewrite map_app. repeat split.
Qed.

(** Words of headers and calls. *)
Ltac a_word :=
  match goal with
  | Dw : D (T ?t) ?w ?v, G : Forall good ?w |- _ =>
      let s := fresh "s" in let k := fresh "k" in let E := fresh "E" in
      destruct Dw as (s & -> & ->);
      destruct (good_word t s (Forall_inv G) eq_refl) as [k E]
  end.

Ltac start_words p :=
  intros tss vs F L G;
  let r := eval vm_compute in (p_rhs (nprod p)) in change (p_rhs (nprod p)) with r in F;
  let f := eval vm_compute in (p_fun (nprod p)) in change (p_fun (nprod p)) with f;
  let l := eval vm_compute in (p_lhs (nprod p)) in change (p_lhs (nprod p)) with l;
  args F L G; a_word.

Ltac head_word1 p :=
  start_words p;
  match goal with E : word_tok ?k = (?t, ?s) |- _ =>
    exists (HWord k), []; cbn [flat_map toks_h map node_h app concat]; rewrite E; now split
  end.

Ltac head_word2 p :=
  start_words p;
  match goal with H : D (N nFuncname) _ _, E : word_tok ?k = (?t, ?s) |- _ =>
    destruct H as (h & hs & -> & ->); exists h, (hs ++ [HWord k]);
    rewrite app_comm_cons, flat_map_app, map_app; cbn [flat_map toks_h map node_h app concat];
    rewrite E; repeat split
  end.

Lemma sound_head_words : forall p, 28 <= p <= 49 -> sound p.
Proof.
  intros p [A B].
  do 28 (destruct p as [|p]; [exfalso; lia|]).
  destruct p as [|p]; [head_word1 28|]. destruct p as [|p]; [head_word1 29|].
  destruct p as [|p]; [head_word1 30|]. destruct p as [|p]; [head_word1 31|].
  destruct p as [|p]; [head_word1 32|]. destruct p as [|p]; [head_word1 33|].
  destruct p as [|p]; [head_word1 34|]. destruct p as [|p]; [head_word1 35|].
  destruct p as [|p]; [head_word1 36|]. destruct p as [|p]; [head_word1 37|].
  destruct p as [|p]; [head_word1 38|].
  destruct p as [|p]; [head_word2 39|]. destruct p as [|p]; [head_word2 40|].
  destruct p as [|p]; [head_word2 41|]. destruct p as [|p]; [head_word2 42|].
  destruct p as [|p]; [head_word2 43|]. destruct p as [|p]; [head_word2 44|].
  destruct p as [|p]; [head_word2 45|]. destruct p as [|p]; [head_word2 46|].
  destruct p as [|p]; [head_word2 47|]. destruct p as [|p]; [head_word2 48|].
  destruct p as [|p]; [head_word2 49|].
  exfalso; lia.
Qed.

Lemma sound_head : sound 50 /\ sound 51 /\ sound 52 /\ sound 53 /\ sound 54 /\ sound 55 /\ sound 56 /\ sound 57 /\ sound 58.
Proof.
  repeat match goal with |- _ /\ _ => split end.
  - start 50. split; [reflexivity|now left].
  - start 51. exists HD, []. now split.
  - start 52. destruct Dx as (h & hs & -> & ->). exists h, (hs ++ [HD]).
    rewrite app_comm_cons, flat_map_app, map_app. repeat split.
  - start 53. destruct Dx as (x & -> & ->). exists (HParam x), []. now split.
  - start 54. destruct Dx as (x & -> & ->). exists (HTyped x PD), []. now split.
  - start 55. destruct Dx as (x & -> & ->). exists (HTyped x (PName s)), []. now split.
  - start 56. destruct Dx as (h & hs & -> & ->). destruct Dx0 as (x & -> & ->). exists h, (hs ++ [HParam x]).
    rewrite app_comm_cons, flat_map_app, map_app. repeat split.
  - start 57. destruct Dx as (h & hs & -> & ->). destruct Dx0 as (x & -> & ->). exists h, (hs ++ [HTyped x PD]).
    rewrite app_comm_cons, flat_map_app, map_app. repeat split.
  - start 58. destruct Dx as (h & hs & -> & ->). destruct Dx0 as (x & -> & ->). exists h, (hs ++ [HTyped x (PName s)]).
    rewrite app_comm_cons, flat_map_app, map_app. repeat split.
Qed.

Ltac two_exprs o :=
  repeat match goal with H : exists e, rw_e e = true /\ _ |- _ => 
    let e := fresh "e" in let R := fresh "R" in destruct H as (e & R & -> & ->) end;
  match goal with R1 : rw_e ?a = true, R2 : rw_e ?b = true |- context[toks_e ?a ++ _] =>
    exists (EBin o a b); split; [cbn [rw_e]; now rewrite R1, R2|];
    cbn [concat toks_e op_toks app]; rewrite app_nil_r; repeat split
  end.

Ltac binop p o :=
  start p;
  match goal with
  | H1 : exists e, rw_e e = true /\ ?w1 = toks_e e /\ _, H2 : exists e, rw_e e = true /\ ?w2 = toks_e e /\ _
    |- context[concat (?w1 :: _)] =>
      destruct H1 as (a & R1 & -> & ->); destruct H2 as (b & R2 & -> & ->);
      exists (EBin o a b); split; [cbn [rw_e]; now rewrite R1, R2|];
      cbn [concat toks_e op_toks app]; rewrite app_nil_r; repeat split
  end.

Lemma sound_ops : sound 59 /\ sound 60 /\ sound 61 /\ sound 62 /\ sound 63 /\ sound 64 /\ sound 65 /\ sound 66 /\
  sound 69 /\ sound 70 /\ sound 71 /\ sound 72 /\ sound 73 /\ sound 74.
Proof.
  repeat match goal with |- _ /\ _ => split end.
  - binop 59 OAdd.
  - binop 60 OSub.
  - binop 61 OMul.
  - binop 62 ODiv.
  - binop 63 OPow.
  - binop 64 OAt.
  - binop 65 OAnd.
  - binop 66 OOr.
  - binop 69 OLt.
  - binop 70 OGt.
  - binop 71 OEq.
  - binop 72 ONe.
  - binop 73 OLe.
  - binop 74 OGe.
Qed.

Lemma sound_dice : sound 67 /\ sound 68 /\ sound 75.
Proof.
  repeat match goal with |- _ /\ _ => split end.
  - start 67. destruct Dx as (n & R & -> & ->). destruct Dx1 as (d & R1 & -> & ->).
    exists (EDice n d). split; [cbn [rw_e]; now rewrite R, R1|]. cbn [concat]. rewrite app_nil_r. repeat split.
  - start 68. destruct Dx0 as (d & R1 & -> & ->).
    exists (EDie d). split; [exact R1|]. cbn [concat]. rewrite app_nil_r. repeat split.
  - start 75. destruct Dx as (d & R1 & -> & ->).
    exists (ETerm d). split; [exact R1|]. cbn [concat]. rewrite app_nil_r. repeat split.
Qed.

Lemma sound_terms : sound 76 /\ sound 77 /\ sound 78 /\ sound 79 /\ sound 80 /\ sound 81 /\ sound 82 /\ sound 83 /\
  sound 84 /\ sound 85 /\ sound 86 /\ sound 87 /\ sound 88 /\ sound 89 /\ sound 90 /\ sound 91 /\ sound 92.
Proof.
  repeat match goal with |- _ /\ _ => split end.
  - start 76. destruct Dx0 as (t & R & -> & ->). exists (TUn UPos t). split; [exact R|].
    cbn [concat]. rewrite app_nil_r. repeat split.
  - start 77. destruct Dx0 as (t & R & -> & ->). exists (TUn UNeg t). split; [exact R|].
    cbn [concat]. rewrite app_nil_r. repeat split.
  - start 78. destruct Dx0 as (t & R & -> & ->). exists (TUn UNot t). split; [exact R|].
    cbn [concat]. rewrite app_nil_r. repeat split.
  - start 79. destruct Dx0 as (t & R & -> & ->). exists (THash t). split; [exact R|].
    cbn [concat]. rewrite app_nil_r. repeat split.
  - start 80. destruct Dx0 as (e & R & -> & ->). exists (TGroup e). split; [exact R|]. repeat split.
  - start 81. exists (TNum s). repeat split.
  - start 82. exists (TDec s0 s). repeat split.
  - start 83. destruct Dx as (x & -> & ->). exists (TVar x). repeat split.
  - start 84. exists (TSeq []). repeat split.
  - start 85. destruct Dx0 as (x & xs & R & -> & ->). exists (TSeq (x :: xs)). split; [exact R|]. repeat split.
  - start 86. destruct Dx as (x & xs & R & -> & ->). destruct Dx1 as (y & R1 & -> & ->).
    exists x, (xs ++ [y]). rewrite app_comm_cons, !map_app. split; [now apply forallb_snoc|].
    split; [|reflexivity]. cbn [map concat]. rewrite sepby_snoc, app_nil_r. reflexivity.
  - start 87. destruct Dx as (x & R & -> & ->). exists x, []. cbn [forallb]. rewrite R.
    cbn [concat]. rewrite app_nil_r. repeat split.
  - start 88. destruct Dx as (e & R & -> & ->). exists (LOne e). split; [exact R|].
    cbn [concat]. rewrite app_nil_r. repeat split.
  - start 89. destruct Dx as (a & b & R & R1 & -> & ->). exists (LRange a b). split; [cbn [rw_l]; now rewrite R, R1|].
    cbn [concat]. rewrite app_nil_r. repeat split.
  - start 90. destruct Dx as (a & R & -> & ->). destruct Dx1 as (b & R1 & -> & ->).
    exists a, b. split; [exact R|]. split; [exact R1|]. cbn [concat]. rewrite app_nil_r. repeat split.
  - start 91. destruct Dx as (p & ps & -> & ->). exists (TStr p ps). split; [reflexivity|].
    cbn [concat]. rewrite app_nil_r. repeat split.
  - start 92. destruct Dx0 as (cs & C & R & -> & ->). exists (TCall cs). split; [cbn [rw_t]; now rewrite C, R|].
    repeat split.
Qed.

Ltac call_word1 p :=
  start_words p;
  match goal with E : word_tok ?k = (?t, ?s) |- _ =>
    exists [CWord k]; cbn [flat_map toks_c map node_c app concat]; rewrite E; repeat split
  end.

Ltac call_word2 p :=
  start_words p;
  match goal with H : D (N nCall) _ _, E : word_tok ?k = (?t, ?s) |- _ =>
    destruct H as (cs & C & R & -> & ->); exists (cs ++ [CWord k]);
    split; [now apply call_start_snoc|]; split; [now apply forallb_snoc|];
    rewrite flat_map_app, map_app; cbn [flat_map toks_c map node_c app concat];
    rewrite E; repeat split
  end.

Lemma sound_call_words : forall p, 93 <= p <= 114 -> sound p.
Proof.
  intros p [A B].
  do 93 (destruct p as [|p]; [exfalso; lia|]).
  destruct p as [|p]; [call_word1 93|]. destruct p as [|p]; [call_word1 94|].
  destruct p as [|p]; [call_word1 95|]. destruct p as [|p]; [call_word1 96|].
  destruct p as [|p]; [call_word1 97|]. destruct p as [|p]; [call_word1 98|].
  destruct p as [|p]; [call_word1 99|]. destruct p as [|p]; [call_word1 100|].
  destruct p as [|p]; [call_word1 101|]. destruct p as [|p]; [call_word1 102|].
  destruct p as [|p]; [call_word1 103|].
  destruct p as [|p]; [call_word2 104|]. destruct p as [|p]; [call_word2 105|].
  destruct p as [|p]; [call_word2 106|]. destruct p as [|p]; [call_word2 107|].
  destruct p as [|p]; [call_word2 108|]. destruct p as [|p]; [call_word2 109|].
  destruct p as [|p]; [call_word2 110|]. destruct p as [|p]; [call_word2 111|].
  destruct p as [|p]; [call_word2 112|]. destruct p as [|p]; [call_word2 113|].
  destruct p as [|p]; [call_word2 114|].
  exfalso; lia.
Qed.

Lemma node_call : forall e, ntype_is (node_type (node_e e)) CALL = is_call e.
Proof. intros e; destruct e as [| | |t]; try reflexivity. now destruct t. Qed.

Lemma sound_call_args : sound 115 /\ sound 116.
Proof.
  split.
  - start 115. destruct Dx as (e & R & -> & ->). unfold semact.
    cbn [arg nth_error Nat.sub bind type_of]. rewrite node_call. destruct (is_call e) eqn:IC.
    + destruct e as [| | |t]; try discriminate IC. destruct t; try discriminate IC.
      split; [reflexivity|]. right. split; [reflexivity|]. eexists. split; [exact R|].
      cbn [concat]. now rewrite app_nil_r.
    + exists [CArg e]. split.
      { destruct e as [| | |t]; try reflexivity. destruct t; try reflexivity. discriminate IC. }
      split; [cbn [forallb rw_c]; now rewrite R|]. repeat split.
  - start 116. destruct Dx as (cs & C & R0 & -> & ->). destruct Dx0 as (e & R & -> & ->).
    exists (cs ++ [CArg e]). split; [now apply call_start_snoc|]. split; [now apply forallb_snoc|].
    rewrite flat_map_app, map_app. repeat split.
Qed.

Lemma all_sound : forall p, 0 < p < length prods -> sound p.
Proof.
  intros p [A B]. change (length prods) with 117 in B.
  assert (p <= 27 \/ 28 <= p <= 49 \/ 50 <= p <= 92 \/ 93 <= p <= 114 \/ p = 115 \/ p = 116) as C by lia.
  destruct C as [C|[C|[C|[C|[->| ->]]]]].
  - assert (p = 1 \/ p = 2 \/ p = 3 \/ p = 4 \/ p = 5 \/ p = 6 \/ p = 7 \/ p = 8 \/ p = 9 \/ p = 10 \/ p = 11 \/ p = 12
      \/ p = 13 \/ p = 14 \/ p = 15 \/ p = 16 \/ p = 17 \/ p = 18 \/ p = 19 \/ p = 20 \/ p = 21 \/ p = 22 \/ p = 23
      \/ p = 24 \/ p = 25 \/ p = 26 \/ p = 27) as E by lia.
    pose proof sound_multi. pose proof sound_single. pose proof sound_if. pose proof sound_var. pose proof sound_string.
    repeat match goal with H : _ /\ _ |- _ => destruct H end.
    repeat (destruct E as [->|E]; [assumption|]). subst p. assumption.
  - now apply sound_head_words.
  - pose proof sound_head. pose proof sound_ops. pose proof sound_dice. pose proof sound_terms.
    repeat match goal with H : sound _ /\ _ |- _ => destruct H end.
    assert (p = 50 \/ p = 51 \/ p = 52 \/ p = 53 \/ p = 54 \/ p = 55 \/ p = 56 \/ p = 57 \/ p = 58 \/ p = 59 \/ p = 60
      \/ p = 61 \/ p = 62 \/ p = 63 \/ p = 64 \/ p = 65 \/ p = 66 \/ p = 67 \/ p = 68 \/ p = 69 \/ p = 70 \/ p = 71
      \/ p = 72 \/ p = 73 \/ p = 74 \/ p = 75 \/ p = 76 \/ p = 77 \/ p = 78 \/ p = 79 \/ p = 80 \/ p = 81 \/ p = 82
      \/ p = 83 \/ p = 84 \/ p = 85 \/ p = 86 \/ p = 87 \/ p = 88 \/ p = 89 \/ p = 90 \/ p = 91 \/ p = 92) as E by lia.
    repeat (destruct E as [->|E]; [assumption|]). subst p. assumption.
  - now apply sound_call_words.
  - exact (proj1 sound_call_args).
  - exact (proj2 sound_call_args).
Qed.

Lemma I_production : forall p tss vs v, 0 < p < length prods ->
  Forall2 (fun x tv => I x (fst tv) (snd tv)) (p_rhs (nprod p)) (combine tss vs) ->
  length tss = length vs ->
  semact (p_fun (nprod p)) vs = Ok v -> I (N (p_lhs (nprod p))) (concat tss) v.
Proof.
  intros p tss vs v B F L S G. pose proof (all_sound p B tss vs F L G) as H. now rewrite S in H.
Qed.

Lemma good_no_end : forall ts, Forall good ts -> ~ In tEnd (map fst ts).
Proof.
  intros ts G H. apply in_map_iff in H. destruct H as ([t s] & E & K). cbn [fst] in E. subst t.
  rewrite Forall_forall in G. specialize (G _ K). unfold good in G. cbn [fst snd] in G.
  inversion G as [| | | | | | | | | | | | | | | | | | | | | | | | | | |s' t' KW| | | |]; subst. inversion KW.
Qed.

(** The parser accepts exactly the well-formed programs, and returns their trees. *)
Theorem parse_exact : forall ts v, Forall good ts ->
  (parse ts = Ok v <-> exists p, wf p = true /\ toks p = ts /\ v = VNode (tree p)).
Proof.
  intros ts v G. split.
  - intros P. pose proof (parse_sound I I_token I_production ts (good_no_end ts G)) as H. rewrite P in H.
    destruct (H G) as (p & R & E & _).
    destruct (norm_program p R) as [T W]. exists (map norm_s p). split; [exact W|]. split; [congruence|].
    pose proof (parse_complete _ W) as C. rewrite T, <- E, P in C. now injection C.
  - intros (p & W & <- & ->). now apply parse_complete.
Qed.

(** Anything else is a syntax error, except for a function without a name and a
    call that begins with a call, where a grammar action raises IndexError. *)
Theorem parse_errors : forall ts e, Forall good ts -> parse ts = Err e ->
  e = AssertErr \/
  (e = IndexErr /\
   ((exists pre post, ts = pre ++ [kwt kFunction; colon; (tLBRACE, "{"%string)] ++ post) \/
    (exists pre cs post, ts = pre ++ (tLBRACKET, "["%string) :: toks_t (TCall cs) ++ post))).
Proof.
  intros ts e G P. pose proof (parse_sound I I_token I_production ts (good_no_end ts G)) as H. rewrite P in H.
  destruct H as [->|(p & tss & vs & B & F & L & (s0 & pre & post & E & PA & HO & (j & J) & AC) & S)]; [now left|right].
  assert (Forall good pre /\ Forall good (concat tss) /\ Forall good post) as (G0 & G1 & G2).
  { rewrite E in G. apply Forall_app in G. destruct G as [G0 G]. apply Forall_app in G. tauto. }
  pose proof (all_sound p B tss vs F L G1) as H. rewrite S in H. destruct H as [-> H]. split; [reflexivity|].
  destruct H as [->|[-> (cs & R & C)]].
  - left. specialize (AC eq_refl).
    change (p_lhs (nprod 50)) with nFuncname in J.
    assert (top_state s0 = qHEAD) as T0.
    { assert (top_state s0 < nstates) as LT by (apply goto_dom; intros Z; rewrite Z in J; discriminate J).
      assert (forallb (fun q => match assoc_nt nFuncname (goto_row q) with Some _ => Nat.eqb q qHEAD | None => true end)
                all_states = true) as CK by (vm_compute; reflexivity).
      pose proof (for_states _ CK _ LT) as Q. cbv beta in Q. rewrite J in Q. now apply Nat.eqb_eq. }
    rewrite T0 in AC.
    destruct (args_nil _ _ F L) as [-> ->]. cbn [concat app] in E.
    inversion PA as [|q v s1 x P1 TR]; subst s0; [discriminate T0|]. cbn [top_state] in T0. subst q.
    apply trans_ok in TR. destruct TR as (_ & IN & _).
    assert (preds qHEAD = [qFUN]) as PR by (vm_compute; reflexivity).
    rewrite PR in IN. destruct IN as [IN|[]].
    inversion P1 as [|q v1 s2 x1 P2 TR]; subst s1; [discriminate IN|]. cbn [top_state] in IN. subst q.
    inversion HO as [|q' v' s' u w H1 I1]; subst. inversion H1 as [|q' v' s' u' w' H2 I2]; subst.
    apply Forall_app in G0. destruct G0 as [G0 G3]. apply Forall_app in G0. destruct G0 as [G0 G4].
    specialize (I1 G3). specialize (I2 G4). 
    change (acc qHEAD) with (T tCOLON) in I1. change (acc qFUN) with (T tFUNCTION) in I2.
    token I1. token I2. 
    destruct post as [|[t s] post].
    { vm_compute in AC. discriminate AC. }
    assert (t = tLBRACE) as ->.
    { cbn [la] in AC. clear -AC. destruct t; try reflexivity; vm_compute in AC; discriminate AC. }
    pose proof (good_fixed _ _ (Forall_inv G2)) as K. cbn [fixed_text] in K. subst s.
    exists u', post. now rewrite <- !app_assoc.
  - right. change (p_lhs (nprod 115)) with nCall in J.
    assert (top_state s0 = qBRACK) as T0.
    { assert (top_state s0 < nstates) as LT by (apply goto_dom; intros Z; rewrite Z in J; discriminate J).
      assert (forallb (fun q => match assoc_nt nCall (goto_row q) with Some _ => Nat.eqb q qBRACK | None => true end)
                all_states = true) as CK by (vm_compute; reflexivity).
      pose proof (for_states _ CK _ LT) as Q. cbv beta in Q. rewrite J in Q. now apply Nat.eqb_eq. }
    inversion HO as [|q' v' s' u w H1 I1]; subst s0; [discriminate T0|]. cbn [top_state] in T0. subst q' pre.
    apply Forall_app in G0. destruct G0 as [G0 G3]. specialize (I1 G3).
    change (acc qBRACK) with (T tLBRACKET) in I1. token I1.
    exists u, cs, post. rewrite E, C. now rewrite <- app_assoc.
Qed.

(** A text has at most one reading. *)
Theorem unambiguous : forall p q, wf p = true -> wf q = true -> toks p = toks q -> tree p = tree q.
Proof.
  intros p q P Q E. pose proof (parse_complete p P) as A. pose proof (parse_complete q Q) as B.
  rewrite E, B in A. congruence.
Qed.
