(** Every way of writing a text as abstract syntax can be regrouped into the
    well-formed one, without changing the text. *)
From Coq Require Import String Bool List Arith Lia.
From Verif Require Import LexModel ParseModel SynSpec SynInd ExprParse ExprParse2.
Import ListNotations.
Open Scope list_scope.

(** ** Adding an operator and an operand at the right end *)

Fixpoint ins (e : expr) (o : binop) (x : expr) : expr :=
  match e with
  | EBin o' l r => if Nat.leb (op_level o) (op_level o') then EBin o e x else EBin o' l (ins r o x)
  | _ => EBin o e x
  end.

Fixpoint join (e : expr) (o : binop) (x : expr) : expr :=
  match x with
  | EBin o2 l r => join (join e o l) o2 r
  | _ => ins e o x
  end.

Lemma op_level_lt : forall o, 0 < op_level o < 8.
Proof. intros o; destruct o; cbn; lia. Qed.

Definition operand (e : expr) : bool := match e with EBin _ _ _ => false | _ => true end.

Lemma operand_level : forall e, operand e = true -> level e = 8.
Proof. intros e; destruct e; cbn; congruence. Qed.

Lemma level_le8 : forall e, level e <= 8.
Proof. intros e; destruct e; cbn; try lia. pose proof (op_level_lt o). lia. Qed.

Lemma ins_toks : forall e o x, toks_e (ins e o x) = toks_e e ++ op_toks o ++ toks_e x.
Proof.
  intros e; induction e as [o' l IHl r IHr|n d|d|t] using expr_ind; intros o x; cbn [ins]; try reflexivity.
  destruct (Nat.leb _ _); [reflexivity|]. cbn [toks_e]. now rewrite IHr, <- !app_assoc.
Qed.

Lemma ins_wf : forall e o x, wf_e e = true -> wf_e x = true -> operand x = true ->
  wf_e (ins e o x) = true /\ level (ins e o x) = Nat.min (op_level o) (level e).
Proof.
  intros e o x; induction e as [o' l IHl r IHr|n d|d|t] using expr_ind; intros W X P;
    pose proof (op_level_lt o) as L; pose proof (operand_level x P) as LX.
  2,3,4: cbn [ins]; cbn [wf_e level]; rewrite LX; cbn [wf_e level] in *;
    (split; [rewrite X, W, !andb_true_r; apply andb_true_intro; split;
             [apply Nat.leb_le|apply Nat.ltb_lt]; lia|lia]).
  cbn [ins]. destruct (Nat.leb (op_level o) (op_level o')) eqn:E.
  - apply Nat.leb_le in E.
    change (wf_e (EBin o (EBin o' l r) x)) with
      (Nat.leb (op_level o) (level (EBin o' l r)) && Nat.ltb (op_level o) (level x)
       && wf_e (EBin o' l r) && wf_e x).
    rewrite W, X, LX, !andb_true_r. cbn [level]. split; [|lia].
    apply andb_true_intro; split; [apply Nat.leb_le|apply Nat.ltb_lt]; lia.
  - apply Nat.leb_gt in E. cbn [wf_e] in W. splitb.
    match goal with H : Nat.ltb _ (level r) = true |- _ => apply Nat.ltb_lt in H; rename H into LR end.
    destruct (IHr ltac:(assumption) X P) as [W' L'].
    cbn [wf_e level]. rewrite W', L'. split; [|lia].
    repeat (apply andb_true_intro; split); try assumption; try reflexivity. apply Nat.ltb_lt. lia.
Qed.

Lemma join_toks : forall x e o, toks_e (join e o x) = toks_e e ++ op_toks o ++ toks_e x.
Proof.
  intros x; induction x as [o2 l IHl r IHr|n d|d|t] using expr_ind; intros e o; cbn [join]; try apply ins_toks.
  rewrite IHr, IHl. cbn [toks_e]. now rewrite <- !app_assoc.
Qed.

Lemma join_wf : forall x e o, wf_e e = true -> wf_e x = true -> wf_e (join e o x) = true.
Proof.
  intros x; induction x as [o2 l IHl r IHr|n d|d|t] using expr_ind; intros e o W X; cbn [join].
  - cbn [wf_e] in X. splitb. apply IHr; [apply IHl|]; assumption.
  - now apply ins_wf.
  - now apply ins_wf.
  - now apply ins_wf.
Qed.

(** Is the whole expression one call? *)
Definition is_call (e : expr) : bool := match e with ETerm (TCall _) => true | _ => false end.

Lemma ins_bin : forall e o x, operand (ins e o x) = false.
Proof. intros e o x; destruct e; cbn [ins]; try reflexivity. now destruct (Nat.leb _ _). Qed.
Lemma join_bin : forall x e o, operand (join e o x) = false.
Proof.
  intros x; induction x as [o2 l IHl r IHr|n d|d|t] using expr_ind; intros e o; cbn [join]; try apply ins_bin.
  apply IHr.
Qed.
Lemma bin_not_call : forall e, operand e = false -> is_call e = false.
Proof. intros e; destruct e; cbn; congruence. Qed.

(** ** The leftmost operand *)

Fixpoint leftmost (e : expr) : expr := match e with EBin _ l _ => leftmost l | _ => e end.
Fixpoint after_left (e : expr) : list tok :=
  match e with EBin o l r => after_left l ++ op_toks o ++ toks_e r | _ => [] end.
(** [e] with its leftmost operand replaced by [a]. *)
Fixpoint graft (a e : expr) : expr := match e with EBin o l r => join (graft a l) o r | _ => a end.

Lemma left_toks : forall e, toks_e e = toks_e (leftmost e) ++ after_left e.
Proof.
  intros e; induction e as [o l IHl r IHr|n d|d|t] using expr_ind; cbn [leftmost after_left];
    try (now rewrite app_nil_r).
  cbn [toks_e]. rewrite IHl at 1. now rewrite <- !app_assoc.
Qed.

Lemma left_wf : forall e, wf_e e = true -> wf_e (leftmost e) = true /\ operand (leftmost e) = true.
Proof.
  intros e; induction e as [o l IHl r IHr|n d|d|t] using expr_ind; intros W; cbn [leftmost]; try (now split).
  cbn [wf_e] in W. splitb. now apply IHl.
Qed.

Lemma graft_toks : forall a e, toks_e (graft a e) = toks_e a ++ after_left e.
Proof.
  intros a e; induction e as [o l IHl r IHr|n d|d|t] using expr_ind; cbn [graft after_left];
    try (now rewrite app_nil_r).
  rewrite join_toks, IHl. now rewrite <- !app_assoc.
Qed.

Lemma graft_wf : forall a e, wf_e a = true -> wf_e e = true -> wf_e (graft a e) = true.
Proof.
  intros a e A; induction e as [o l IHl r IHr|n d|d|t] using expr_ind; intros W; cbn [graft]; try exact A.
  cbn [wf_e] in W. splitb. apply join_wf; [now apply IHl|assumption].
Qed.

Lemma graft_call : forall a e, is_call (graft a e) = true -> is_call a = true.
Proof.
  intros a e; destruct e; cbn [graft]; try (intros H; exact H).
  intros H. rewrite bin_not_call in H by apply join_bin. discriminate H.
Qed.

(** ** Neighbouring arguments that run together *)

Definition unsign_t (t : term) : option (binop * term) :=
  match t with
  | TUn UPos t' => Some (OAdd, t')
  | TUn UNeg t' => Some (OSub, t')
  | _ => None
  end.

(** An operand that begins with a sign, as an operator and the rest. *)
Definition unsign (x : expr) : option (binop * expr) :=
  match x with
  | ETerm t => match unsign_t t with Some (s, t') => Some (s, ETerm t') | None => None end
  | EDice n d => match unsign_t n with Some (s, n') => Some (s, EDice n' d) | None => None end
  | _ => None
  end.

Fixpoint dice_last (a : expr) (d : term) : expr :=
  match a with
  | EBin o l r => EBin o l (dice_last r d)
  | ETerm t => EDice t d
  | _ => a
  end.

Fixpoint str_last_t (t : term) (qs : list part) : term :=
  match t with
  | TStr p ps => TStr p (ps ++ qs)
  | TUn u t' => TUn u (str_last_t t' qs)
  | THash t' => THash (str_last_t t' qs)
  | _ => t
  end.

Fixpoint str_last (a : expr) (qs : list part) : expr :=
  match a with
  | EBin o l r => EBin o l (str_last r qs)
  | EDice n d => EDice n (str_last_t d qs)
  | EDie d => EDie (str_last_t d qs)
  | ETerm t => ETerm (str_last_t t qs)
  end.

Lemma unsign_toks : forall x s x', unsign x = Some (s, x') -> toks_e x = op_toks s ++ toks_e x'.
Proof.
  assert (forall t s t', unsign_t t = Some (s, t') -> toks_t t = op_toks s ++ toks_t t') as H.
  { intros t s t' U. destruct t as [| | | | | | |[] t| ]; try discriminate U; injection U as <- <-; reflexivity. }
  intros x s x' U. destruct x as [|n d| |t]; cbn [unsign] in U; try discriminate U.
  - destruct (unsign_t n) as [[s1 n']|] eqn:E; [|discriminate U]. injection U as <- <-.
    cbn [toks_e]. rewrite (H _ _ _ E). now rewrite <- app_assoc.
  - destruct (unsign_t t) as [[s1 n']|] eqn:E; [|discriminate U]. injection U as <- <-. exact (H _ _ _ E).
Qed.

Lemma unsign_wf : forall x s x', unsign x = Some (s, x') -> wf_e x = true ->
  wf_e x' = true /\ operand x' = true.
Proof.
  assert (forall t s t', unsign_t t = Some (s, t') -> wf_t t' = wf_t t) as H.
  { intros t s t' U. destruct t as [| | | | | | |[] t| ]; try discriminate U; injection U as <- <-; reflexivity. }
  intros x s x' U W. destruct x as [|n d| |t]; cbn [unsign] in U; try discriminate U.
  - destruct (unsign_t n) as [[s1 n']|] eqn:E; [|discriminate U]. injection U as <- <-.
    cbn [wf_e] in *. rewrite (H _ _ _ E). now split.
  - destruct (unsign_t t) as [[s1 n']|] eqn:E; [|discriminate U]. injection U as <- <-.
    cbn [wf_e] in *. rewrite (H _ _ _ E). now split.
Qed.

Lemma dice_last_toks : forall a d, ends_plain a = true ->
  toks_e (dice_last a d) = toks_e a ++ (tD_OP, "d"%string) :: toks_t d.
Proof.
  intros a d; induction a as [o l IHl r IHr|n d0|d0|t] using expr_ind; intros E; try discriminate E; [|reflexivity].
  cbn [dice_last toks_e]. rewrite IHr by exact E. now rewrite <- !app_assoc.
Qed.

Lemma dice_last_wf : forall a d, wf_e a = true -> wf_t d = true ->
  wf_e (dice_last a d) = true /\ level (dice_last a d) = level a.
Proof.
  intros a d; induction a as [o l IHl r IHr|n d0|d0|t] using expr_ind; intros W D; cbn [dice_last]; try (now split).
  - cbn [wf_e] in W. splitb. destruct (IHr ltac:(assumption) D) as [W' L'].
    cbn [wf_e level]. rewrite L', W'. split; [|reflexivity].
    repeat (apply andb_true_intro; split); try assumption; reflexivity.
  - cbn [wf_e level] in *. rewrite W, D. now split.
Qed.

Lemma dice_last_call : forall a d, is_call (dice_last a d) = true -> is_call a = true.
Proof. intros a d; destruct a; cbn; congruence. Qed.

Lemma final_t_un : forall k t, final (k :: toks_t t) = final (toks_t t).
Proof. intros k t. apply final_cons. apply toks_t_ne. Qed.

Lemma str_last_t_toks : forall t qs, in_string (final (toks_t t)) = true ->
  toks_t (str_last_t t qs) = toks_t t ++ map part_tok qs.
Proof.
  intros t qs; induction t as [s|a b|x|p ps|es|e|cs|u t IH|t IH] using term_ind; intros F; cbn [str_last_t].
  - cbn in F. discriminate F.
  - cbn in F. discriminate F.
  - cbn in F. discriminate F.
  - cbn [toks_t]. cbn [map app]. now rewrite map_app.
  - cbn [toks_t] in F. rewrite app_comm_cons, final_one in F. discriminate F.
  - cbn [toks_t] in F. rewrite app_comm_cons, final_one in F. discriminate F.
  - cbn [toks_t] in F. rewrite app_comm_cons, final_one in F. discriminate F.
  - cbn [toks_t] in *. rewrite final_t_un in F. rewrite IH by exact F. reflexivity.
  - cbn [toks_t] in *. rewrite final_t_un in F. rewrite IH by exact F. reflexivity.
Qed.

Lemma str_last_toks : forall a qs, in_string (final (toks_e a)) = true ->
  toks_e (str_last a qs) = toks_e a ++ map part_tok qs.
Proof.
  intros a qs; induction a as [o l IHl r IHr|n d0|d0|t] using expr_ind; intros F; cbn [str_last toks_e] in *.
  - rewrite app_assoc, final_app in F by apply toks_e_ne. rewrite IHr by exact F. now rewrite <- !app_assoc.
  - rewrite final_app, final_t_un in F by discriminate. rewrite str_last_t_toks by exact F.
    now rewrite <- app_assoc.
  - rewrite final_t_un in F. rewrite str_last_t_toks by exact F. reflexivity.
  - now apply str_last_t_toks.
Qed.

Lemma str_last_t_wf : forall t qs, wf_t (str_last_t t qs) = wf_t t.
Proof. intros t qs; induction t using term_ind; cbn [str_last_t wf_t]; try reflexivity; assumption. Qed.

Lemma str_last_wf : forall a qs, wf_e (str_last a qs) = wf_e a /\ level (str_last a qs) = level a /\
  ends_plain (str_last a qs) = ends_plain a.
Proof.
  intros a qs; induction a as [o l IHl r IHr|n d0|d0|t] using expr_ind; cbn [str_last wf_e level ends_plain];
    rewrite ?str_last_t_wf; try (repeat split; reflexivity).
  destruct IHr as (A & B & C). rewrite A, B, C. repeat split.
Qed.

Lemma str_last_call : forall a qs, is_call (str_last a qs) = true -> is_call a = true.
Proof. intros a qs; destruct a as [| | |[]]; cbn; congruence. Qed.

(** Two neighbouring arguments as the parser reads them: the arguments that are
    complete, and the one that may still go on. *)
Definition merge (a b : expr) : list expr * expr :=
  if apart a b then ([a], b)
  else match unsign (leftmost b) with
       | Some (s, x) => ([], graft (ins a s x) b)
       | None =>
           match leftmost b with
           | EDie d => ([], graft (dice_last a d) b)
           | ETerm (TStr p ps) => ([], graft (str_last a (p :: ps)) b)
           | EDice (TStr p ps) d =>
               if ends_plain a then ([], graft (dice_last (str_last a (p :: ps)) d) b)
               else ([str_last a (p :: ps)], graft (EDie d) b)
           | _ => ([a], b)
           end
       end.

Lemma first_app : forall l m, l <> [] -> first (l ++ m) = first l.
Proof. intros [|[t v] l] m H; [now destruct H|reflexivity]. Qed.

Lemma first_left : forall b, first (toks_e b) = first (toks_e (leftmost b)).
Proof. intros b. rewrite left_toks. apply first_app, toks_e_ne. Qed.

Lemma first_term : forall t,
  match first (toks_t t) with
  | tPLUS => exists t', t = TUn UPos t'
  | tMINUS => exists t', t = TUn UNeg t'
  | tD_OP => False
  | k => unsign_t t = None /\ (in_string k = true -> exists p ps, t = TStr p ps)
  end.
Proof.
  intros t; destruct t as [s|a b|x|p ps|es|e|cs|u t|t]; cbn [toks_t first];
    try (split; [reflexivity|intros H; discriminate H]).
  - cbn [map]. destruct p; cbn [part_tok first]; (split; [reflexivity|eauto]).
  - destruct u; cbn [un_tok first]; [eauto|eauto|split; [reflexivity|intros H; discriminate H]].
Qed.

Lemma apart_first : forall a b c, first (toks_e b) = first (toks_e c) -> apart a b = apart a c.
Proof. intros a b c H. unfold apart. now rewrite H. Qed.

Lemma merge_ok : forall a b, wf_e a = true -> wf_e b = true ->
  let '(pre, c) := merge a b in
  flat_map toks_e pre ++ toks_e c = toks_e a ++ toks_e b /\ wf_e c = true /\
  match pre with
  | [] => first (toks_e c) = first (toks_e a) /\ (is_call c = true -> is_call a = true)
  | [x] => wf_e x = true /\ apart x c = true /\ first (toks_e x) = first (toks_e a) /\
           (is_call x = true -> is_call a = true)
  | _ => False
  end.
Proof.
  intros a b A B. unfold merge. destruct (apart a b) eqn:AP.
  { cbn [flat_map]. rewrite app_nil_r. repeat split; try assumption; auto. }
  unfold apart in AP. rewrite first_left in AP.
  destruct (left_wf b B) as [LW LO]. pose proof (left_toks b) as TB.
  assert (toks_e a <> []) as NA by apply toks_e_ne.
  (* what the leftmost operand of b is *)
  destruct (leftmost b) as [|n d|d|t] eqn:EL; [discriminate LO| | |].
  - (* ndm *)
    cbn [toks_e] in AP. rewrite first_app in AP by apply toks_t_ne. pose proof (first_term n) as FT.
    destruct (unsign_t n) as [[s n']|] eqn:U.
    + assert (unsign (EDice n d) = Some (s, EDice n' d)) as US by (cbn [unsign]; now rewrite U).
      rewrite US. destruct (unsign_wf _ _ _ US LW) as [XW XO].
      cbn [flat_map app]. rewrite graft_toks, ins_toks, TB, (unsign_toks _ _ _ US).
      split; [now rewrite <- !app_assoc|]. split; [apply graft_wf; [now apply ins_wf|exact B]|].
      split; [rewrite <- !app_assoc; now apply first_app|].
      intros H. apply graft_call in H. rewrite bin_not_call in H by apply ins_bin. discriminate H.
    + assert (unsign (EDice n d) = None) as US by (cbn [unsign]; now rewrite U).
      rewrite US.
      assert (in_string (first (toks_t n)) = true /\ in_string (final (toks_e a)) = true) as [IS1 IS2].
      { destruct (first (toks_t n)); try discriminate AP;
          try (apply negb_false_iff in AP; apply andb_prop in AP; exact AP);
          try (destruct FT as [t' ->]; discriminate U); try contradiction FT. }
      assert (exists p ps, n = TStr p ps) as (p & ps & ->).
      { destruct (first (toks_t n)); try discriminate IS1; destruct FT as [_ FT]; now apply FT. }
      cbn [wf_e wf_t] in LW. cbn [andb] in LW.
      destruct (str_last_wf a (p :: ps)) as (SW & SL & SE).
      destruct (ends_plain a) eqn:EP.
      * cbn [flat_map app]. rewrite graft_toks, dice_last_toks by (rewrite SE; reflexivity).
        rewrite str_last_toks by exact IS2. rewrite TB. cbn [toks_e toks_t].
        split; [now rewrite <- !app_assoc|].
        split; [apply graft_wf; [|exact B]; apply dice_last_wf; [now rewrite SW|exact LW]|].
        split; [rewrite <- !app_assoc; now apply first_app|].
        intros H. apply graft_call, dice_last_call, str_last_call in H. exact H.
      * cbn [flat_map app]. rewrite app_nil_r, graft_toks, str_last_toks by exact IS2.
        rewrite TB. cbn [toks_e toks_t].
        split; [now rewrite <- !app_assoc|].
        split; [apply graft_wf; [exact LW|exact B]|].
        split; [now rewrite SW|]. split.
        { unfold apart. rewrite graft_toks. cbn [toks_e app first]. now rewrite SE. }
        split; [now apply first_app|]. apply str_last_call.
  - (* dm *)
    cbn [toks_e first] in AP. apply negb_false_iff in AP. cbn [unsign]. cbn [flat_map app].
    rewrite graft_toks, dice_last_toks by exact AP. rewrite TB. cbn [toks_e].
    split; [now rewrite <- !app_assoc|].
    split; [apply graft_wf; [apply dice_last_wf; [exact A|exact LW]|exact B]|].
    split; [rewrite <- !app_assoc; now apply first_app|].
    intros H. apply graft_call, dice_last_call in H. exact H.
  - (* term *)
    cbn [toks_e] in AP. pose proof (first_term t) as FT.
    destruct (unsign_t t) as [[s n']|] eqn:U.
    + assert (unsign (ETerm t) = Some (s, ETerm n')) as US by (cbn [unsign]; now rewrite U).
      rewrite US. destruct (unsign_wf _ _ _ US LW) as [XW XO].
      cbn [flat_map app]. rewrite graft_toks, ins_toks, TB, (unsign_toks _ _ _ US).
      split; [now rewrite <- !app_assoc|]. split; [apply graft_wf; [now apply ins_wf|exact B]|].
      split; [rewrite <- !app_assoc; now apply first_app|].
      intros H. apply graft_call in H. rewrite bin_not_call in H by apply ins_bin. discriminate H.
    + assert (unsign (ETerm t) = None) as US by (cbn [unsign]; now rewrite U).
      rewrite US.
      assert (in_string (first (toks_t t)) = true /\ in_string (final (toks_e a)) = true) as [IS1 IS2].
      { destruct (first (toks_t t)); try discriminate AP;
          try (apply negb_false_iff in AP; apply andb_prop in AP; exact AP);
          try (destruct FT as [t' ->]; discriminate U); try contradiction FT. }
      assert (exists p ps, t = TStr p ps) as (p & ps & ->).
      { destruct (first (toks_t t)); try discriminate IS1; destruct FT as [_ FT]; now apply FT. }
      destruct (str_last_wf a (p :: ps)) as (SW & SL & SE).
      cbn [flat_map app]. rewrite graft_toks, str_last_toks by exact IS2. rewrite TB. cbn [toks_e toks_t].
      split; [now rewrite <- !app_assoc|].
      split; [apply graft_wf; [now rewrite SW|exact B]|].
      split; [rewrite <- !app_assoc; now apply first_app|].
      intros H. apply graft_call, str_last_call in H. exact H.
Qed.

(** The items of a call, the last argument still open. *)
Fixpoint items (cur : option expr) (cs : list citem) : list citem :=
  match cs with
  | [] => match cur with None => [] | Some a => [CArg a] end
  | CWord w :: cs' =>
      match cur with None => [] | Some a => [CArg a] end ++ CWord w :: items None cs'
  | CArg b :: cs' =>
      match cur with
      | None => items (Some b) cs'
      | Some a => let '(pre, c) := merge a b in map CArg pre ++ items (Some c) cs'
      end
  end.

Lemma items_ok : forall cs, forallb wf_c cs = true ->
  (flat_map toks_c (items None cs) = flat_map toks_c cs /\ forallb wf_c (items None cs) = true /\
   all_apart (items None cs) = true /\ (call_start cs = true -> call_start (items None cs) = true)) /\
  (forall a, wf_e a = true -> exists a' out, items (Some a) cs = CArg a' :: out /\
     flat_map toks_c (CArg a' :: out) = toks_e a ++ flat_map toks_c cs /\
     forallb wf_c (CArg a' :: out) = true /\ all_apart (CArg a' :: out) = true /\
     first (toks_e a') = first (toks_e a) /\ (is_call a' = true -> is_call a = true)).
Proof.
  intros cs; induction cs as [|c cs IH]; intros W.
  - split.
    + cbn. repeat split; auto.
    + intros a A. exists a, []. cbn [items flat_map toks_c forallb wf_c all_apart app].
      rewrite A. repeat split; auto.
  - cbn [forallb] in W. apply andb_prop in W. destruct W as [Wc Wcs].
    destruct (IH Wcs) as [(N1 & N2 & N3 & N4) IHs]. destruct c as [w|b].
    + split.
      * cbn [items app flat_map toks_c forallb wf_c all_apart call_start].
        rewrite N1, N2, N3. repeat split; auto.
      * intros a A. exists a, (CWord w :: items None cs).
        cbn [items app flat_map toks_c forallb wf_c]. rewrite N1, N2, A.
        repeat split; auto.
    + cbn [wf_c] in Wc. split.
      * destruct (IHs b Wc) as (a' & out & E & T & F & P & FI & CA).
        cbn [items]. rewrite E. rewrite T.
        split; [reflexivity|]. split; [exact F|]. split; [exact P|].
        cbn [call_start]. intros CS. destruct a' as [| | |[]]; try reflexivity.
        specialize (CA eq_refl). destruct b as [| | |[]]; try discriminate CA. discriminate CS.
      * intros a A. cbn [items]. pose proof (merge_ok a b A Wc) as M.
        destruct (merge a b) as [pre c]. destruct M as (T & WC & M).
        destruct (IHs c WC) as (a' & out & E & T' & F & P & FI & CA).
        destruct pre as [|x [|]]; [| |contradiction M].
        -- destruct M as [M1 M2]. exists a', out. cbn [map app]. split; [exact E|].
           split; [rewrite T'; cbn [flat_map toks_c app] in *; rewrite T; now rewrite <- app_assoc|].
           split; [exact F|]. split; [exact P|]. split; [congruence|auto].
        -- destruct M as (M1 & M2 & M3 & M4). exists x, (CArg a' :: out). cbn [map app]. rewrite E.
           split; [reflexivity|]. split.
           { change (flat_map toks_c (CArg x :: CArg a' :: out)) with (toks_e x ++ flat_map toks_c (CArg a' :: out)).
             rewrite T'. cbn [flat_map toks_c app] in *. rewrite app_nil_r in T.
             rewrite app_assoc, T. now rewrite <- app_assoc. }
           split; [change (wf_e x && forallb wf_c (CArg a' :: out) = true); now rewrite M1, F|].
           split; [|split; [exact M3|exact M4]].
           change (apart x a' && all_apart (CArg a' :: out) = true).
           rewrite P, (apart_first x a' c FI), M2. reflexivity.
Qed.

(** ** Regrouping *)

Fixpoint norm_e (e : expr) : expr :=
  match e with
  | EBin o l r => join (norm_e l) o (norm_e r)
  | EDice n d => EDice (norm_t n) (norm_t d)
  | EDie d => EDie (norm_t d)
  | ETerm t => ETerm (norm_t t)
  end
with norm_t (t : term) : term :=
  match t with
  | TSeq es => TSeq (map norm_l es)
  | TGroup e => TGroup (norm_e e)
  | TCall cs => TCall (items None (map norm_c cs))
  | TUn u t' => TUn u (norm_t t')
  | THash t' => THash (norm_t t')
  | _ => t
  end
with norm_l (x : element) : element :=
  match x with LOne e => LOne (norm_e e) | LRange a b => LRange (norm_e a) (norm_e b) end
with norm_c (c : citem) : citem :=
  match c with CWord w => CWord w | CArg e => CArg (norm_e e) end.

(** What is asked of the given syntax: calls begin as C77 allows. *)
Fixpoint rw_e (e : expr) : bool :=
  match e with
  | EBin _ l r => rw_e l && rw_e r
  | EDice n d => rw_t n && rw_t d
  | EDie d => rw_t d
  | ETerm t => rw_t t
  end
with rw_t (t : term) : bool :=
  match t with
  | TNum _ | TDec _ _ | TVar _ | TStr _ _ => true
  | TSeq es => forallb rw_l es
  | TGroup e => rw_e e
  | TCall cs => call_start cs && forallb rw_c cs
  | TUn _ t | THash t => rw_t t
  end
with rw_l (x : element) : bool :=
  match x with LOne e => rw_e e | LRange a b => rw_e a && rw_e b end
with rw_c (c : citem) : bool :=
  match c with CWord _ => true | CArg e => rw_e e end.

Lemma norm_call : forall e, is_call (norm_e e) = is_call e.
Proof.
  intros e; destruct e as [o l r| | |t]; cbn [norm_e]; try reflexivity.
  - now rewrite bin_not_call by apply join_bin.
  - now destruct t.
Qed.

Theorem norm_ok :
  (forall e, rw_e e = true -> toks_e (norm_e e) = toks_e e /\ wf_e (norm_e e) = true) /\
  (forall t, rw_t t = true -> toks_t (norm_t t) = toks_t t /\ wf_t (norm_t t) = true) /\
  (forall x, rw_l x = true -> toks_l (norm_l x) = toks_l x /\ wf_l (norm_l x) = true) /\
  (forall c, rw_c c = true -> toks_c (norm_c c) = toks_c c /\ wf_c (norm_c c) = true).
Proof.
  apply syn_ind.
  - intros o l r IHl IHr W. cbn [rw_e] in W. splitb. destruct IHl, IHr; try assumption.
    cbn [norm_e]. rewrite join_toks. cbn [toks_e]. split; [congruence|now apply join_wf].
  - intros n d IHn IHd W. cbn [rw_e] in W. splitb. destruct IHn, IHd; try assumption.
    cbn [norm_e toks_e wf_e]. split; [congruence|]. apply andb_true_intro. now split.
  - intros d IHd W. destruct (IHd W). cbn [norm_e toks_e wf_e]. split; [congruence|assumption].
  - intros t IHt W. exact (IHt W).
  - intros s W. now split.
  - intros a b W. now split.
  - intros x W. now split.
  - intros p ps W. now split.
  - intros es F W. cbn [rw_t] in W. cbn [norm_t toks_t wf_t].
    assert (map toks_l (map norm_l es) = map toks_l es /\ forallb wf_l (map norm_l es) = true) as [A B].
    { clear -F W. induction es as [|x es IH]; [now split|].
      inversion F as [|x' es' Fx Fes]; subst. cbn [forallb] in W. apply andb_prop in W. destruct W as [W1 W2].
      destruct (Fx W1), (IH Fes W2). cbn [map forallb]. split; [congruence|]. apply andb_true_intro. now split. }
    rewrite A. now split.
  - intros e IH W. destruct (IH W). cbn [norm_t toks_t wf_t]. split; [congruence|assumption].
  - intros cs F W. cbn [rw_t] in W. apply andb_prop in W. destruct W as [CS W].
    cbn [norm_t toks_t wf_t].
    assert (flat_map toks_c (map norm_c cs) = flat_map toks_c cs /\ forallb wf_c (map norm_c cs) = true) as [A B].
    { clear -F W. induction cs as [|x es IH]; [now split|].
      inversion F as [|x' es' Fx Fes]; subst. cbn [forallb] in W. apply andb_prop in W. destruct W as [W1 W2].
      destruct (Fx W1), (IH Fes W2). cbn [map flat_map forallb]. split; [congruence|]. apply andb_true_intro. now split. }
    destruct (items_ok _ B) as [(N1 & N2 & N3 & N4) _]. rewrite N1, A. split; [reflexivity|].
    rewrite N2, N3, N4; [reflexivity|].
    destruct cs as [|[w|e] cs]; [discriminate CS|reflexivity|]. cbn [map norm_c call_start].
    pose proof (norm_call e) as NC. destruct (norm_e e) as [| | |[]]; try reflexivity.
    destruct e as [| | |[]]; try discriminate NC. discriminate CS.
  - intros u t IH W. destruct (IH W). cbn [norm_t toks_t wf_t]. split; [congruence|assumption].
  - intros t IH W. destruct (IH W). cbn [norm_t toks_t wf_t]. split; [congruence|assumption].
  - intros e IH W. exact (IH W).
  - intros a b IHa IHb W. cbn [rw_l] in W. splitb. destruct IHa, IHb; try assumption.
    cbn [norm_l toks_l wf_l]. split; [congruence|]. apply andb_true_intro. now split.
  - intros w W. now split.
  - intros e IH W. exact (IH W).
Qed.

(** ** Statements *)

Fixpoint norm_s (s : stmt) : stmt :=
  match s with
  | SOutput e => SOutput (norm_e e)
  | SNamed e p ps => SNamed (norm_e e) p ps
  | SFunction h hs body => SFunction h hs (map norm_s body)
  | SLoop x e body => SLoop x (norm_e e) (map norm_s body)
  | SResult e => SResult (norm_e e)
  | SSet p ps v => SSet p ps (norm_e v)
  | SAssign x e => SAssign x (norm_e e)
  | SIf b bs els =>
      SIf (norm_b b) (map norm_b bs) match els with None => None | Some body => Some (map norm_s body) end
  end
with norm_b (b : branch) : branch :=
  match b with Branch c body => Branch (norm_e c) (map norm_s body) end.

Fixpoint rw_s (s : stmt) : bool :=
  match s with
  | SOutput e | SNamed e _ _ | SResult e | SSet _ _ e | SAssign _ e => rw_e e
  | SFunction _ _ body => forallb rw_s body
  | SLoop _ e body => rw_e e && forallb rw_s body
  | SIf b bs els =>
      rw_b b && forallb rw_b bs
      && match els with None => true | Some body => forallb rw_s body end
  end
with rw_b (b : branch) : bool :=
  match b with Branch c body => rw_e c && forallb rw_s body end.

Definition NS (s : stmt) : Prop := rw_s s = true -> toks_s (norm_s s) = toks_s s /\ wf_s (norm_s s) = true.
Definition NB (b : branch) : Prop := rw_b b = true -> toks_b (norm_b b) = toks_b b /\ wf_b (norm_b b) = true.

Lemma norm_body : forall body, Forall NS body -> forallb rw_s body = true ->
  flat_map toks_s (map norm_s body) = flat_map toks_s body /\ forallb wf_s (map norm_s body) = true.
Proof.
  intros body; induction body as [|s body IH]; intros F W; [now split|].
  inversion F as [|x' es' Fx Fes]; subst. cbn [forallb] in W. apply andb_prop in W. destruct W as [W1 W2].
  destruct (Fx W1), (IH Fes W2). cbn [map flat_map forallb]. split; [congruence|]. apply andb_true_intro. now split.
Qed.

Lemma norm_stmts : (forall s, NS s) /\ (forall b, NB b).
Proof.
  destruct norm_ok as [NE _].
  apply stmt_ind2.
  - intros e W. destruct (NE e W). cbn [norm_s toks_s wf_s]. split; [congruence|assumption].
  - intros e p ps W. destruct (NE e W). cbn [norm_s toks_s wf_s]. split; [congruence|assumption].
  - intros h hs body F W. destruct (norm_body body F W). cbn [norm_s toks_s wf_s]. split; [congruence|assumption].
  - intros x e body F W. cbn [rw_s] in W. splitb. destruct (NE e ltac:(assumption)), (norm_body body F ltac:(assumption)).
    cbn [norm_s toks_s wf_s]. split; [congruence|]. apply andb_true_intro. now split.
  - intros e W. destruct (NE e W). cbn [norm_s toks_s wf_s]. split; [congruence|assumption].
  - intros p ps v W. destruct (NE v W). cbn [norm_s toks_s wf_s]. split; [congruence|assumption].
  - intros x e W. destruct (NE e W). cbn [norm_s toks_s wf_s]. split; [congruence|assumption].
  - intros b bs els Nb Nbs Ne W. cbn [rw_s] in W. splitb.
    destruct (Nb ltac:(assumption)) as [B1 B2].
    assert (flat_map (fun b => kwt kElse :: kwt kIf :: toks_b b) (map norm_b bs)
            = flat_map (fun b => kwt kElse :: kwt kIf :: toks_b b) bs /\ forallb wf_b (map norm_b bs) = true) as [C1 C2].
    { match goal with H : forallb rw_b bs = true |- _ => revert H end. clear -Nbs.
      induction bs as [|x es IH]; intros W; [now split|].
      inversion Nbs as [|x' es' Fx Fes]; subst. cbn [forallb] in W. apply andb_prop in W. destruct W as [W1 W2].
      destruct (Fx W1) as [X1 X2], (IH Fes W2) as [Y1 Y2]. cbn [map flat_map forallb]. split.
      - rewrite X1, Y1. reflexivity.
      - apply andb_true_intro. now split. }
    cbn [norm_s toks_s wf_s]. rewrite B1, C1, B2, C2.
    destruct els as [body|]; [|now split].
    destruct (norm_body body Ne ltac:(assumption)) as [D1 D2]. rewrite D1, D2. now split.
  - intros c body F W. cbn [rw_b] in W. splitb. destruct (NE c ltac:(assumption)), (norm_body body F ltac:(assumption)).
    cbn [norm_b toks_b wf_b]. split; [congruence|]. apply andb_true_intro. now split.
Qed.

Definition rw (p : program) : bool := forallb rw_s p.

Theorem norm_program : forall p, rw p = true ->
  toks (map norm_s p) = toks p /\ wf (map norm_s p) = true.
Proof.
  intros p W. apply norm_body; [|exact W]. clear. induction p; constructor; [apply norm_stmts|assumption].
Qed.
