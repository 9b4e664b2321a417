(** The engine of ParseModel.v run on the computed tables: the stack always
    spells a path of the automaton, reductions find their right-hand side on it,
    and the parser stops within [parse_fuel] steps. *)
From Coq Require Import String Bool List Arith Lia.
From Verif Require Import PyBase LexModel GramModel ParseModel.
Import ListNotations.
Open Scope list_scope.

Lemma tables_eq : tables = build_tables.
Proof. vm_compute. reflexivity. Qed.

Definition nstates : nat := Eval vm_compute in length tables.

(** ** Transitions *)

Definition trans (q : nat) (x : sym) : option nat :=
  match x with
  | T t => match action_at q t with Some (Shift j) => Some j | _ => None end
  | N n => assoc_nt n (goto_row q)
  end.

(** All transitions out of a state. *)
Definition outs (q : nat) : list (sym * nat) :=
  flat_map (fun '(t, a) => match a with Shift j => [(T t, j)] | _ => [] end) (act_row q)
  ++ map (fun '(n, j) => (N n, j)) (goto_row q).

Definition all_states : list nat := seq 0 nstates.

Definition edges : list (nat * (sym * nat)) :=
  Eval vm_compute in flat_map (fun q => map (fun o => (q, o)) (outs q)) all_states.

(** The symbol by which a state is entered. *)
Definition acc_table : list sym :=
  Eval vm_compute in
    map (fun q => match find (fun '(_, (_, j)) => Nat.eqb j q) edges with
                  | Some (_, (x, _)) => x
                  | None => N nStart
                  end) all_states.
Definition acc (q : nat) : sym := nth q acc_table (N nStart).

Definition preds_table : list (list nat) :=
  Eval vm_compute in
    map (fun q => map fst (filter (fun '(_, (_, j)) => Nat.eqb j q) edges)) all_states.
Definition preds (q : nat) : list nat := nth q preds_table [].

Lemma tt_eqb_eq : forall a b, tt_eqb a b = true <-> a = b.
Proof.
  intros a b; split; [|intros ->; destruct b; reflexivity].
  destruct a, b; intros H; try reflexivity; vm_compute in H; discriminate H.
Qed.

Lemma nt_eqb_eq : forall a b, nt_eqb a b = true <-> a = b.
Proof.
  intros a b; split; [|intros ->; destruct b; reflexivity].
  destruct a, b; intros H; try reflexivity; vm_compute in H; discriminate H.
Qed.

Lemma sym_eqb_eq : forall a b, sym_eqb a b = true <-> a = b.
Proof.
  intros [t|n] [t'|n']; cbn [sym_eqb]; split; intros H; try discriminate H.
  - apply tt_eqb_eq in H. now subst.
  - injection H as ->. now apply tt_eqb_eq.
  - apply nt_eqb_eq in H. now subst.
  - injection H as ->. now apply nt_eqb_eq.
Qed.

Lemma get_act_in : forall t r a, get_act t r = Some a -> In (t, a) r.
Proof.
  intros t r a; induction r as [|[t' b] r IH]; cbn [get_act]; [discriminate|].
  destruct (tt_eqb t t') eqn:E; intros H.
  - apply tt_eqb_eq in E. subst. injection H as ->. now left.
  - right. now apply IH.
Qed.

Lemma assoc_nt_in : forall n r j, assoc_nt n r = Some j -> In (n, j) r.
Proof.
  intros n r j; induction r as [|[m b] r IH]; cbn [assoc_nt]; [discriminate|].
  destruct (nt_eqb n m) eqn:E; intros H.
  - apply nt_eqb_eq in E. subst. injection H as ->. now left.
  - right. now apply IH.
Qed.

Lemma action_in : forall q t a, action_at q t = Some a -> exists t', In (t', a) (act_row q).
Proof.
  intros q t a. unfold action_at. destruct (default_red (act_row q)) eqn:D.
  - intros H. injection H as <-. unfold default_red in D.
    destruct (act_row q) as [|[t' [j|p|]] [|? ?]]; try discriminate D.
    injection D as ->. exists t'. now left.
  - intros H. exists t. now apply get_act_in.
Qed.

Lemma action_shift_in : forall q t j, action_at q t = Some (Shift j) -> In (t, Shift j) (act_row q).
Proof.
  intros q t j. unfold action_at. destruct (default_red (act_row q)) eqn:D; [discriminate|].
  apply get_act_in.
Qed.

Lemma row_dom : forall q, act_row q <> [] -> q < nstates.
Proof.
  intros q H. destruct (le_lt_dec nstates q) as [L|L]; [|exact L].
  exfalso. apply H. unfold act_row. rewrite nth_overflow; [reflexivity|exact L].
Qed.

Lemma goto_dom : forall q, goto_row q <> [] -> q < nstates.
Proof.
  intros q H. destruct (le_lt_dec nstates q) as [L|L]; [|exact L].
  exfalso. apply H. unfold goto_row. rewrite nth_overflow; [reflexivity|exact L].
Qed.

Lemma for_states : forall (f : nat -> bool), forallb f all_states = true ->
  forall q, q < nstates -> f q = true.
Proof.
  intros f H q L. rewrite forallb_forall in H. apply H. apply in_seq. lia.
Qed.

Definition edge_ok (q : nat) : bool :=
  forallb (fun '(x, j) => sym_eqb (acc j) x && existsb (Nat.eqb q) (preds j)
                          && Nat.ltb 0 j) (outs q).

Lemma edges_ok : forallb edge_ok all_states = true.
Proof. vm_compute. reflexivity. Qed.

Lemma trans_ok : forall q x j, trans q x = Some j -> acc j = x /\ In q (preds j) /\ 0 < j.
Proof.
  intros q x j H.
  assert (In (x, j) (outs q) /\ q < nstates) as [I L].
  { unfold outs. destruct x as [t|n]; cbn [trans] in H.
    - destruct (action_at q t) as [[k|p|]|] eqn:A; try discriminate H. injection H as ->.
      apply action_shift_in in A. split.
      + apply in_or_app. left. apply in_flat_map. exists (t, Shift j). split; [exact A|now left].
      + apply row_dom. intros E. rewrite E in A. exact A.
    - apply assoc_nt_in in H. split.
      + apply in_or_app. right. apply in_map_iff. exists (n, j). split; [reflexivity|exact H].
      + apply goto_dom. intros E. rewrite E in H. exact H. }
  pose proof (for_states _ edges_ok q L) as F. unfold edge_ok in F.
  rewrite forallb_forall in F. specialize (F _ I). cbn beta iota in F.
  apply andb_prop in F. destruct F as [F Z]. apply andb_prop in F. destruct F as [F G].
  split; [now apply sym_eqb_eq|]. split.
  - apply existsb_exists in G. destruct G as (q' & G & E). apply Nat.eqb_eq in E. now subst.
  - now apply Nat.ltb_lt in Z.
Qed.

(** ** Stacks that spell a path *)

Inductive path : stack -> Prop :=
| path_nil : path []
| path_cons : forall q v s x, path s -> trans (top_state s) x = Some q -> path ((q, v) :: s).

Fixpoint check_back (lhs : nt) (xs : list sym) (qs : list nat) : bool :=
  match xs with
  | [] => forallb (fun q => match assoc_nt lhs (goto_row q) with Some _ => true | None => false end) qs
  | x :: xs' =>
      forallb (fun q => Nat.ltb 0 q && sym_eqb (acc q) x) qs
      && check_back lhs xs' (nodup Nat.eq_dec (flat_map preds qs))
  end.

Definition red_ok (q : nat) : bool :=
  forallb (fun '(_, a) => match a with
                          | Reduce p => Nat.ltb 0 p && Nat.ltb p (length prods) &&
                              check_back (p_lhs (nprod p)) (rev (p_rhs (nprod p))) [q]
                          | Accept => sym_eqb (acc q) (N nMulti) && forallb (Nat.eqb 0) (preds q)
                          | _ => true
                          end) (act_row q).

Lemma reds_ok : forallb red_ok all_states = true.
Proof. vm_compute. reflexivity. Qed.

Lemma back : forall lhs xs qs s, check_back lhs xs qs = true -> path s -> In (top_state s) qs ->
  length xs <= length s /\
  map (fun e => acc (fst e)) (firstn (length xs) s) = xs /\
  exists j, assoc_nt lhs (goto_row (top_state (skipn (length xs) s))) = Some j.
Proof.
  intros lhs xs; induction xs as [|x xs IH]; intros qs s C P I; cbn [check_back] in C.
  - cbn [length firstn skipn map]. split; [lia|]. split; [reflexivity|].
    rewrite forallb_forall in C. specialize (C _ I).
    destruct (assoc_nt lhs (goto_row (top_state s))) as [j|]; [now exists j|discriminate C].
  - apply andb_prop in C. destruct C as [C D].
    rewrite forallb_forall in C. specialize (C _ I).
    apply andb_prop in C. destruct C as [Z A]. apply Nat.ltb_lt in Z. apply sym_eqb_eq in A.
    inversion P as [|q v s' y P' T E]; subst; [cbn in Z; lia|].
    cbn [top_state] in *. pose proof (trans_ok _ _ _ T) as (_ & IP & _).
    destruct (IH _ s' D P') as (L & M & j & J).
    { apply nodup_In. apply in_flat_map. exists q. split; [exact I|exact IP]. }
    cbn [length firstn skipn map fst]. split; [lia|]. split; [now rewrite M|]. now exists j.
Qed.

Lemma reduce_ok : forall s t p, path s -> action_at (top_state s) t = Some (Reduce p) ->
  let pr := nprod p in
  let n := length (p_rhs pr) in
  0 < p < length prods /\ n <= length s /\
  map (fun e => acc (fst e)) (rev (firstn n s)) = p_rhs pr /\
  exists j, assoc_nt (p_lhs pr) (goto_row (top_state (skipn n s))) = Some j.
Proof.
  intros s t p P A pr n. apply action_in in A. destruct A as [t' A].
  assert (top_state s < nstates) as L by (apply row_dom; intros E; rewrite E in A; exact A).
  pose proof (for_states _ reds_ok _ L) as F. unfold red_ok in F. rewrite forallb_forall in F.
  specialize (F _ A). cbn beta iota in F.
  apply andb_prop in F. destruct F as [F C]. apply andb_prop in F. destruct F as [F1 F2].
  apply Nat.ltb_lt in F1. apply Nat.ltb_lt in F2.
  destruct (back _ _ _ s C P (or_introl eq_refl)) as (B1 & B2 & B3).
  rewrite rev_length in B1, B2, B3. fold pr n in B1, B2, B3.
  split; [split; assumption|]. split; [exact B1|]. split; [|exact B3].
  rewrite map_rev, B2. apply rev_involutive.
Qed.

Lemma accept_ok : forall s t, path s -> action_at (top_state s) t = Some Accept ->
  exists q v, s = [(q, v)] /\ acc q = N nMulti.
Proof.
  intros s t P A. apply action_in in A. destruct A as [t' A].
  assert (top_state s < nstates) as L by (apply row_dom; intros E; rewrite E in A; exact A).
  pose proof (for_states _ reds_ok _ L) as F. unfold red_ok in F. rewrite forallb_forall in F.
  specialize (F _ A). cbn beta iota in F. apply andb_prop in F. destruct F as [F G].
  apply sym_eqb_eq in F. rewrite forallb_forall in G.
  inversion P as [|q v s' x P' T E]; subst.
  - exfalso. cbn in F. vm_compute in F. discriminate F.
  - cbn [top_state] in *. exists q, v. split; [|exact F].
    pose proof (trans_ok _ _ _ T) as (_ & IP & _).
    specialize (G _ IP). apply Nat.eqb_eq in G.
    inversion P' as [|q' v' s'' x' P'' T' E']; subst; [reflexivity|].
    cbn [top_state] in G. pose proof (trans_ok _ _ _ T') as (_ & _ & Z). lia.
Qed.

(** Paths are kept by every step. *)
Lemma path_skipn : forall n s, path s -> path (skipn n s).
Proof.
  intros n; induction n as [|n IH]; intros s P; [exact P|].
  destruct s as [|e s]; [exact P|]. cbn [skipn]. apply IH. now inversion P.
Qed.

Lemma step_path : forall s ts s' ts', path s -> parse_step s ts = Go s' ts' -> path s'.
Proof.
  intros s ts s' ts' P H. unfold parse_step in H.
  destruct (action_at (top_state s) (la ts)) as [[j|p|]|] eqn:A; try discriminate H.
  - destruct ts as [|[t v] ts0]; [discriminate H|]. injection H as <- <-.
    apply (path_cons _ _ _ (T t)); [exact P|]. cbn [trans]. cbn [la] in A. now rewrite A.
  - unfold do_reduce in H.
    destruct (semact _ _) as [v|e]; [|discriminate H].
    destruct (assoc_nt _ _) as [j|] eqn:G; [|discriminate H]. injection H as <- <-.
    apply (path_cons _ _ _ (N (p_lhs (nprod p)))); [now apply path_skipn|exact G].
Qed.

(** ** Termination *)

Definition weight_sym (x : sym) : nat :=
  match x with
  | T _ => 6
  | N n => match n with
           | nStart | nMulti | nElements | nCall | nFuncname => 1
           | nSingle | nElement => 2
           | nEmpty | nExpr | nIf | nElse | nElif | nRange => 3
           | nTerm => 4
           | nVar | nString => 5
           end
  end.

Definition weight (q : nat) : nat := weight_sym (acc q).

(** Reductions of an empty right-hand side happen only right after a token. *)
Definition eps (q : nat) : nat :=
  if existsb (fun '(_, a) => match a with
                             | Reduce p => match p_rhs (nprod p) with [] => true | _ => false end
                             | _ => false end) (act_row q) then 4 else 0.

Definition potential (s : stack) (ts : list tok) : nat :=
  list_sum (map (fun e => weight (fst e)) s) + eps (top_state s) + 11 * length ts.

Definition prod_ok (p : prod) : bool :=
  match p_rhs p with
  | [] => Nat.ltb (weight_sym (N (p_lhs p))) 4
  | xs => Nat.ltb (weight_sym (N (p_lhs p))) (list_sum (map weight_sym xs))
  end.

Lemma prods_ok : forallb prod_ok (tl prods) = true.
Proof. vm_compute. reflexivity. Qed.

Definition goto_eps_ok (q : nat) : bool := forallb (fun '(_, j) => Nat.eqb (eps j) 0) (goto_row q).

Lemma gotos_eps_ok : forallb goto_eps_ok all_states = true.
Proof. vm_compute. reflexivity. Qed.

Lemma eps_le : forall q, eps q <= 4.
Proof. intros q. unfold eps. destruct (existsb _ _); lia. Qed.

Lemma goto_eps : forall q n j, assoc_nt n (goto_row q) = Some j -> eps j = 0.
Proof.
  intros q n j H. apply assoc_nt_in in H.
  assert (q < nstates) as L by (apply goto_dom; intros E; rewrite E in H; exact H).
  pose proof (for_states _ gotos_eps_ok _ L) as F. unfold goto_eps_ok in F.
  rewrite forallb_forall in F. specialize (F _ H). cbn beta iota in F. now apply Nat.eqb_eq in F.
Qed.

Lemma list_sum_rev : forall l, list_sum (rev l) = list_sum l.
Proof.
  intros l; induction l as [|x l IH]; [reflexivity|].
  cbn [rev]. rewrite list_sum_app, IH. change (list_sum l + (x + 0) = x + list_sum l). lia.
Qed.

Lemma step_potential : forall s ts s' ts', path s -> parse_step s ts = Go s' ts' ->
  potential s' ts' < potential s ts.
Proof.
  intros s ts s' ts' P H. unfold parse_step in H.
  destruct (action_at (top_state s) (la ts)) as [[j|p|]|] eqn:A; try discriminate H.
  - destruct ts as [|[t v] ts0]; [discriminate H|]. injection H as <- <-.
    assert (trans (top_state s) (T t) = Some j) as TR by (cbn [trans]; cbn [la] in A; now rewrite A).
    apply trans_ok in TR. destruct TR as (AC & _).
    unfold potential. cbn [map fst top_state length]. unfold weight at 1. rewrite AC.
    cbn [weight_sym]. unfold list_sum. cbn [fold_right]. pose proof (eps_le j). lia.
  - pose proof (reduce_ok _ _ _ P A) as R. cbv zeta in R. destruct R as (PB & LE & M & _).
    unfold do_reduce in H.
    destruct (semact _ _) as [v|e]; [|discriminate H].
    destruct (assoc_nt _ _) as [j|] eqn:G; [|discriminate H]. injection H as <- <-.
    pose proof (goto_eps _ _ _ G) as E0.
    assert (acc j = N (p_lhs (nprod p))) as AC by (apply (trans_ok (top_state (skipn (length (p_rhs (nprod p))) s)) (N (p_lhs (nprod p))) j); exact G).
    unfold potential. cbn [map fst top_state]. rewrite E0.
    unfold weight at 1. rewrite AC.
    rewrite <- (firstn_skipn (length (p_rhs (nprod p))) s) at 2.
    rewrite map_app, list_sum_app.
    assert (list_sum (map (fun e => weight (fst e)) (firstn (length (p_rhs (nprod p))) s))
            = list_sum (map weight_sym (p_rhs (nprod p)))) as W.
    { rewrite <- M at 2. rewrite map_map. rewrite map_rev. rewrite list_sum_rev. reflexivity. }
    rewrite W.
    assert (prod_ok (nprod p) = true) as PO.
    { pose proof prods_ok as F. rewrite forallb_forall in F. apply F.
      unfold nprod. destruct prods as [|p0 ps] eqn:EP; [discriminate EP|].
      destruct p as [|p]; [lia|]. cbn [nth tl]. apply nth_In. cbn [length] in PB. lia. }
    unfold prod_ok in PO.
    destruct (p_rhs (nprod p)) as [|x xs] eqn:EX.
    + apply Nat.ltb_lt in PO.
      assert (eps (top_state s) = 4) as E4.
      { unfold eps. apply action_in in A. destruct A as [t' A].
        assert (existsb (fun '(_, a) => match a with
                             | Reduce p => match p_rhs (nprod p) with [] => true | _ => false end
                             | _ => false end) (act_row (top_state s)) = true) as ->; [|reflexivity].
        apply existsb_exists. exists (t', Reduce p). split; [exact A|]. now rewrite EX. }
      rewrite E4. cbn [length skipn]. unfold list_sum. cbn [map fold_right]. lia.
    + apply Nat.ltb_lt in PO. unfold list_sum in *. cbn [map fold_right] in *. lia.
Qed.

Lemma run_stops : forall fuel s ts, path s -> potential s ts < fuel ->
  exists r, parse_run fuel s ts = Some r.
Proof.
  intros fuel; induction fuel as [|fuel IH]; intros s ts P L; [lia|].
  cbn [parse_run]. destruct (parse_step s ts) as [s' ts'|r] eqn:S.
  - apply IH; [now apply (step_path s ts s' ts')|].
    pose proof (step_potential _ _ _ _ P S). lia.
  - now exists r.
Qed.

Theorem parse_stops : forall ts, exists r, parse_run (parse_fuel ts) [] ts = Some r.
Proof.
  intros ts. apply run_stops; [exact path_nil|].
  unfold potential, parse_fuel. pose proof (eps_le (top_state [])). cbn [map]. unfold list_sum. cbn [fold_right].
  lia.
Qed.

Lemma run_more : forall f g s ts r, f <= g -> parse_run f s ts = Some r -> parse_run g s ts = Some r.
Proof.
  intros f; induction f as [|f IH]; intros g s ts r L H; [discriminate H|].
  destruct g as [|g]; [lia|]. cbn [parse_run] in *.
  destruct (parse_step s ts) as [s' ts'|r']; [|exact H]. apply IH; [lia|exact H].
Qed.

(** ** Runs *)

Inductive run : stack -> list tok -> stack -> list tok -> Prop :=
| run_refl : forall s ts, run s ts s ts
| run_step : forall s ts s1 ts1 s2 ts2,
    parse_step s ts = Go s1 ts1 -> run s1 ts1 s2 ts2 -> run s ts s2 ts2.

Lemma run_trans : forall s ts s1 ts1 s2 ts2, run s ts s1 ts1 -> run s1 ts1 s2 ts2 -> run s ts s2 ts2.
Proof.
  intros s ts s1 ts1 s2 ts2 R; induction R as [|s ts a b c d S R IH]; intros R2; [exact R2|].
  apply (run_step _ _ a b); [exact S|]. now apply IH.
Qed.

Lemma run_one : forall s ts s1 ts1, parse_step s ts = Go s1 ts1 -> run s ts s1 ts1.
Proof. intros s ts s1 ts1 S. apply (run_step _ _ s1 ts1); [exact S|apply run_refl]. Qed.

Lemma run_path : forall s ts s1 ts1, run s ts s1 ts1 -> path s -> path s1.
Proof.
  intros s ts s1 ts1 R; induction R as [|s ts a b c d S R IH]; intros P; [exact P|].
  apply IH. now apply (step_path s ts a b).
Qed.

Lemma run_done : forall s ts s1 ts1 r, run s ts s1 ts1 -> parse_step s1 ts1 = Done r ->
  exists f, parse_run f s ts = Some r.
Proof.
  intros s ts s1 ts1 r R D; induction R as [s ts|s ts a b c d ST R IH].
  - exists 1. cbn [parse_run]. now rewrite D.
  - destruct (IH D) as [f F]. exists (S f). cbn [parse_run]. now rewrite ST.
Qed.

Lemma parse_run_fuel : forall f ts r, parse_run f [] ts = Some r -> parse ts = r.
Proof.
  intros f ts r H. unfold parse. destruct (parse_stops ts) as [r' H']. rewrite H'.
  pose proof (run_more f (Nat.max f (parse_fuel ts)) [] ts r ltac:(lia) H) as A.
  pose proof (run_more (parse_fuel ts) (Nat.max f (parse_fuel ts)) [] ts r' ltac:(lia) H') as B.
  congruence.
Qed.

Lemma parse_done : forall ts s ts1 r, run [] ts s ts1 -> parse_step s ts1 = Done r -> parse ts = r.
Proof.
  intros ts s ts1 r R D. destruct (run_done _ _ _ _ _ R D) as [f F]. now apply (parse_run_fuel f).
Qed.

Lemma run_of_fuel : forall f s ts r, parse_run f s ts = Some r ->
  exists s1 ts1, run s ts s1 ts1 /\ parse_step s1 ts1 = Done r.
Proof.
  intros f; induction f as [|f IH]; intros s ts r H; [discriminate H|].
  cbn [parse_run] in H. destruct (parse_step s ts) as [s' ts'|r'] eqn:S.
  - destruct (IH _ _ _ H) as (s1 & ts1 & R & D). exists s1, ts1. split; [|exact D].
    now apply (run_step _ _ s' ts').
  - injection H as ->. exists s, ts. split; [apply run_refl|exact S].
Qed.

Lemma parse_inv : forall ts, exists s1 ts1, run [] ts s1 ts1 /\ parse_step s1 ts1 = Done (parse ts).
Proof.
  intros ts. destruct (parse_stops ts) as [r H]. pose proof (parse_run_fuel _ _ _ H) as E.
  rewrite E. now apply (run_of_fuel (parse_fuel ts)).
Qed.

(** ** Invariants of the values of symbols *)

Section invariant.
  Variable I : sym -> list tok -> sval -> Prop.
  Hypothesis I_tok : forall t v, I (T t) [(t, v)] (VStr v).

  Definition args_ok (xs : list sym) (tss : list (list tok)) (vs : list sval) : Prop :=
    Forall2 (fun x tv => I x (fst tv) (snd tv)) xs (combine tss vs) /\ length tss = length vs.

  Hypothesis I_prod : forall p tss vs v, 0 < p < length prods ->
    Forall2 (fun x tv => I x (fst tv) (snd tv)) (p_rhs (nprod p)) (combine tss vs) ->
    length tss = length vs ->
    semact (p_fun (nprod p)) vs = Ok v -> I (N (p_lhs (nprod p))) (concat tss) v.

  (** [holds s used]: the stack, bottom to top, spells [used]. *)
  Inductive holds : stack -> list tok -> Prop :=
  | holds_nil : holds [] []
  | holds_cons : forall q v s u w, holds s u -> I (acc q) w v -> holds ((q, v) :: s) (u ++ w).

  Lemma holds_split : forall n s u, holds s u -> n <= length s ->
    exists u0 tss, holds (skipn n s) u0 /\ u = u0 ++ concat tss /\
      length tss = n /\
      Forall2 (fun x tv => I x (fst tv) (snd tv))
        (map (fun e => acc (fst e)) (rev (firstn n s)))
        (combine tss (rev (map snd (firstn n s)))).
  Proof.
    intros n; induction n as [|n IH]; intros s u H L.
    - exists u, []. cbn [skipn firstn concat map rev combine]. rewrite app_nil_r.
      split; [exact H|]. split; [reflexivity|]. split; [reflexivity|constructor].
    - inversion H as [|q v s' u' w H' Iw]; subst; [cbn in L; lia|].
      cbn [length] in L. destruct (IH s' u' H' ltac:(lia)) as (u0 & tss & A & B & C & D).
      exists u0, (tss ++ [w]). cbn [skipn firstn]. split; [exact A|]. split.
      + rewrite concat_app, B. cbn [concat]. now rewrite app_nil_r, app_assoc.
      + split; [rewrite app_length, C; cbn [length]; lia|].
        cbn [map rev]. rewrite map_app.
        assert (length tss = length (rev (map snd (firstn n s')))) as LE.
        { rewrite rev_length, map_length, firstn_length, C. lia. }
        assert (forall (X Y : list (list tok)) (P Q : list sval), length X = length P ->
          combine (X ++ Y) (P ++ Q) = combine X P ++ combine Y Q) as CA.
        { intros X; induction X as [|x X IHX]; intros Y [|p P] Q E; cbn in E; try discriminate E; [reflexivity|].
          cbn [app combine]. f_equal. apply IHX. now injection E. }
        rewrite CA by exact LE.
        apply Forall2_app; [exact D|]. cbn [map combine fst snd]. constructor; [exact Iw|constructor].
  Qed.

  Lemma step_holds : forall s ts s' ts' u, path s -> holds s u -> parse_step s ts = Go s' ts' ->
    exists u', holds s' u' /\ u' ++ ts' = u ++ ts.
  Proof.
    intros s ts s' ts' u P H S. unfold parse_step in S.
    destruct (action_at (top_state s) (la ts)) as [[j|p|]|] eqn:A; try discriminate S.
    - destruct ts as [|[t v] ts0]; [discriminate S|]. injection S as <- <-.
      exists (u ++ [(t, v)]). split; [|now rewrite <- app_assoc].
      apply holds_cons; [exact H|].
      assert (trans (top_state s) (T t) = Some j) as TR by (cbn [trans]; cbn [la] in A; now rewrite A).
      apply trans_ok in TR. destruct TR as (-> & _). apply I_tok.
    - pose proof (reduce_ok _ _ _ P A) as R. cbv zeta in R. destruct R as (PB & LE & M & _).
      unfold do_reduce in S.
      destruct (semact _ _) as [v|e] eqn:SA; [|discriminate S].
      destruct (assoc_nt _ _) as [j|] eqn:G; [|discriminate S]. injection S as <- <-.
      destruct (holds_split _ _ _ H LE) as (u0 & tss & A1 & A2 & A3 & A4).
      exists u. split; [|reflexivity]. rewrite A2.
      apply holds_cons; [exact A1|].
      assert (acc j = N (p_lhs (nprod p))) as -> by (apply (trans_ok (top_state (skipn (length (p_rhs (nprod p))) s)) (N (p_lhs (nprod p))) j); exact G).
      rewrite M in A4.
      apply (I_prod p tss (rev (map snd (firstn (length (p_rhs (nprod p))) s))) v PB A4);
        [|exact SA].
      rewrite rev_length, map_length, firstn_length, A3. lia.
  Qed.

  Lemma run_holds : forall s ts s' ts', run s ts s' ts' -> forall u, path s -> holds s u ->
    exists u', path s' /\ holds s' u' /\ u' ++ ts' = u ++ ts.
  Proof.
    intros s ts s' ts' R; induction R as [s ts|s ts a b c d S R IH]; intros u P H.
    - exists u. split; [exact P|]. split; [exact H|reflexivity].
    - destruct (step_holds _ _ _ _ _ P H S) as (u1 & H1 & E1).
      destruct (IH u1 (step_path _ _ _ _ P S) H1) as (u2 & P2 & H2 & E2).
      exists u2. split; [exact P2|]. split; [exact H2|]. congruence.
  Qed.

  (** What the parser accepts satisfies the invariant; what it rejects is a
      syntax error, or a grammar action failed on values that satisfy it. *)
  Theorem parse_sound : forall ts, ~ In tEnd (map fst ts) ->
    match parse ts with
    | Ok v => I (N nMulti) ts v
    | Err e => e = AssertErr \/
        exists p tss vs, 0 < p < length prods /\
          Forall2 (fun x tv => I x (fst tv) (snd tv)) (p_rhs (nprod p)) (combine tss vs) /\
          length tss = length vs /\
          (exists s0 pre post, ts = pre ++ concat tss ++ post /\ path s0 /\ holds s0 pre /\
             (exists j, assoc_nt (p_lhs (nprod p)) (goto_row (top_state s0)) = Some j) /\
             (p_rhs (nprod p) = [] -> action_at (top_state s0) (la post) = Some (Reduce p))) /\
          semact (p_fun (nprod p)) vs = Err e
    end.
  Proof.
    intros ts NE. destruct (parse_inv ts) as (s & ts1 & R & D).
    destruct (run_holds _ _ _ _ R [] path_nil holds_nil) as (u & P & H & E). cbn [app] in E.
    unfold parse_step in D.
    destruct (action_at (top_state s) (la ts1)) as [[j|p|]|] eqn:A.
    - destruct ts1 as [|[t v] ts1]; [|discriminate D]. exfalso. cbn [la] in A.
      apply action_shift_in in A.
      assert (forallb (fun q => forallb (fun '(t, a) => match a with
                  | Shift _ => negb (tt_eqb t tEnd) | _ => true end) (act_row q)) all_states = true) as NS
        by (vm_compute; reflexivity).
      assert (top_state s < nstates) as L by (apply row_dom; intros E0; rewrite E0 in A; exact A).
      pose proof (for_states _ NS _ L) as F. cbv beta in F. rewrite forallb_forall in F.
      specialize (F _ A). vm_compute in F. discriminate F.
    - pose proof (reduce_ok _ _ _ P A) as RO. cbv zeta in RO. destruct RO as (PB & LE & M & j & G).
      unfold do_reduce in D.
      destruct (semact _ _) as [v|e] eqn:SA.
      + rewrite G in D. discriminate D.
      + injection D as D. rewrite <- D. right.
        destruct (holds_split _ _ _ H LE) as (u0 & tss & A1 & A2 & A3 & A4). rewrite M in A4.
        exists p, tss, (rev (map snd (firstn (length (p_rhs (nprod p))) s))).
        split; [exact PB|]. split; [exact A4|]. split; [rewrite rev_length, map_length, firstn_length, A3; lia|].
        split; [|exact SA]. exists (skipn (length (p_rhs (nprod p))) s), u0, ts1.
        split; [rewrite <- E, A2; now rewrite <- app_assoc|].
        split; [now apply path_skipn|]. split; [exact A1|]. split; [now exists j|].
        intros Z. rewrite Z. exact A.
    - destruct (accept_ok _ _ P A) as (q & v & -> & AC). injection D as D. rewrite <- D.
      inversion H as [|q' v' s' u' w H' Iw]; subst. inversion H'; subst. cbn [app] in *.
      rewrite AC in Iw.
      assert (ts1 = []) as ->; [|now rewrite app_nil_r].
      cbn [top_state] in A.
      destruct ts1 as [|[t x] ts1]; [reflexivity|]. exfalso. cbn [la] in A.
      assert (t = tEnd) as ->.
      { unfold action_at in A. destruct (default_red (act_row q)); [discriminate A|].
        apply get_act_in in A.
        assert (q < nstates) as L by (apply row_dom; intros E0; rewrite E0 in A; exact A).
        assert (forallb (fun q => forallb (fun '(t, a) => match a with
                  | Accept => tt_eqb t tEnd | _ => true end) (act_row q)) all_states = true) as NS
          by (vm_compute; reflexivity).
        pose proof (for_states _ NS _ L) as F. cbv beta in F. rewrite forallb_forall in F.
        specialize (F _ A). now apply tt_eqb_eq. }
      apply NE. rewrite map_app. apply in_or_app. right. now left.
    - injection D as D. rewrite <- D. now left.
  Qed.
End invariant.
