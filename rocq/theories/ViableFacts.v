(** Every stack of the parser can be completed: what has been shifted so far begins a
    program.  The completions are found once for each state of the automaton. *)
From Coq Require Import String Bool List Arith Lia.
From Verif Require Import PyBase LexModel LexSpec LexFacts GramModel ParseModel LrFacts SynSpec SynInd ExprParse ExprParse2 StmtParse SynNorm ParseSound.
Import ListNotations.
Open Scope list_scope.

(** ** Short texts of symbols *)

Definition text_of (t : tt) : string :=
  match fixed_text t with
  | Some x => x
  | None =>
      match t with
      | tLOWERNAME => "f" | tUPPERNAME => "X" | tNUMBER => "1" | tINSTRING_ANY => "x"
      | tINSTRING_NONVAR => "[" | tINSTRING_VAR => "[X]" | _ => ""
      end
  end%string.
Definition tk (t : tt) : tok := (t, text_of t).
Definition yield (x : sym) : list tok :=
  match x with
  | T t => [tk t]
  | N n =>
      match n with
      | nStart | nMulti | nEmpty => []
      | nSingle => [tk tOUTPUT; tk tNUMBER]
      | nIf => [tk tIF; tk tNUMBER; tk tLBRACE; tk tRBRACE]
      | nElse => [tk tELSE; tk tLBRACE; tk tRBRACE]
      | nElif => [tk tELSE; tk tIF; tk tNUMBER; tk tLBRACE; tk tRBRACE]
      | nVar => [tk tUPPERNAME]
      | nString => [tk tINSTRING_ANY]
      | nFuncname | nCall => [tk tLOWERNAME]
      | nExpr | nTerm | nElements | nElement => [tk tNUMBER]
      | nRange => [tk tNUMBER; tk tDOUBLE_DOT; tk tNUMBER]
      end
  end.

(** ** A plan for each state *)

(** Of the rules under way in a state, one to be finished: how much of it is there,
    what is missing, and what it makes. *)
Definition score (it : item) : nat :=
  let '(p, d, r) := it in
  if Nat.eqb p 0 then 0
  else
    let y := List.length (flat_map yield r) in
    if Nat.leb 2 d then y
    else match p_rhs (nprod p) with
         | x :: _ => if sym_eqb x (N (p_lhs (nprod p))) then 200 + y else 100 + y
         | [] => 300
         end.
Definition kernel (q : nat) : list item :=
  filter (fun it : item => let '(_, d, _) := it in negb (Nat.eqb d 0)) (st_items (nth q build_states empty_state)).
Definition best (l : list item) : option item :=
  fold_left (fun b it => match b with
                         | None => Some it
                         | Some x => if Nat.ltb (score it) (score x) then Some it else b
                         end) l None.
Definition plan : Set := nat * list tok * nt.
Definition plans : list (option plan) := Eval vm_compute in
  map (fun q => match best (kernel q) with
                | Some (p, d, r) => if Nat.eqb p 0 then None else Some (d, flat_map yield r, p_lhs (nprod p))
                | None => None
                end) all_states.
Definition plan_at (q : nat) : option plan := nth q plans None.

(** The argument at the start of a call, and the call: an argument that is just a call
    must be made longer first. *)
Definition qARG : nat := Eval vm_compute in g nExpr qBRACK.
Definition qCALL : nat := Eval vm_compute in g nCall qBRACK.
Definition qEND : nat := Eval vm_compute in g nMulti 0.

(** The states below, [k] deep. *)
Fixpoint backs (k q : nat) : list (list nat) :=
  match k with
  | O => [[q]]
  | S k' => flat_map (fun p => map (cons q) (backs k' p)) (preds q)
  end.
Fixpoint deep (k q : nat) : bool :=
  match k with
  | O => true
  | S k' => Nat.ltb 0 q && forallb (deep k') (preds q)
  end.

(** The tokens with which completions begin. *)
Definition targets (q : nat) (pl : plan) : list nat :=
  let '(k, _, a) := pl in map (fun b => g a (last b 0)) (backs k q).
Definition first_pass (f : list (list tt)) : list (list tt) :=
  map (fun q =>
    if Nat.eqb q qARG then [tOR; tRBRACKET]
    else match plan_at q with
         | None => [tEnd]
         | Some (k, (t, _) :: _, _) => [t]
         | Some (k, [], a) =>
             fold_left (fun l t => if existsb (tt_eqb t) l then l else t :: l)
               (flat_map (fun j => nth j f []) (targets q (k, [], a))) []
         end) all_states.
Definition firsts_table : list (list tt) := Eval vm_compute in Nat.iter 12 first_pass (map (fun _ => []) all_states).
Definition firsts (q : nat) : list tt := nth q firsts_table [].

(** The parser on states alone. *)
Definition ahead (us : list tok) (t : tt) : tt := match us with [] => t | (x, _) :: _ => x end.
Fixpoint nats_eqb (a b : list nat) : bool :=
  match a, b with
  | [], [] => true
  | x :: a', y :: b' => Nat.eqb x y && nats_eqb a' b'
  | _, _ => false
  end.
Fixpoint sim (fuel : nat) (sts : list nat) (us : list tok) (tl : list tt) (goal : list nat) : bool :=
  match us with [] => nats_eqb sts goal | _ => false end
  || match fuel with
     | O => false
     | S f =>
         match action_at (hd 0 sts) (ahead us (hd tEnd tl)) with
         | Some (Shift j) => match us with [] => false | _ :: us' => sim f (j :: sts) us' tl goal end
         | Some (Reduce p) =>
             let n := List.length (p_rhs (nprod p)) in
             if negb (Nat.eqb p 50) && negb (Nat.eqb p 115) && Nat.ltb n (List.length sts)
                && forallb (fun t => reduces (hd 0 sts) (ahead us t) p) tl then
               match assoc_nt (p_lhs (nprod p)) (goto_row (hd 0 (skipn n sts))) with
               | Some j => sim f (j :: skipn n sts) us tl goal
               | None => false
               end
             else false
         | _ => false
         end
     end.

Definition tk_ok (k : tok) : bool :=
  existsb (fun t => tt_eqb t (fst k) && String.eqb (text_of t) (snd k))
    [tLOWERNAME; tUPPERNAME; tNUMBER; tINSTRING_ANY; tLBRACE; tRBRACE; tLPAREN; tRPAREN; tLBRACKET; tRBRACKET;
     tCOLON; tCOMMA; tOUTPUT; tIF; tELSE; tTO; tOVER; tDOUBLE_DOT; tOR; tFUNCTION; tNAMED; tD_OP].
Definition plan_ok (q : nat) : bool :=
  if Nat.eqb q 0 || Nat.eqb q qEND || Nat.eqb q qARG then true
  else match plan_at q with
       | None => false
       | Some (k, u, a) =>
           Nat.ltb 0 k && deep k q && forallb tk_ok u &&
           forallb (fun b =>
             let p := last b 0 in
             match assoc_nt a (goto_row p) with
             | None => false
             | Some j =>
                 (Nat.ltb 1 k || Nat.ltb (weight j) (weight q))
                 && sim 40 b u (firsts j) [j; p]
                 && forallb (fun t => existsb (tt_eqb (ahead u t)) (firsts q)) (firsts j)
             end) (backs k q)
       end.

Lemma plans_ok : forallb plan_ok all_states = true.
Proof. vm_compute. reflexivity. Qed.

(** ** Completions of the tables are completions of stacks *)

Definition states (s : stack) : list nat := map fst s ++ [0].

Lemma states_hd : forall s, hd 0 (states s) = top_state s.
Proof. intros [|[q v] s]; reflexivity. Qed.

Lemma states_skipn : forall n s, n <= List.length s -> states (skipn n s) = skipn n (states s).
Proof.
  intros n s L. unfold states. rewrite skipn_app, map_length.
  replace (n - List.length s) with 0 by lia. cbn [skipn]. f_equal.
  revert s L; induction n as [|n IH]; intros [|e s] L; cbn [skipn map List.length] in *; try reflexivity.
  apply IH. lia.
Qed.

Lemma nats_eqb_eq : forall a b, nats_eqb a b = true -> a = b.
Proof.
  induction a as [|x a IH]; intros [|y b] H; try discriminate H; [reflexivity|].
  cbn [nats_eqb] in H. apply andb_prop in H. destruct H as [H K]. apply Nat.eqb_eq in H.
  f_equal; [exact H|now apply IH].
Qed.

Lemma ahead_la : forall us ts, la (us ++ ts) = ahead us (la ts).
Proof. now intros [|[t x] us] ts. Qed.

(** A grammar action on a good stack fails only in the two known places. *)
Lemma act_ok : forall s w p t, path s -> holds I s w -> Forall good w ->
  action_at (top_state s) t = Some (Reduce p) -> p <> 50 -> p <> 115 ->
  let n := List.length (p_rhs (nprod p)) in
  n <= List.length s /\ exists v, semact (p_fun (nprod p)) (rev (map snd (firstn n s))) = Ok v.
Proof.
  intros s w p t P H G A N1 N2 n. pose proof (reduce_ok _ _ _ P A) as R. cbv zeta in R.
  destruct R as (PB & LE & M & _). split; [exact LE|].
  destruct (holds_split I n s w H LE) as (u0 & tss & A1 & A2 & A3 & A4).
  fold n in M. rewrite M in A4.
  assert (Forall good (concat tss)) as G1 by (rewrite A2 in G; apply Forall_app in G; tauto).
  pose proof (all_sound p PB tss (rev (map snd (firstn n s))) A4) as K.
  assert (List.length tss = List.length (rev (map snd (firstn n s)))) as L
    by (rewrite rev_length, map_length, firstn_length, A3; lia).
  specialize (K L G1). destruct (semact _ _) as [v|e]; [now exists v|].
  destruct K as [_ [E|[E _]]]; contradiction.
Qed.

Lemma one_step : forall s w ts t s1, path s -> holds I s w ->
  parse_step s (t :: ts) = Go s1 ts -> path s1 /\ holds I s1 (w ++ [t]).
Proof.
  intros s w ts t s1 P H S. split; [exact (step_path _ _ _ _ P S)|].
  destruct (step_holds I I_token I_production _ _ _ _ _ P H S) as (u & H1 & E).
  change (t :: ts) with ([t] ++ ts) in E. rewrite app_assoc in E. apply app_inv_tail in E. now subst u.
Qed.

Lemma sim_run : forall fuel s w sts rest us tl goal, path s -> holds I s w -> Forall good w -> Forall good us ->
  tl <> [] -> sts <> [] -> states s = sts ++ rest -> sim fuel sts us tl goal = true ->
  exists s', path s' /\ holds I s' (w ++ us) /\ states s' = goal ++ rest /\
    forall ts, In (la ts) tl -> run s (us ++ ts) s' ts.
Proof.
  induction fuel as [|fuel IH]; intros s w sts rest us tl goal P H G GU TN SN ST S; cbn [sim] in S;
    apply orb_prop in S; destruct S as [S|S].
  - destruct us; [|discriminate S]. apply nats_eqb_eq in S. subst sts. exists s. rewrite app_nil_r.
    repeat split; try assumption. intros ts _. apply run_refl.
  - discriminate S.
  - destruct us; [|discriminate S]. apply nats_eqb_eq in S. subst sts. exists s. rewrite app_nil_r.
    repeat split; try assumption. intros ts _. apply run_refl.
  - assert (hd 0 sts = top_state s) as TOP.
    { rewrite <- states_hd, ST. destruct sts; [contradiction|reflexivity]. }
    rewrite TOP in S.
    destruct (action_at (top_state s) (ahead us (hd tEnd tl))) as [[j|p|]|] eqn:A; try discriminate S.
    + destruct us as [|[t x] us]; [discriminate S|]. cbn [ahead] in A.
      assert (parse_step s ((t, x) :: []) = Go ((j, VStr x) :: s) []) as S0
        by (unfold parse_step; cbn [la]; now rewrite A).
      destruct (one_step s w [] (t, x) _ P H S0) as [P1 H1].
      inversion GU as [|? ? G1 G2]; subst.
      destruct (IH ((j, VStr x) :: s) (w ++ [(t, x)]) (j :: sts) rest us tl goal) as (s' & P' & H' & ST' & R); try assumption.
      * apply Forall_app. split; [exact G|]. now constructor.
      * discriminate.
      * unfold states in *. cbn [map fst app]. now rewrite ST.
      * exists s'. split; [exact P'|]. split; [now rewrite <- app_assoc in H'|]. split; [exact ST'|].
        intros ts IN. cbn [app]. apply (run_step s ((t, x) :: us ++ ts) ((j, VStr x) :: s) (us ++ ts)); [|now apply R].
        unfold parse_step. cbn [la]. now rewrite A.
    + cbv zeta in S. set (n := List.length (p_rhs (nprod p))) in *.
      destruct (negb (Nat.eqb p 50) && negb (Nat.eqb p 115) && Nat.ltb n (List.length sts) &&
                forallb (fun t => reduces (top_state s) (ahead us t) p) tl) eqn:C; [|discriminate S].
      apply andb_prop in C. destruct C as [C CF]. apply andb_prop in C. destruct C as [C CL].
      apply andb_prop in C. destruct C as [C1 C2]. apply negb_true_iff in C1, C2. apply Nat.eqb_neq in C1, C2.
      apply Nat.ltb_lt in CL.
      destruct (act_ok s w p _ P H G A C1 C2) as (LE & v & SV). fold n in LE, SV.
      assert (states (skipn n s) = skipn n sts ++ rest) as ST1.
      { rewrite states_skipn by exact LE. rewrite ST, skipn_app. replace (n - List.length sts) with 0 by lia. reflexivity. }
      assert (skipn n sts <> []) as NN.
      { intros E. apply (f_equal (@List.length nat)) in E. rewrite skipn_length in E. cbn [List.length] in E. lia. }
      assert (hd 0 (skipn n sts) = top_state (skipn n s)) as TOP1.
      { rewrite <- states_hd, ST1. destruct (skipn n sts); [contradiction|reflexivity]. }
      rewrite TOP1 in S.
      destruct (assoc_nt (p_lhs (nprod p)) (goto_row (top_state (skipn n s)))) as [j|] eqn:GT; [|discriminate S].
      assert (forall ts, In (la ts) tl -> parse_step s (us ++ ts) = Go ((j, v) :: skipn n s) (us ++ ts)) as ST2.
      { intros ts IN. unfold parse_step. rewrite ahead_la. rewrite forallb_forall in CF.
        rewrite (reduces_ok _ _ _ (CF _ IN)). unfold do_reduce. fold n. rewrite SV, GT. reflexivity. }
      destruct tl as [|t0 tl]; [contradiction|].
      assert (path ((j, v) :: skipn n s) /\ holds I ((j, v) :: skipn n s) w) as [P1 H1].
      { assert (In (la [(t0, EmptyString)]) (t0 :: tl)) as IN by now left.
        specialize (ST2 _ IN). split; [exact (step_path _ _ _ _ P ST2)|].
        destruct (step_holds I I_token I_production _ _ _ _ _ P H ST2) as (u & HU & E).
        apply app_inv_tail in E. now subst u. }
      destruct (IH ((j, v) :: skipn n s) w (j :: skipn n sts) rest us (t0 :: tl) goal) as (s' & P' & H' & ST' & R); try assumption.
      * discriminate.
      * unfold states in *. cbn [map fst app]. now rewrite ST1.
      * exists s'. split; [exact P'|]. split; [exact H'|]. split; [exact ST'|].
        intros ts IN. apply (run_step _ _ _ _ _ _ (ST2 ts IN)). now apply R.
Qed.

(** The states on top of a stack are among those computed. *)
Lemma in_backs : forall k s, path s -> k <= List.length s ->
  In (firstn (S k) (states s)) (backs k (top_state s)).
Proof.
  induction k as [|k IH]; intros s P L.
  - left. destruct s as [|[q v] s]; reflexivity.
  - inversion P as [|q v s0 x P0 TR]; subst; [cbn in L; lia|].
    cbn [backs top_state]. apply in_flat_map. exists (top_state s0). split.
    + now destruct (trans_ok _ _ _ TR) as (_ & IN & _).
    + change (firstn (S (S k)) (states ((q, v) :: s0))) with (q :: firstn (S k) (states s0)).
      apply in_map. apply IH; [exact P0|]. cbn [List.length] in L. lia.
Qed.

Lemma deep_ok : forall k s, path s -> deep k (top_state s) = true -> k <= List.length s.
Proof.
  induction k as [|k IH]; intros s P D; [lia|].
  cbn [deep] in D. apply andb_prop in D. destruct D as [D1 D2]. apply Nat.ltb_lt in D1.
  inversion P as [|q v s0 x P0 TR]; subst; [cbn in D1; lia|].
  cbn [top_state] in D2. rewrite forallb_forall in D2.
  destruct (trans_ok _ _ _ TR) as (_ & IN & _). specialize (IH s0 P0 (D2 _ IN)). cbn [List.length]. lia.
Qed.

Lemma last_firstn : forall k s, k <= List.length s -> last (firstn (S k) (states s)) 0 = top_state (skipn k s).
Proof.
  induction k as [|k IH]; intros [|[q v] s] L; try reflexivity.
  change (firstn (S (S k)) (states ((q, v) :: s))) with (q :: firstn (S k) (states s)).
  cbn [skipn]. rewrite <- IH by (cbn [List.length] in L; lia).
  destruct (firstn (S k) (states s)) eqn:E; [|reflexivity].
  destruct s as [|[q' v'] s]; discriminate E.
Qed.

Lemma top_dom : forall s, path s -> top_state s < nstates.
Proof.
  intros s P. inversion P as [|q v s0 x P0 TR]; subst; [vm_compute; lia|].
  cbn [top_state]. destruct (trans_ok _ _ _ TR) as (A & IN & _).
  destruct (le_lt_dec nstates q) as [L|L]; [|exact L]. exfalso.
  unfold preds in IN. rewrite nth_overflow in IN; [exact IN|]. exact L.
Qed.

Lemma in_dec_list : forall c l, existsb (Ascii.eqb c) l = true -> In c l.
Proof. intros c l H. apply existsb_exists in H. destruct H as (d & H & E). apply Ascii.eqb_eq in E. now subst. Qed.

Lemma tk_good : forall k, tk_ok k = true -> good k.
Proof.
  assert (forall (P : Ascii.ascii -> Prop) c, P c -> a_word P (String c EmptyString)) as W.
  { intros P c H. split; [discriminate|]. constructor; [exact H|constructor]. }
  intros [t x] H. unfold tk_ok in H. apply existsb_exists in H. destruct H as (t' & IN & H).
  apply andb_prop in H. destruct H as [H1 H2]. apply tt_eqb_eq in H1. apply String.eqb_eq in H2.
  cbn [fst snd] in H1, H2. subst t x. unfold good. cbn [fst snd].
  repeat (destruct IN as [<-|IN]); try destruct IN; cbn [text_of fixed_text]; try (now constructor);
    try (apply x_keyword; constructor).
  - apply x_lower; [|discriminate|intros t K; inversion K].
    apply W. unfold lower_letter. apply in_dec_list. reflexivity.
  - apply x_upper, W. apply in_dec_list. reflexivity.
  - apply x_number, W. apply in_dec_list. reflexivity.
  - apply x_any, W. repeat split; discriminate.
Qed.

Lemma firsts_some : forallb (fun q => match firsts q with [] => false | _ => true end) all_states = true.
Proof. vm_compute. reflexivity. Qed.
Lemma firsts_ne : forall q, q < nstates -> firsts q <> [].
Proof. intros q L E. pose proof (for_states _ firsts_some q L) as H. cbv beta in H. rewrite E in H. discriminate H. Qed.

Definition tok1 : tok := tk tNUMBER.
Definition tokor : tok := tk tOR.

(** An argument made longer. *)
Definition qOR : nat := Eval vm_compute in sh qARG tOR.
Definition qARG2 : nat := Eval vm_compute in g nExpr qOR.
Lemma arg_more : forall s e ts, top_state s = qBRACK -> la ts = tRBRACKET ->
  run ((qARG, VNode (node_e e)) :: s) (tokor :: tok1 :: ts)
      ((qARG, VNode (node_e (EBin OOr e (ETerm (TNum (snd tok1)))))) :: s) ts.
Proof.
  intros s e ts T L.
  apply (run_trans _ _ ((qOR, VStr (snd tokor)) :: (qARG, VNode (node_e e)) :: s) (tok1 :: ts)).
  { apply go_tok. reflexivity. }
  apply (run_trans _ _ ((qNUM, VStr (snd tok1)) :: (qOR, VStr (snd tokor)) :: (qARG, VNode (node_e e)) :: s) ts).
  { apply go_tok. reflexivity. }
  eapply run_trans.
  { apply (go_reduce1 81); [rewrite L; vm_compute; reflexivity|reflexivity|reflexivity|vm_compute; reflexivity]. }
  eapply run_trans.
  { apply (go_reduce1 75); [rewrite L; vm_compute; reflexivity|reflexivity|reflexivity|vm_compute; reflexivity]. }
  apply (go_reduce3 66); [rewrite L; vm_compute; reflexivity|reflexivity|reflexivity|].
  rewrite T. vm_compute. reflexivity.
Qed.

Lemma arg_done : forall s e, top_state s = qBRACK -> is_call e = false ->
  exists v, forall ts, la ts = tRBRACKET -> run ((qARG, VNode (node_e e)) :: s) ts ((qCALL, v) :: s) ts.
Proof.
  intros s e T C.
  assert (exists v, semact (p_fun (nprod 115)) [VNode (node_e e)] = Ok v) as [v V].
  { change (p_fun (nprod 115)) with f_call_elements_expr. unfold semact.
    cbn [arg nth_error Nat.sub bind type_of]. rewrite node_call, C. eexists. reflexivity. }
  exists v. intros ts L.
  apply (go_reduce1 115); [rewrite L; vm_compute; reflexivity|reflexivity|exact V|rewrite T; vm_compute; reflexivity].
Qed.

(** What a stack with something on it still needs. *)
Lemma completion : forall m s w, path s -> holds I s w -> Forall good w -> s <> [] ->
  8 * List.length s + weight (top_state s) < m ->
  exists c v, Forall good c /\ In (la c) (firsts (top_state s)) /\ run s c [(qEND, v)] [].
Proof.
  induction m as [|m IH]; intros s w P H G NE M; [lia|].
  assert (forall q, weight q <= 6) as W6.
  { intros q. unfold weight, weight_sym. destruct (acc q) as [|[]]; lia. }
  pose proof (for_states _ plans_ok _ (top_dom s P)) as K. unfold plan_ok in K.
  destruct (Nat.eqb (top_state s) 0) eqn:E0.
  { exfalso. apply Nat.eqb_eq in E0. inversion P as [|q v s0 x P0 TR]; subst; [contradiction|].
    cbn [top_state] in E0. apply trans_ok in TR. lia. }
  destruct (Nat.eqb (top_state s) qEND) eqn:E1.
  { apply Nat.eqb_eq in E1. inversion P as [|q v s0 x P0 TR]; subst; [contradiction|].
    cbn [top_state] in *. subst q. apply trans_ok in TR. destruct TR as (_ & IN & _).
    change (preds qEND) with [0] in IN. destruct IN as [IN|[]].
    assert (s0 = []) as ->.
    { inversion P0 as [|q1 v1 s1 x1 P1 TR1]; subst; [reflexivity|]. cbn [top_state] in IN. apply trans_ok in TR1. lia. }
    exists [], v. split; [constructor|]. split; [now left|apply run_refl]. }
  destruct (Nat.eqb (top_state s) qARG) eqn:E2.
  { apply Nat.eqb_eq in E2. clear K. inversion P as [|q v s0 x P0 TR]; subst; [contradiction|].
    cbn [top_state] in *. subst q. apply trans_ok in TR. destruct TR as (_ & IN & _).
    change (preds qARG) with [qBRACK] in IN. destruct IN as [IN|[]]. symmetry in IN.
    inversion H as [|q' v' s' u w' H1 I1]; subst.
    apply Forall_app in G. destruct G as [G0 G1]. specialize (I1 G1).
    change (acc qARG) with (N nExpr) in I1. destruct I1 as (e & R & -> & ->).
    assert (Forall good [tokor; tok1]) as GO by (constructor; [|constructor; [|constructor]]; apply tk_good; reflexivity).
    set (e' := if is_call e then EBin OOr e (ETerm (TNum (snd tok1))) else e).
    set (us := if is_call e then [tokor; tok1] else []).
    assert (Forall good us) as GU by (unfold us; destruct (is_call e); [exact GO|constructor]).
    assert (forall ts, la ts = tRBRACKET -> run ((qARG, VNode (node_e e)) :: s0) (us ++ ts) ((qARG, VNode (node_e e')) :: s0) ts) as R1.
    { intros ts L. unfold us, e'. destruct (is_call e) eqn:C; [now apply arg_more|apply run_refl]. }
    assert (is_call e' = false) as C' by (unfold e'; destruct (is_call e) eqn:C; [reflexivity|exact C]).
    destruct (arg_done s0 e' IN C') as [v V].
    assert (forall ts, la ts = tRBRACKET -> run ((qARG, VNode (node_e e)) :: s0) (us ++ ts) ((qCALL, v) :: s0) ts) as R2.
    { intros ts L. exact (run_trans _ _ _ _ _ _ (R1 ts L) (V ts L)). }
    destruct (run_holds I I_token I_production _ _ _ _ (R2 [tk tRBRACKET] eq_refl) _ P H) as (u2 & P2 & H2 & EQ).
    rewrite app_assoc in EQ. apply app_inv_tail in EQ.
    destruct (IH ((qCALL, v) :: s0) u2 P2 H2) as (c & v' & GC & FC & RC).
    - rewrite EQ. apply Forall_app. split; [apply Forall_app; now split|exact GU].
    - discriminate.
    - cbn [List.length top_state] in *. change (weight qCALL) with 1. change (weight qARG) with 3 in M. lia.
    - cbn [top_state] in FC. change (firsts qCALL) with [tRBRACKET] in FC. destruct FC as [FC|[]]. symmetry in FC.
      exists (us ++ c), v'. split; [apply Forall_app; now split|]. split.
      + change (firsts qARG) with [tOR; tRBRACKET]. unfold us. destruct (is_call e); [now left|].
        cbn [app]. rewrite FC. right. now left.
      + exact (run_trans _ _ _ _ _ _ (R2 c FC) RC). }
  cbn [orb] in K. destruct (plan_at (top_state s)) as [[[k u] a]|]; [|discriminate K].
  apply andb_prop in K. destruct K as [K K4]. apply andb_prop in K. destruct K as [K K3].
  apply andb_prop in K. destruct K as [K1 K2]. apply Nat.ltb_lt in K1.
  pose proof (deep_ok k s P K2) as LE.
  rewrite forallb_forall in K4. specialize (K4 _ (in_backs k s P LE)). cbv beta zeta in K4.
  rewrite last_firstn in K4 by exact LE.
  destruct (assoc_nt a (goto_row (top_state (skipn k s)))) as [j|] eqn:GT; [|discriminate K4].
  apply andb_prop in K4. destruct K4 as [K4 K6]. apply andb_prop in K4. destruct K4 as [K4 K5].
  assert (Forall good u) as GU.
  { rewrite forallb_forall in K3. rewrite Forall_forall. intros x X. apply tk_good. now apply K3. }
  assert (j < nstates) as JL.
  { assert (trans (top_state (skipn k s)) (N a) = Some j) as TR by exact GT. 
    apply (top_dom ((j, VNone) :: skipn k s)). exact (path_cons j VNone _ _ (path_skipn k s P) TR). }
  destruct (sim_run 40 s w (firstn (S k) (states s)) (skipn (S k) (states s)) u (firsts j)
              [j; top_state (skipn k s)] P H G GU (firsts_ne j JL)) as (s' & P' & H' & ST & R).
  { destruct s as [|[q v] s]; discriminate. }
  { now rewrite firstn_skipn. }
  { exact K5. }
  assert (top_state s' = j) as TJ by (rewrite <- states_hd, ST; reflexivity).
  assert (List.length s' = List.length s - k + 1) as LS.
  { apply (f_equal (@List.length nat)) in ST. unfold states in ST.
    rewrite !app_length, map_length, skipn_length, app_length, map_length in ST. cbn [List.length] in ST. lia. }
  destruct (IH s' (w ++ u) P' H') as (c & v & GC & FC & RC).
  - apply Forall_app. now split.
  - intros ->. cbn in LS. lia.
  - rewrite LS, TJ. apply orb_prop in K4. destruct K4 as [K4|K4]; apply Nat.ltb_lt in K4.
    + pose proof (W6 j). pose proof (W6 (top_state s)). lia.
    + assert (List.length s - k + 1 <= List.length s) by lia. nia.
  - rewrite TJ in FC. exists (u ++ c), v. split; [apply Forall_app; now split|]. split.
    + rewrite ahead_la. rewrite forallb_forall in K6. specialize (K6 _ FC). cbv beta in K6.
      apply existsb_exists in K6. destruct K6 as (t & IN & E). apply tt_eqb_eq in E. now rewrite E.
    + exact (run_trans _ _ _ _ _ _ (R c FC) RC).
Qed.

(** What has been shifted begins a program. *)
Theorem viable : forall s w, path s -> holds I s w -> Forall good w -> s <> [] ->
  exists c v, Forall good c /\ run s c [(qEND, v)] [].
Proof.
  intros s w P H G NE. destruct (completion _ s w P H G NE (Nat.lt_succ_diag_r _)) as (c & v & A & _ & B).
  now exists c, v.
Qed.
