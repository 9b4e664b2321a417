(** The parser that ply builds and runs is that of GramModel.v, ParseModel.v and
    ReportModel.v. *)
From Coq Require Import String Ascii Bool List Arith ZArith Lia.
From Verif Require Import PyBase LexModel GramModel ParseModel LrFacts ResolveModel ReportModel ReportFacts PlyLexModel PlySpec PlyYaccModel PlyYaccSpec PlyParseModel.
Import ListNotations.
Open Scope string_scope.
Open Scope list_scope.

(** ** What is built *)

Definition the_grammar : option (grammar * reports) :=
  Eval vm_compute in yacc_grammar token_names prec_table p_functions start_name.
Definition the_parser : option (list production * lr_table) := Eval vm_compute in build_parser.
Definition P : list production := match the_parser with Some (p, _) => p | None => [] end.
Definition Tb : lr_table := match the_parser with Some (_, t) => t | None => mkTable [] [] end.

Lemma parser_built : build_parser = Some (P, Tb).
Proof. vm_compute. reflexivity. Qed.

Lemma reports_nothing_built : exists g, yacc_grammar token_names prec_table p_functions start_name = Some (g, mkReports [] [] []).
Proof.
  assert (E : option_map snd (yacc_grammar token_names prec_table p_functions start_name) = Some (mkReports [] [] [])) by (vm_compute; reflexivity).
  destruct (yacc_grammar _ _ _ _) as [[g r]|]; [|discriminate E]. cbn in E. injection E as ->. now exists g.
Qed.

Lemma rules_built : P = map as_production (combine (seq 0 (List.length prods)) prods).
Proof. vm_compute. reflexivity. Qed.

(** ** The numbers of the states: both machines are walked together *)

Fixpoint assocn (n : nat) (l : list (nat * Z)) : option Z :=
  match l with [] => None | (m, z) :: l' => if Nat.eqb n m then Some z else assocn n l' end.
Definition edges (q : nat) (z : Z) : list (nat * Z) :=
  flat_map (fun '(t, a) => match a with
                           | Shift j => match table_entry (lr_action Tb) z (type_name t) with Some (Some k) => [(j, k)] | _ => [] end
                           | _ => []
                           end) (act_row q)
  ++ flat_map (fun '(n, j) => match table_entry (lr_goto Tb) z (nt_name n) with Some k => [(j, k)] | _ => [] end) (goto_row q).
Fixpoint walk (fuel : nat) (todo seen : list (nat * Z)) : list (nat * Z) :=
  match fuel, todo with
  | S f, (q, z) :: todo' =>
      match assocn q seen with
      | Some _ => walk f todo' seen
      | None => walk f (edges q z ++ todo') ((q, z) :: seen)
      end
  | _, _ => seen
  end.
Definition numbers : list Z :=
  Eval vm_compute in
    let seen := walk 5000 [(0, 0%Z)] [] in
    map (fun q => match assocn q seen with Some z => z | None => (-1)%Z end) (seq 0 nstates).
Definition number (q : nat) : Z := nth q numbers (-1)%Z.

Definition row_ok (q : nat) : bool :=
  match row_of (lr_action Tb) (number q) with
  | Some row =>
      forallb (fun t => match sget (type_name t) row, get_act t (act_row q) with
                        | Some (Some z), Some a => Z.eqb z (action_number number a)
                        | None, None => true
                        | _, _ => false
                        end) all_tt
      && match sget "error" row with None => true | Some _ => false end
      && match defaulted row, default_red (act_row q) with
         | Some z, Some p => Z.eqb z (- Z.of_nat p)
         | None, None => true
         | _, _ => false
         end
      && forallb (fun '(_, a) => match a with
                                 | Shift j => Z.ltb 0 (number j)
                                 | Reduce p => Nat.ltb 0 p
                                 | Accept => true
                                 end) (act_row q)
      && match get_act tEnd (act_row q) with Some (Shift _) => false | _ => true end
  | None => false
  end.
Definition goto_ok (q : nat) : bool :=
  match row_of (lr_goto Tb) (number q) with
  | Some row =>
      forallb (fun n => match sget (nt_name n) row, assoc_nt n (goto_row q) with
                        | Some z, Some j => Z.eqb z (number j)
                        | None, None => true
                        | _, _ => false
                        end) all_nt
  | None => false
  end.

Lemma rows_ok : forallb row_ok all_states = true.
Proof. vm_compute. reflexivity. Qed.
Lemma gotos_ok : forallb goto_ok all_states = true.
Proof. vm_compute. reflexivity. Qed.
Lemma out_bounds : forallb (fun q => forallb (fun '(_, j) => Nat.ltb j nstates) (outs q)) all_states = true.
Proof. vm_compute. reflexivity. Qed.
Lemma numbers_differ : NoDup (map number all_states).
Proof.
  assert (D : nodup Z.eq_dec (map number all_states) = map number all_states) by (vm_compute; reflexivity).
  rewrite <- D. apply NoDup_nodup.
Qed.

Lemma all_tt_in : forall t, In t all_tt.
Proof. intros []; cbn; tauto. Qed.
Lemma all_nt_in : forall n, In n all_nt.
Proof. intros []; cbn; tauto. Qed.

Lemma actions_built : forall q, q < nstates -> exists row, row_of (lr_action Tb) (number q) = Some row /\
  (forall t, sget (type_name t) row = match get_act t (act_row q) with Some a => Some (Some (action_number number a)) | None => None end) /\
  sget "error" row = None /\
  defaulted row = match default_red (act_row q) with Some p => Some (- Z.of_nat p)%Z | None => None end /\
  (forall t a, In (t, a) (act_row q) -> match a with Shift j => (0 < number j)%Z | Reduce p => 0 < p | Accept => True end) /\
  (forall j, get_act tEnd (act_row q) <> Some (Shift j)).
Proof.
  intros q L. pose proof (for_states _ rows_ok q L) as H. unfold row_ok in H.
  destruct (row_of (lr_action Tb) (number q)) as [row|]; [|discriminate H].
  apply andb_prop in H. destruct H as [H HE]. apply andb_prop in H. destruct H as [H HP]. apply andb_prop in H. destruct H as [H HD].
  apply andb_prop in H. destruct H as [HT HR]. exists row. split; [reflexivity|].
  split.
  { intros t. rewrite forallb_forall in HT. specialize (HT t (all_tt_in t)).
    destruct (sget (type_name t) row) as [[z|]|], (get_act t (act_row q)) as [a|]; try discriminate HT; [|reflexivity].
    apply Z.eqb_eq in HT. now rewrite HT. }
  split. { destruct (sget "error" row); [discriminate HR|reflexivity]. }
  split. { destruct (defaulted row) as [z|], (default_red (act_row q)) as [p|]; try discriminate HD; [|reflexivity]. apply Z.eqb_eq in HD. now rewrite HD. }
  split.
  { intros t a I. rewrite forallb_forall in HP. specialize (HP (t, a) I). cbn beta iota in HP.
    destruct a as [j|p|]; [now apply Z.ltb_lt in HP|now apply Nat.ltb_lt in HP|exact Logic.I]. }
  intros j E. rewrite E in HE. discriminate HE.
Qed.

Lemma gotos_built : forall q, q < nstates -> exists row, row_of (lr_goto Tb) (number q) = Some row /\
  forall n, sget (nt_name n) row = option_map number (assoc_nt n (goto_row q)).
Proof.
  intros q L. pose proof (for_states _ gotos_ok q L) as H. unfold goto_ok in H.
  destruct (row_of (lr_goto Tb) (number q)) as [row|]; [|discriminate H]. exists row. split; [reflexivity|].
  intros n. rewrite forallb_forall in H. specialize (H n (all_nt_in n)).
  destruct (sget (nt_name n) row) as [z|], (assoc_nt n (goto_row q)) as [j|]; try discriminate H; [|reflexivity].
  apply Z.eqb_eq in H. now rewrite H.
Qed.

Lemma trans_bound : forall q x j, LrFacts.trans q x = Some j -> j < nstates.
Proof.
  intros q x j H.
  assert (In (x, j) (outs q) /\ q < nstates) as [I L].
  { unfold outs. destruct x as [t|n]; cbn [LrFacts.trans] in H.
    - destruct (action_at q t) as [[k|p|]|] eqn:A; try discriminate H. injection H as ->.
      apply action_shift_in in A. split.
      + apply in_or_app. left. apply in_flat_map. exists (t, Shift j). split; [exact A|now left].
      + apply row_dom. intros E. rewrite E in A. exact A.
    - apply assoc_nt_in in H. split.
      + apply in_or_app. right. apply in_map_iff. exists (n, j). split; [reflexivity|exact H].
      + apply goto_dom. intros E. rewrite E in H. exact H. }
  pose proof (for_states _ out_bounds q L) as F. cbn beta in F. rewrite forallb_forall in F. specialize (F _ I).
  cbn beta iota in F. now apply Nat.ltb_lt in F.
Qed.

Lemma top_bound : forall s, path s -> top_state s < nstates.
Proof.
  intros s H. destruct H as [|q v s x P' T]; cbn [top_state]; [vm_compute; lia|]. exact (trans_bound _ _ _ T).
Qed.

Lemma rule_at : forall p, 0 < p < List.length prods -> nth_error P p = Some (as_production (p, nprod p)).
Proof.
  intros p L. rewrite rules_built. apply map_nth_error.
  rewrite (nth_error_nth' _ (0, nprod 0)) by (rewrite combine_length, seq_length; lia).
  f_equal. rewrite combine_nth by apply seq_length. unfold nprod. rewrite seq_nth by lia. f_equal.
  apply nth_indep. lia.
Qed.

Lemma callables_known : forall f n, function_name f = Some n -> sget n callables = Some f.
Proof. intros [] n H; (discriminate H || (injection H as <-; reflexivity)). Qed.

Lemma rules_have_functions : forallb (fun p => match function_name (p_fun p) with Some _ => true | None => false end) (tl prods) = true.
Proof. vm_compute. reflexivity. Qed.

Lemma has_function : forall p, 0 < p < List.length prods -> exists n, function_name (p_fun (nprod p)) = Some n.
Proof.
  intros p L. pose proof rules_have_functions as H. rewrite forallb_forall in H.
  assert (I : In (nprod p) (tl prods)).
  { unfold nprod. destruct p as [|p]; [lia|]. change (nth (S p) prods (mkProd nStart [] None f_start 0)) with (nth p (tl prods) (mkProd nStart [] None f_start 0)).
    apply nth_In. change (List.length prods) with (S (List.length (tl prods))) in L. lia. }
  specialize (H _ I). cbn beta in H. destruct (function_name (p_fun (nprod p))) as [n|]; [now exists n|discriminate H].
Qed.

(** ** Running *)

Notation turn := (parse_turn P Tb).
Notation fin := (finishes P Tb).

Lemma finishes_same : forall e r, fin e r -> forall r', fin e r' -> r = r'.
Proof.
  intros e r H. induction H as [e r E N|e e' r E F IH]; intros r' H'.
  - destruct H' as [e r' E' N'|e e' r' E' F']; [congruence|]. exfalso. rewrite E' in E. exact (N e' (eq_sym E)).
  - destruct H' as [e r' E' N'|e e'' r' E' F']; [exfalso; rewrite E in E'; exact (N' e' (eq_sym E'))|].
    rewrite E in E'. injection E' as <-. exact (IH r' F').
Qed.

Definition goes (e e1 : engine) : Prop := forall r, fin e1 r -> fin e r.
Lemma goes_one : forall e e1, turn e = PGo e1 -> goes e e1.
Proof. intros e e1 H r F. exact (finishes_later _ _ e e1 r H F). Qed.
Lemma goes_trans : forall a b c, goes a b -> goes b c -> goes a c.
Proof. intros a b c H1 H2 r F. exact (H1 r (H2 r F)). Qed.

(** the symbols on the two stacks *)
Definition same_sym (y : ysym) (qv : nat * sval) : Prop :=
  sym_value y = Ok (snd qv) /\ String.eqb (sym_type y) "error" = false.
Definition states_of (s : stack) : list Z := map (fun qv => number (fst qv)) s ++ [0%Z].

Definition waits (ts : list (tok * place)) (l : option ysym) (input : list ltoken) : Prop :=
  (l = None /\ input = map ply_token ts) \/
  match ts with
  | [] => l = Some YEnd /\ input = []
  | t :: ts' => l = Some (YTok (ply_token t)) /\ input = map ply_token ts'
  end.

Record sim (y : ystate) (e : engine) : Prop := mkSim {
  sim_pushed : e_pushed e = [];
  sim_states : e_states e = states_of (y_stack y);
  sim_state : e_state e = number (top_state (y_stack y));
  sim_syms : exists syms, e_syms e = syms ++ [YEnd] /\ Forall2 same_sym syms (y_stack y);
  sim_count : e_count e = y_count y;
  sim_ok : e_errorok e = true -> y_count y = 0;
  sim_ill : e_illegals e = map ply_token (y_errs y);
  sim_input : waits (y_rest y) (e_lookahead e) (e_input e) }.

Definition la_sym (ts : list (tok * place)) : ysym :=
  match ts with [] => YEnd | t :: _ => YTok (ply_token t) end.
Lemma la_sym_type : forall ts, sym_type (la_sym ts) = type_name (la (map fst ts)).
Proof. intros [|[[t v] p] ts]; reflexivity. Qed.

(** [look]: without a default the lookahead is set; the action is that of the model *)
Definition with_la (e : engine) (l : ysym) (input : list ltoken) : engine :=
  mkE (Some l) (e_pushed e) (e_states e) (e_state e) (e_syms e) (e_count e) (e_errorok e) input (e_illegals e).

Lemma look_sim : forall y e, path (y_stack y) -> sim y e ->
  exists e1, look Tb e = Ok (e1, option_map (action_number number) (action_at (top_state (y_stack y)) (la (map fst (y_rest y))))) /\ sim y e1 /\
    ((exists p, default_red (act_row (top_state (y_stack y))) = Some p) \/
     (default_red (act_row (top_state (y_stack y))) = None /\ e_lookahead e1 = Some (la_sym (y_rest y)) /\ e_input e1 = map ply_token (tl (y_rest y)))).
Proof.
  intros y e PS S. destruct (actions_built _ (top_bound _ PS)) as (row & R & A & _ & D & _ & _).
  unfold look. rewrite (sim_state _ _ S), R, D. unfold action_at.
  destruct (default_red (act_row (top_state (y_stack y)))) as [p|].
  - exists e. split; [reflexivity|]. split; [exact S|]. left. now exists p.
  - destruct S as [S1 S2 S3 S4 S5 S6 S7 S8].
    assert (E : (match e_lookahead e with
                 | Some l => (l, e_pushed e, e_input e)
                 | None => match e_pushed e with
                           | [] => match e_input e with t :: i => (YTok t, [], i) | [] => (YEnd, [], []) end
                           | l :: p => (l, p, e_input e)
                           end
                 end) = (la_sym (y_rest y), e_pushed e, map ply_token (tl (y_rest y)))).
    { rewrite S1. destruct S8 as [[-> ->]|H].
      - destruct (y_rest y) as [|t ts]; reflexivity.
      - destruct (y_rest y) as [|t ts]; destruct H as [-> ->]; reflexivity. }
    rewrite E. rewrite la_sym_type, A.
    exists (with_la e (la_sym (y_rest y)) (map ply_token (tl (y_rest y)))). split.
    + unfold with_la. destruct (get_act _ _) as [a|]; rewrite <- S3; reflexivity.
    + split; [|right; repeat split].
      constructor; cbn [with_la e_pushed e_states e_state e_syms e_count e_errorok e_illegals e_lookahead e_input]; try assumption.
      right. destruct (y_rest y) as [|t ts]; split; reflexivity.
Qed.

Lemma forall2_len : forall (A B : Type) (R : A -> B -> Prop) l m, Forall2 R l m -> List.length l = List.length m.
Proof. intros A B R l m H. induction H; cbn; congruence. Qed.

Lemma values_of : forall syms s n, Forall2 same_sym syms s -> n <= List.length s ->
  mapM sym_value (rev (firstn n (syms ++ [YEnd]))) = Ok (rev (map snd (firstn n s))).
Proof.
  intros syms s n H L. pose proof (forall2_len _ _ _ _ _ H) as LE. rewrite firstn_app. replace (n - List.length syms) with 0 by lia.
  cbn [firstn]. rewrite app_nil_r.
  assert (F : Forall2 same_sym (firstn n syms) (firstn n s)).
  { clear L LE. revert n. induction H as [|y qv syms s A H IH]; intros [|n]; cbn [firstn]; constructor; [exact A|apply IH]. }
  clear H L LE. induction F as [|y qv l m A F IH]; [reflexivity|]. cbn [rev map].
  assert (AP : forall (a b : list ysym) va vb, mapM sym_value a = Ok va -> mapM sym_value b = Ok vb -> mapM sym_value (a ++ b) = Ok (va ++ vb)).
  { clear. intros a. induction a as [|x a IH]; intros b va vb HA HB; cbn [app mapM] in *; [injection HA as <-; exact HB|].
    destruct (sym_value x) as [v|]; cbn [bind] in *; [|discriminate HA]. destruct (mapM sym_value a) as [vs|] eqn:E; [|discriminate HA].
    cbn [bind] in HA. injection HA as <-. rewrite (IH b vs vb eq_refl HB). reflexivity. }
  apply AP; [exact IH|]. cbn [mapM]. destruct A as [-> _]. reflexivity.
Qed.

Lemma forall2_skipn : forall syms s n, Forall2 same_sym syms s -> Forall2 same_sym (skipn n syms) (skipn n s).
Proof. intros syms s n H. revert n. induction H as [|y qv l m A H IH]; intros [|n]; cbn [skipn]; try constructor; auto. Qed.

Lemma states_skipn : forall s n, n <= List.length s -> skipn n (states_of s) = states_of (skipn n s).
Proof.
  intros s n. revert s. induction n as [|n IH]; intros s L; [reflexivity|]. destruct s as [|x s]; [cbn in L; lia|].
  cbn [skipn]. apply (IH s). cbn in L. lia.
Qed.
Lemma states_length : forall s, List.length (states_of s) = List.length s + 1.
Proof. intros s. unfold states_of. now rewrite app_length, map_length. Qed.
Lemma states_head : forall s, exists r, states_of s = number (top_state s) :: r.
Proof. intros [|[q v] s]; [exists []; reflexivity|]. exists (states_of s). reflexivity. Qed.

(** ** Going back to the bottom after an error *)

Lemma number_zero : number 0 = 0%Z.
Proof. reflexivity. Qed.

Lemma error_look : forall q e t, q < nstates -> default_red (act_row q) = None -> e_state e = number q -> e_lookahead e = Some (YError t) ->
  look Tb e = Ok (e, None).
Proof.
  intros q e t L D ES EL. destruct (actions_built q L) as (row & R & _ & ER & DR & _ & _).
  unfold look. rewrite ES, R, DR, D, EL. cbn [sym_type]. rewrite ER. rewrite <- EL, <- ES. destruct e; reflexivity.
Qed.

Lemma unwound : forall s syms t p input ill, path s -> Forall2 same_sym syms s ->
  forallb (fun q => match default_red (act_row q) with None => true | Some _ => false end) (map fst s ++ [0]) = true ->
  goes (mkE (Some (YError t)) p (states_of s) (number (top_state s)) (syms ++ [YEnd]) error_count false input ill)
       (mkE None [] [0%Z] 0 [YEnd] error_count false input ill).
Proof.
  intros s; induction s as [|[q v] s IH]; intros syms t p input ill PS F U.
  - inversion F; subst. apply goes_one. unfold parse_turn.
    rewrite (error_look 0 _ t); [reflexivity|vm_compute; lia|vm_compute; reflexivity|reflexivity|reflexivity].
  - inversion F as [|y qv syms' s' A F' E1 E2]; subst. cbn [map fst app forallb] in U. apply andb_prop in U. destruct U as [U1 U2].
    assert (PS' : path s) by now inversion PS.
    eapply goes_trans; [|apply (IH syms' t p input ill PS' F' U2)].
    apply goes_one. unfold parse_turn. cbn [top_state].
    rewrite (error_look q _ t); [|exact (top_bound _ PS)|destruct (default_red (act_row q)); [discriminate U1|reflexivity]|reflexivity|reflexivity].
    unfold error_turn. cbn [e_lookahead e_count e_errorok e_illegals sym_type e_states e_syms e_pushed e_input].
    change (states_of ((q, v) :: s)) with (number q :: states_of s).
    destruct (states_head s) as [rest ->]. reflexivity.
Qed.

(** ** One turn of the model is some turns of ply *)

Theorem step_sim : forall y e, path (y_stack y) -> Forall (fun t => fst (fst t) <> tEnd) (y_rest y) -> sim y e ->
  match ystep y with
  | YGo y1 => exists e1, sim y1 e1 /\ goes e e1
  | YReturn v errs => fin e (PReturn v (map ply_token errs))
  | YRaise x => fin e (PRaise x)
  end.
Proof.
  intros y e PS GT S0. destruct (look_sim y e PS S0) as (e1 & LK & S & LA). destruct (actions_built _ (top_bound _ PS)) as (row & R & A & ER & D & POS & NE).
  destruct y as [s ts cnt errs]. cbn [y_stack y_rest y_count y_errs] in *. unfold ystep.
  destruct (action_at (top_state s) (la (map fst ts))) as [[j|p|]|] eqn:ACT; cbn [option_map action_number] in LK.
  - (* shift *)
    pose proof (action_shift_in _ _ _ ACT) as IN. pose proof (POS _ _ IN) as PJ. cbn beta iota in PJ.
    destruct LA as [[p DR]|(DR & EL & EI)].
    { exfalso. unfold action_at in ACT. rewrite DR in ACT. discriminate ACT. }
    destruct ts as [|[[t v] pl] ts'].
    { exfalso. unfold action_at in ACT. rewrite DR in ACT. exact (NE j ACT). }
    exists (mkE None [] (number j :: states_of s) (number j) (YTok (ply_token ((t, v), pl)) :: e_syms e1) (cnt - 1) (e_errorok e1) (map ply_token ts') (map ply_token errs)).
    split.
    + destruct S as [S1 S2 S3 (syms & S4a & S4b) S5 S6 S7 S8]. cbn [y_stack y_rest y_count y_errs] in *.
      constructor; cbn [y_stack y_rest y_count y_errs e_pushed e_states e_state e_syms e_count e_errorok e_illegals e_lookahead e_input top_state]; try reflexivity.
      * exists (YTok (ply_token ((t, v), pl)) :: syms). rewrite S4a. split; [reflexivity|]. constructor; [|exact S4b].
        split; [reflexivity|]. cbn [sym_type ply_token t_type fst snd]. destruct t; reflexivity.
      * intros H. rewrite (S6 H). reflexivity.
      * left. split; reflexivity.
    + apply goes_one. unfold parse_turn. rewrite LK. rewrite (proj2 (Z.ltb_lt 0 (number j)) PJ). unfold shift. rewrite EL.
      destruct S as [S1 S2 S3 S4 S5 S6 S7 S8]. cbn [y_stack y_rest y_count y_errs] in *. cbn [la_sym]. rewrite S1, S2, S5, S7, EI. reflexivity.
  - (* reduce *)
    destruct (reduce_ok s _ p PS ACT) as (PB & LEN & _ & j & G). cbn zeta in *. rewrite G.
    assert (PZ : (- Z.of_nat p < 0)%Z) by lia.
    assert (T1 : turn e = reduce P Tb (- Z.of_nat p) e1).
    { unfold parse_turn. rewrite LK. rewrite (proj2 (Z.ltb_ge 0 (- Z.of_nat p))) by lia. rewrite (proj2 (Z.ltb_lt _ _) PZ). reflexivity. }
    destruct S as [S1 S2 S3 (syms & S4a & S4b) S5 S6 S7 S8]. cbn [y_stack y_rest y_count y_errs] in *.
    pose proof (forall2_len _ _ _ _ _ S4b) as LS.
    assert (BN : top_state (skipn (List.length (p_rhs (nprod p))) s) < nstates) by (apply top_bound; now apply path_skipn).
    destruct (gotos_built _ BN) as (grow & GR & GA).
    destruct (has_function p PB) as (fname & FN).
    destruct (states_head (skipn (List.length (p_rhs (nprod p))) s)) as [rest SH].
    assert (T2 : reduce P Tb (- Z.of_nat p) e1 =
      match semact (p_fun (nprod p)) (rev (map snd (firstn (List.length (p_rhs (nprod p))) s))) with
      | Err x => PRaise x
      | Ok v => PGo (mkE (e_lookahead e1) (e_pushed e1) (number j :: states_of (skipn (List.length (p_rhs (nprod p))) s)) (number j)
                       (YName (nt_name (p_lhs (nprod p))) v :: skipn (List.length (p_rhs (nprod p))) (e_syms e1)) (e_count e1) (e_errorok e1) (e_input e1) (e_illegals e1))
      end).
    { unfold reduce. replace (Z.to_nat (- - Z.of_nat p)) with p by lia. rewrite (rule_at p PB). unfold as_production.
      destruct (prod_prec (nprod p)) as [a lv]. cbn [pr_prod pr_func pr_name]. rewrite map_length.
      rewrite S2, S4a, states_length, app_length. cbn [List.length].
      rewrite (proj2 (Nat.ltb_ge _ _)) by lia. rewrite (proj2 (Nat.ltb_ge _ _)) by lia. cbn [orb].
      rewrite (values_of syms s _ S4b LEN), FN, (callables_known _ _ FN).
      destruct (semact _ _) as [v|x]; [|reflexivity]. cbv zeta. rewrite (states_skipn s _ LEN), SH. cbv iota. rewrite GR, GA, G. cbn [option_map]. reflexivity. }
    destruct (semact (p_fun (nprod p)) _) as [v|x] eqn:SM.
    + eexists. split; [|apply goes_one; rewrite T1; exact T2].
      constructor; cbn [y_stack y_rest y_count y_errs e_pushed e_states e_state e_syms e_count e_errorok e_illegals e_lookahead e_input top_state]; try assumption; try reflexivity.
      exists (YName (nt_name (p_lhs (nprod p))) v :: skipn (List.length (p_rhs (nprod p))) syms). split.
      * rewrite S4a, skipn_app. replace (List.length (p_rhs (nprod p)) - List.length syms) with 0 by lia. reflexivity.
      * constructor; [|now apply forall2_skipn]. split; [reflexivity|]. cbn [sym_type]. destruct (p_lhs (nprod p)); reflexivity.
    + apply finishes_now; [rewrite T1; exact T2|discriminate].
  - (* accept *)
    destruct S as [S1 S2 S3 (syms & S4a & S4b) S5 S6 S7 S8]. cbn [y_stack y_rest y_count y_errs] in *.
    apply finishes_now; [|discriminate]. unfold parse_turn. rewrite LK. cbn [Z.ltb Z.compare]. unfold accept. rewrite S4a, S7.
    destruct S4b as [|y [q v] syms s A' F]; [reflexivity|]. cbn [app]. destruct A' as [V _]. cbn [snd] in V.
    destruct y; cbn [sym_value] in *; try discriminate V; injection V as <-; reflexivity.
  - (* error *)
    assert (DR : default_red (act_row (top_state s)) = None).
    { unfold action_at in ACT. destruct (default_red (act_row (top_state s))); [discriminate ACT|reflexivity]. }
    destruct LA as [[p DR']|(_ & EL & EI)]; [congruence|].
    destruct S as [S1 S2 S3 (syms & S4a & S4b) S5 S6 S7 S8]. cbn [y_stack y_rest y_count y_errs] in *.
    assert (T1 : turn e = error_turn e1) by (unfold parse_turn; rewrite LK; reflexivity).
    destruct ts as [|[[t v] pl] ts'].
    + apply finishes_now; [|discriminate]. rewrite T1. unfold error_turn. rewrite EL. cbn [la_sym sym_type].
      rewrite S7. destruct (Nat.eqb (e_count e1) 0 || e_errorok e1); rewrite andb_false_r; reflexivity.
    + rewrite (unwinds_ok s PS).
      assert (TN : type_name t <> "$end").
      { inversion GT as [|x l H1 H2]; subst. cbn [fst] in H1. intros H. apply H1. destruct t; (reflexivity || discriminate H). }
      apply String.eqb_neq in TN. change (type_name t) with (t_type (ply_token ((t, v), pl))) in TN.
      assert (TE : String.eqb (t_type (ply_token ((t, v), pl))) "error" = false) by (destruct t; reflexivity).
      set (ill := map ply_token (if Nat.eqb cnt 0 then errs ++ [((t, v), pl)] else errs)).
      assert (REP : (Nat.eqb (e_count e1) 0 || e_errorok e1)%bool = Nat.eqb cnt 0).
      { rewrite S5. destruct (Nat.eqb cnt 0) eqn:E0; [reflexivity|]. cbn [orb]. destruct (e_errorok e1); [|reflexivity].
        rewrite (S6 eq_refl) in E0. discriminate E0. }
      assert (OK : (if Nat.eqb cnt 0 then false else e_errorok e1) = false).
      { destruct (Nat.eqb cnt 0) eqn:E0; [reflexivity|]. destruct (e_errorok e1); [|reflexivity]. rewrite (S6 eq_refl) in E0. discriminate E0. }
      assert (T2 : error_turn e1 =
        if Nat.leb (List.length (e_states e1)) 1 then PGo (mkE None [] (e_states e1) 0 (e_syms e1) error_count false (map ply_token ts') ill)
        else PGo (mkE (Some (YError (ply_token ((t, v), pl)))) [YTok (ply_token ((t, v), pl))] (e_states e1) (e_state e1) (e_syms e1) error_count false (map ply_token ts') ill)).
      { assert (IL : (if Nat.eqb cnt 0 then Ok (e_illegals e1 ++ [ply_token ((t, v), pl)]) else Ok (e_illegals e1)) = Ok ill).
        { unfold ill. rewrite S7. destruct (Nat.eqb cnt 0); [rewrite map_app|]; reflexivity. }
        change (e_lookahead e1 = Some (YTok (ply_token ((t, v), pl)))) in EL. cbn [tl] in EI.
        revert TN TE EL IL. generalize (ply_token ((t, v), pl)). clearbody ill. intros tk TN TE EL IL.
        unfold error_turn. rewrite EL. cbn [sym_type].
        rewrite REP, OK, TN, TE. cbn [negb]. rewrite andb_true_r. rewrite IL, EI, S1, S4a.
        destruct (Nat.leb (List.length (e_states e1)) 1); [reflexivity|].
        destruct S4b as [|y qv syms s [_ NEr] F]; cbn [app]; [reflexivity|]. rewrite NEr. reflexivity. }
      exists (mkE None [] [0%Z] 0 [YEnd] error_count false (map ply_token ts') ill). split.
      { constructor; cbn [y_stack y_rest y_count y_errs e_pushed e_states e_state e_syms e_count e_errorok e_illegals e_lookahead e_input top_state]; try reflexivity.
        - exists []. split; [reflexivity|constructor].
        - intros H; discriminate H.
        - left. split; reflexivity. }
      rewrite T2 in T1. destruct s as [|[q w] s].
      * inversion S4b; subst syms. rewrite S2, S4a in T1. apply goes_one. exact T1.
      * assert (L1 : Nat.leb (List.length (e_states e1)) 1 = false).
        { rewrite S2. unfold states_of. rewrite app_length, map_length. cbn [List.length]. apply Nat.leb_gt. lia. }
        rewrite L1 in T1. eapply goes_trans; [apply goes_one; exact T1|]. rewrite S2, S3, S4a.
        apply unwound; [exact PS|exact S4b|].
        cbn [map fst app forallb]. cbn [top_state] in DR. rewrite DR. cbn [andb].
        exact (unwinds_ok _ PS).
Qed.

Lemma ystep_rest : forall y y1, Forall (fun t => fst (fst t) <> tEnd) (y_rest y) -> ystep y = YGo y1 ->
  Forall (fun t => fst (fst t) <> tEnd) (y_rest y1).
Proof.
  intros [s ts cnt errs] y1 F H. unfold ystep in H. cbn [y_rest] in *.
  destruct (action_at (top_state s) (la (map fst ts))) as [[j|p|]|].
  - destruct ts as [|[[t v] pl] ts']; [discriminate H|]. injection H as <-. cbn [y_rest]. now inversion F.
  - destruct (semact _ _); [|discriminate H]. destruct (assoc_nt _ _); [|discriminate H]. injection H as <-. exact F.
  - discriminate H.
  - destruct ts as [|t ts']; [discriminate H|]. destruct (unwinds s); [|discriminate H]. injection H as <-. cbn [y_rest]. now inversion F.
Qed.

Lemma run_sim : forall f y e, room y < f -> path (y_stack y) -> Forall (fun t => fst (fst t) <> tEnd) (y_rest y) -> sim y e ->
  match yrun f y with
  | YGo _ => False
  | YReturn v errs => fin e (PReturn v (map ply_token errs))
  | YRaise x => fin e (PRaise x)
  end.
Proof.
  intros f; induction f as [|f IH]; intros y e L PS F S; [lia|]. cbn [yrun].
  pose proof (step_sim y e PS F S) as H. destruct (ystep y) as [y1|v errs|x] eqn:E; [|exact H|exact H].
  destruct H as (e1 & S1 & G). destruct (ystep_room y y1 PS E) as [PS1 R1].
  assert (L1 : room y1 < f) by lia. specialize (IH y1 e1 L1 PS1 (ystep_rest y y1 F E) S1).
  destruct (yrun f y1); [exact IH|exact (G _ IH)|exact (G _ IH)].
Qed.

Theorem parses_as : forall ok ts, Forall (fun t => fst (fst t) <> tEnd) ts ->
  match yacc ts with
  | YGo _ => False
  | YReturn v errs => fin (parse_start ok (map ply_token ts)) (PReturn v (map ply_token errs))
  | YRaise x => fin (parse_start ok (map ply_token ts)) (PRaise x)
  end.
Proof.
  intros ok ts F. unfold yacc. apply run_sim.
  - unfold room, potential. cbn. rewrite ?map_length. lia.
  - constructor.
  - exact F.
  - constructor; cbn; try reflexivity.
    + exists []. split; [reflexivity|constructor].
    + left. split; reflexivity.
Qed.
