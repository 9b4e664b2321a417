(** Lemmas behind the constructor properties C01-C06. *)
From Coq Require Import List ZArith QArith Bool Permutation Sorted Lia.
From Verif Require Import PyBase Num Val Sorting RVModel Spec CmpFacts SortFacts MassFacts NumFacts RVFacts.
Import ListNotations.
Open Scope Z_scope.

Lemma combine_nil_iff (vs : list pval) (ps : list Z) : length vs = length ps -> (combine vs ps = [] <-> vs = []).
Proof. destruct vs, ps; cbn; intro; split; intro; congruence. Qed.

Lemma combine_zero vs ps : length vs = length ps ->
  (Forall (fun x : pval * Z => snd x = 0) (combine vs ps) <-> Forall (fun p => p = 0) ps).
Proof.
  intro H. rewrite <- (probs_combine vs ps H) at 2. unfold probs. rewrite Forall_map. reflexivity.
Qed.

(** the inputs for which nothing remains *)
Definition empty_input (c : cfg) (vs : list pval) (ps : list Z) : Prop :=
  vs = [] \/ (cfg_skip0 c = true /\ Forall (fun p => p = 0) ps).

Lemma nothing_left_input c vs ps : length vs = length ps -> Forall (fun p => 0 <= p) ps ->
  nothing_left c (combine vs ps) = true <-> empty_input c vs ps.
Proof.
  intros Hl Hp. rewrite nothing_left_iff by (apply nonneg_combine, Hp).
  unfold empty_input. rewrite combine_nil_iff, combine_zero by exact Hl. reflexivity.
Qed.

Lemma construct_preserves c vs ps d :
  cfg_trunc c = false -> mk_dist c vs ps = Ok d ->
  (empty_input c vs ps -> d = [(vint 0, 1)]) /\
  (~ empty_input c vs ps ->
     (exists g, 0 < g /\ forall v, wt (combine vs ps) v = g * wt d v) /\
     forall v, listed v d =
               if cfg_skip0 c then 0 <? wt (combine vs ps) v else listed v (combine vs ps)).
Proof.
  intros Ht H. apply mk_dist_inv in H as (Hl & Hp & ->); [|exact Ht].
  pose proof (nothing_left_input c vs ps Hl Hp) as N. split; intro K.
  - apply normal_nothing, N, K.
  - assert (E : nothing_left c (combine vs ps) = false)
      by (destruct (nothing_left c (combine vs ps)); [exfalso; apply K, N; reflexivity | reflexivity]).
    split.
    + destruct (normal_mass c _ E) as (g & Hg & HM). exists g. split; [exact Hg|].
      intro v. apply HM, vresp_veqb.
    + intro v. apply normal_listed; [apply nonneg_combine, Hp | exact E].
Qed.

Lemma vltb_vals d : strict d <-> StronglySorted (fun a b => vltb a b = true) (vals d).
Proof.
  unfold strict, vals. split.
  - apply StronglySorted_map. intros x y H. unfold vlt in H. unfold vltb. rewrite H. reflexivity.
  - induction d as [|x d IH]; cbn; intro H; [constructor|].
    inversion H as [|? ? Hs Hf]; subst. constructor; [apply IH, Hs|].
    rewrite Forall_map in Hf. eapply Forall_impl; [|exact Hf]. intros y. unfold vltb, vlt.
    destruct (vcmp (fst x) (fst y)); congruence.
Qed.

Definition no_common_factor (ps : list Z) : Prop :=
  forall k, (forall p, In p ps -> (k | p)) -> k = 1 \/ k = -1.

Lemma gcd_no_common ps : gcd_list ps = 1 -> no_common_factor ps.
Proof.
  intros H k Hk. apply gcd_list_greatest in Hk. rewrite H in Hk.
  apply Z.divide_1_r in Hk. lia.
Qed.

Lemma construct_canonical c tr vs ps d : mk_dist_tr c tr vs ps = Ok d ->
  d <> [] /\ StronglySorted (fun a b => vltb a b = true) (vals d) /\
  Forall (fun p => 0 <= p) (probs d) /\
  (no_common_factor (probs d) \/ Forall (fun p => p = 0) (probs d)).
Proof.
  intro H. apply mk_dist_tr_inv in H as (Hl & Hp & vs' & _ & _ & ->).
  destruct (normal_canon c (combine vs' ps) (nonneg_combine vs' ps Hp)) as [(H1 & H2 & H3) H4].
  split; [exact H1|]. split; [apply vltb_vals, H2|]. split; [apply nonneg_probs, H3|].
  destruct H4 as [H4|H4]; [left; apply gcd_no_common, H4 | right; apply gcd_zero, H4].
Qed.

(** the two results are numerically identical: pairwise equal values, identical weights *)
Definition same_repr (d d' : dist) : Prop :=
  Forall2 (fun x y => veqb x y = true) (vals d) (vals d') /\ probs d = probs d'.

Lemma same_repr_equal d d' : same_repr d d' <-> dists_equal d d' = true.
Proof. rewrite dists_equal_iff. unfold same_repr. rewrite Forall2_map_fst. reflexivity. Qed.

Lemma same_repr_refl d : same_repr d d.
Proof.
  split; [|reflexivity]. induction (vals d); constructor; auto. apply veqb_refl.
Qed.

Lemma listed_false_wt l v : listed v l = false -> wt l v = 0.
Proof. intro H. apply wt_strict_notin. apply listed_false, H. Qed.

(** Inputs with proportional weights on the same listed values. *)
Lemma construct_unique c vs ps vs' ps' d d' ka kb :
  cfg_trunc c = false -> mk_dist c vs ps = Ok d -> mk_dist c vs' ps' = Ok d' ->
  0 < ka -> 0 < kb ->
  (forall v, ka * wt (combine vs ps) v = kb * wt (combine vs' ps') v) ->
  (forall v, listed v (combine vs ps) = listed v (combine vs' ps')) ->
  same_repr d d'.
Proof.
  intros Ht H H' Ha Hb HW HL.
  apply mk_dist_inv in H as (Hl & Hp & ->); [|exact Ht].
  apply mk_dist_inv in H' as (Hl' & Hp' & ->); [|exact Ht].
  set (l := combine vs ps) in *. set (l' := combine vs' ps') in *.
  assert (Hn : nonneg l) by (apply nonneg_combine, Hp).
  assert (Hn' : nonneg l') by (apply nonneg_combine, Hp').
  assert (NL : nothing_left c l = nothing_left c l').
  { assert (forall m m', nonneg m -> nonneg m' ->
        (forall v, listed v m = listed v m') -> (exists a b, 0 < a /\ 0 < b /\ forall v, a * wt m v = b * wt m' v) ->
        nothing_left c m = true -> nothing_left c m' = true) as K.
    { clear. intros m m' Hn Hn' HL (a & b & Ha & Hb & HW). rewrite !nothing_left_iff by assumption.
      intros [->|[Hc Hz]].
      - left. destruct m' as [|x m']; [reflexivity|]. specialize (HL (fst x)). cbn in HL.
        rewrite veqb_refl in HL. discriminate.
      - right. split; [exact Hc|]. apply Forall_forall. intros x Hx.
        assert (W : wt m' (fst x) = 0).
        { specialize (HW (fst x)). unfold wt in HW at 1. rewrite mass_zero_weights in HW by exact Hz. nia. }
        assert (snd x <= wt m' (fst x)).
        { clear -Hn' Hx. unfold nonneg in *. unfold wt. induction Hn' as [|[v p] m H Hm IH]; [destruct Hx|].
          cbn. destruct Hx as [<-|Hx].
          - cbn. rewrite veqb_refl. pose proof (mass_nonneg (veqb v) m Hm). cbn in *. lia.
          - specialize (IH Hx). cbn in H. destruct (veqb (fst x) v); lia. }
        unfold nonneg in Hn'. rewrite Forall_forall in Hn'. specialize (Hn' _ Hx). lia. }
    destruct (nothing_left c l) eqn:E1, (nothing_left c l') eqn:E2; try reflexivity.
    - rewrite <- E2. symmetry. apply (K l l'); auto. exists ka, kb. auto.
    - rewrite <- E1. apply (K l' l); auto. exists kb, ka. split; [auto|split; [auto|]]. intro; symmetry; auto. }
  destruct (nothing_left c l) eqn:E1; symmetry in NL.
  - rewrite !normal_nothing by assumption. apply same_repr_refl.
  - destruct (normal_mass c l E1) as (g & Hg & HM). destruct (normal_mass c l' NL) as (g' & Hg' & HM').
    unfold same_repr. rewrite Forall2_map_fst.
    apply (canon_unique _ _ (ka * g) (kb * g')); try (apply normal_canon; assumption); try nia.
    + intro v. rewrite !normal_listed by assumption. rewrite HL.
      destruct (cfg_skip0 c); [|reflexivity].
      specialize (HW v).
      destruct (Z.ltb_spec 0 (wt l v)), (Z.ltb_spec 0 (wt l' v)); try reflexivity; nia.
    + intro v. unfold wt. rewrite <- !Z.mul_assoc, <- HM, <- HM' by apply vresp_veqb. apply HW.
Qed.

Lemma construct_permutation c vs ps vs' ps' d :
  cfg_trunc c = false -> length vs' = length ps' -> Permutation (combine vs ps) (combine vs' ps') ->
  mk_dist c vs ps = Ok d -> exists d', mk_dist c vs' ps' = Ok d' /\ same_repr d d'.
Proof.
  intros Ht Hl HP H. pose proof H as H0. apply mk_dist_inv in H0 as (Hl0 & Hp0 & _); [|exact Ht].
  assert (Hp' : Forall (fun p => 0 <= p) ps').
  { rewrite <- (probs_combine vs' ps' Hl). apply nonneg_probs.
    eapply nonneg_perm; [exact HP | apply nonneg_combine, Hp0]. }
  exists (normal c (combine vs' ps')). split; [apply mk_dist_ok; assumption|].
  eapply (construct_unique c vs ps vs' ps' _ _ 1 1); eauto; try lia.
  - apply mk_dist_ok; assumption.
  - intro v. unfold wt. rewrite (mass_perm _ _ _ HP). reflexivity.
  - intro v. apply listed_perm, HP.
Qed.

(** ** Acceptance *)
Definition all_numbers (vs : list pval) : Prop := Forall (fun v => exists n, v = VN n) vs.

Lemma mapM_vtrunc_ok vs : all_numbers vs -> exists vs', mapM vtrunc vs = Ok vs'.
Proof.
  induction 1 as [|v vs [n ->] _ [vs' IH]]; cbn; [eauto|]. rewrite IH. cbn. eauto.
Qed.

Lemma mapM_vtrunc_inv vs vs' : mapM vtrunc vs = Ok vs' -> all_numbers vs.
Proof.
  revert vs'. induction vs as [|v vs IH]; cbn; intros vs' H; [constructor|].
  destruct v as [n|s]; cbn in H; [|discriminate].
  destruct (mapM vtrunc vs) eqn:E; cbn in H; [|discriminate].
  constructor; [eauto | eapply IH; reflexivity].
Qed.

Lemma mapM_vtrunc_err vs e : mapM vtrunc vs = Err e -> e = TypeErr.
Proof.
  induction vs as [|v vs IH]; cbn; intro H; [discriminate|].
  destruct v as [n|s]; cbn in H; [|congruence].
  destruct (mapM vtrunc vs) eqn:E; cbn in H; [discriminate|]. inversion H; subst. apply IH. reflexivity.
Qed.

Lemma construct_accepts c tr vs ps :
  (exists d, mk_dist_tr c tr vs ps = Ok d) <->
  length vs = length ps /\ Forall (fun p => 0 <= p) ps /\
  (truncating c tr = true -> all_numbers vs).
Proof.
  split.
  - intros [d H]. apply mk_dist_tr_inv in H as (Hl & Hp & vs' & E & _ & _).
    split; [exact Hl|]. split; [exact Hp|]. intro T. unfold eff_vals in E. rewrite T in E.
    eapply mapM_vtrunc_inv, E.
  - intros (Hl & Hp & HT). unfold mk_dist_tr, assert_. rewrite Hl, Nat.eqb_refl.
    fold (truncating c tr). 
    assert (exists vs', (if truncating c tr then mapM vtrunc vs else Ok vs) = Ok vs' /\ length vs' = length vs) as (vs' & E & El).
    { destruct (truncating c tr).
      - destruct (mapM_vtrunc_ok vs (HT eq_refl)) as [vs' E]. exists vs'. split; [exact E | eapply mapM_length, E].
      - eauto. }
    rewrite E. cbn [bind]. rewrite sort_and_group_eq by (apply nonneg_combine, Hp). cbn [bind]. eauto.
Qed.

Lemma construct_error c tr vs ps e : mk_dist_tr c tr vs ps = Err e -> e = AssertErr \/ e = TypeErr.
Proof.
  unfold mk_dist_tr, assert_. destruct (Nat.eqb _ _); [|intro H; inversion H; auto].
  destruct (if match tr with Some b => b | None => cfg_trunc c end then mapM vtrunc vs else Ok vs) eqn:E; cbn [bind].
  - unfold sort_and_group, assert_. destruct (forallb _ _); cbn; intro H; inversion H; auto.
  - intro H. inversion H; subst. destruct (match tr with Some b => b | None => cfg_trunc c end); [|discriminate].
    right. eapply mapM_vtrunc_err, E.
Qed.

(** ** Equality of dice *)
Definition positive_weights (d : dist) : Prop := Forall (fun p => 0 < p) (probs d).

Lemma positive_listed d v : strict d -> positive_weights d -> listed v d = (0 <? wt d v).
Proof.
  intros Hs Hp. destruct (listed v d) eqn:E; symmetry.
  - apply listed_iff in E as (x & Hx & Hv). rewrite (wt_congr _ _ _ Hv), (wt_strict _ _ Hs Hx).
    unfold positive_weights in Hp. rewrite Forall_forall in Hp. apply Z.ltb_lt, Hp. apply in_map, Hx.
  - rewrite listed_false_wt by exact E. reflexivity.
Qed.

Lemma positive_total d : d <> [] -> positive_weights d -> 0 < total d.
Proof.
  intros Hne Hp. destruct d as [|[v p] d]; [congruence|]. inversion Hp as [|? ? H1 H2]; subst.
  unfold total. cbn in *.
  assert (nonneg d) as Hn.
  { apply nonneg_probs. eapply Forall_impl; [|exact H2]. cbn; lia. }
  pose proof (mass_nonneg (fun _ : pval => true) d Hn). lia.
Qed.

Lemma same_law_cross a b : total a <> 0 -> total b <> 0 ->
  (same_law a b <-> forall v, wt a v * total b = wt b v * total a).
Proof.
  intros Ha Hb. split; intros H v.
  - apply frac_eq_inv; auto. apply H.
  - apply frac_eq; auto.
Qed.

Lemma dices_equal_same_law d d' : canon d -> canon d' -> positive_weights d -> positive_weights d' ->
  (dists_equal d d' = true <-> same_law d d').
Proof.
  intros C C' P P'. pose proof C as [(Hne & Hs & Hn) _]. pose proof C' as [(Hne' & Hs' & Hn') _].
  pose proof (positive_total d Hne P). pose proof (positive_total d' Hne' P').
  rewrite same_law_cross by lia. split.
  - intros E v. rewrite (dists_equal_wt _ _ v E), (dists_equal_total _ _ E). reflexivity.
  - intro HW. apply dists_equal_iff.
    apply (canon_unique d d' (total d') (total d)); auto.
    + intro v. rewrite !positive_listed by assumption. specialize (HW v).
      destruct (Z.ltb_spec 0 (wt d v)), (Z.ltb_spec 0 (wt d' v)); try reflexivity; nia.
    + intro v. specialize (HW v). lia.
Qed.

Lemma dices_equal_iff_constructed c vs ps vs' ps' d d' :
  mk_dist c vs ps = Ok d -> mk_dist c vs' ps' = Ok d' -> positive_weights d -> positive_weights d' ->
  (dists_equal d d' = true <-> same_law d d').
Proof.
  intros H H' P P'. apply mk_dist_tr_inv in H as (_ & Hp & x & _ & _ & ->).
  apply mk_dist_tr_inv in H' as (_ & Hp' & x' & _ & _ & ->).
  apply dices_equal_same_law; auto; apply normal_canon, nonneg_combine; assumption.
Qed.

Lemma dists_equal_refl d : dists_equal d d = true.
Proof. apply same_repr_equal, same_repr_refl. Qed.

Lemma dists_equal_sym d d' : dists_equal d d' = dists_equal d' d.
Proof.
  assert (forall a b, dists_equal a b = true -> dists_equal b a = true) as K.
  { intros a b. rewrite <- !same_repr_equal. intros [H E]. split; [|congruence].
    clear E. induction H; constructor; auto. rewrite veqb_sym. assumption. }
  destruct (dists_equal d d') eqn:E, (dists_equal d' d) eqn:F; try reflexivity.
  - rewrite (K _ _ E) in F. discriminate.
  - rewrite (K _ _ F) in E. discriminate.
Qed.

Lemma dists_equal_trans a b c : dists_equal a b = true -> dists_equal b c = true -> dists_equal a c = true.
Proof.
  rewrite <- !same_repr_equal. intros [H E] [H' E']. split; [|congruence]. clear E E'.
  revert H'. generalize (vals c). induction H; intros l2 H'; inversion H'; subst; constructor.
  - eapply veqb_trans; eauto.
  - apply IHForall2. assumption.
Qed.

(** ** Truncation *)
Definition trunc_to (k : Z) (v : pval) : bool :=
  match v with VN n => ntrunc n =? k | VS _ => false end.

Lemma trunc_to_spec k n : trunc_to k (VN n) = true <-> int_part (numQ n) k.
Proof.
  cbn. rewrite Z.eqb_eq. split.
  - intros <-. apply ntrunc_spec.
  - intro H. eapply int_part_unique; [apply ntrunc_spec | exact H].
Qed.

Lemma mapM_vtrunc_wt vs vs' ps k : mapM vtrunc vs = Ok vs' ->
  wt (combine vs' ps) (vint k) = mass (trunc_to k) (combine vs ps).
Proof.
  revert vs' ps. induction vs as [|v vs IH]; cbn; intros vs' ps H; [inversion H; reflexivity|].
  destruct v as [n|s]; cbn in H; [|discriminate].
  destruct (mapM vtrunc vs) as [vs''|] eqn:E; cbn in H; [|discriminate]. inversion H; subst.
  destruct ps as [|p ps]; [reflexivity|]. unfold wt. cbn [combine mass].
  rewrite veqb_int. cbn [trunc_to]. rewrite (Z.eqb_sym k). f_equal. apply IH. reflexivity.
Qed.

Lemma mapM_vtrunc_ints vs vs' : mapM vtrunc vs = Ok vs' -> Forall (fun v => v_is_int v = true) vs'.
Proof.
  revert vs'. induction vs as [|v vs IH]; cbn; intros vs' H; [inversion H; constructor|].
  destruct v as [n|s]; cbn in H; [|discriminate].
  destruct (mapM vtrunc vs) as [vs''|] eqn:E; cbn in H; [|discriminate]. inversion H; subst.
  constructor; [reflexivity | apply IH; reflexivity].
Qed.

Lemma construct_truncates c tr vs ps d :
  truncating c tr = true -> mk_dist_tr c tr vs ps = Ok d -> ~ empty_input c vs ps ->
  exists g, 0 < g /\ forall k, mass (trunc_to k) (combine vs ps) = g * wt d (vint k).
Proof.
  intros T H NE. apply mk_dist_tr_inv in H as (Hl & Hp & vs' & E & El & ->).
  unfold eff_vals in E. rewrite T in E.
  assert (N : nothing_left c (combine vs' ps) = false).
  { destruct (nothing_left c (combine vs' ps)) eqn:N; [|reflexivity]. exfalso. apply NE.
    apply nothing_left_input in N; [|congruence|exact Hp].
    destruct N as [->|N]; [left; destruct vs; [reflexivity|discriminate] | right; exact N]. }
  destruct (normal_mass c _ N) as (g & Hg & HM). exists g. split; [exact Hg|].
  intro k. rewrite <- (mapM_vtrunc_wt vs vs' ps k E). apply HM, vresp_veqb.
Qed.

(** every value listed in the result comes from an input value *)
Lemma normal_vals_in c l x : In x (normal c l) -> nothing_left c l = false -> In (fst x) (vals l).
Proof.
  intros Hx N. rewrite normal_something in Hx by exact N.
  assert (K : In (fst x) (vals (grouped c l))) by (rewrite <- get_normalized_vals; apply in_map, Hx).
  unfold grouped, get_new_zipped in K.
  assert (K' : In (fst x) (vals (group (rev (get_zip l))))).
  { destruct (cfg_skip0 c); [|exact K]. unfold vals in *. apply in_map_iff in K as (y & <- & Hy).
    apply filter_In in Hy as [Hy _]. apply in_map, Hy. }
  assert (KK : In (fst x) (vals (rev (get_zip l)))).
  { destruct (rev (get_zip l)) as [|y m]; [exact K'|]. unfold vals in *.
    apply in_map_iff in K' as (z & <- & Hz). apply group_from_in in Hz. exact Hz. }
  eapply Permutation_in; [|exact KK]. apply Permutation_sym. unfold vals. apply Permutation_map, asc_perm.
Qed.

Lemma construct_truncated_ints c tr vs ps d :
  truncating c tr = true -> mk_dist_tr c tr vs ps = Ok d -> int_vals d.
Proof.
  intros T H. apply mk_dist_tr_inv in H as (Hl & Hp & vs' & E & El & ->).
  unfold eff_vals in E. rewrite T in E. apply mapM_vtrunc_ints in E.
  destruct (nothing_left c (combine vs' ps)) eqn:N.
  - rewrite normal_nothing by exact N. repeat constructor.
  - apply Forall_forall. intros x Hx. apply normal_vals_in in Hx; [|exact N].
    rewrite vals_combine in Hx by congruence. rewrite Forall_forall in E. apply E, Hx.
Qed.

Lemma mk_dist_int_vals c vs ps d : mk_dist c vs ps = Ok d ->
  Forall (fun v => v_is_int v = true) vs -> int_vals d.
Proof.
  intros H Hi. unfold mk_dist in H. destruct (truncating c None) eqn:T.
  - eapply construct_truncated_ints; eauto.
  - apply mk_dist_inv in H as (Hl & Hp & ->); [|exact T].
    destruct (nothing_left c (combine vs ps)) eqn:N.
    + rewrite normal_nothing by exact N. repeat constructor.
    + apply Forall_forall. intros x Hx. apply normal_vals_in in Hx; [|exact N].
      rewrite vals_combine in Hx by congruence. rewrite Forall_forall in Hi. apply Hi, Hx.
Qed.

Lemma int_val_eq v w : v_is_int v = true -> v_is_int w = true -> veqb v w = true -> v = w.
Proof.
  destruct v as [[x|]|], w as [[y|]|]; cbn [v_is_int is_int]; try discriminate. intros _ _ H.
  change (veqb (vint x) (vint y) = true) in H. rewrite veqb_int in H. apply Z.eqb_eq in H. congruence.
Qed.

(** for integer values "numerically identical" is identity *)
Lemma same_repr_int_eq d d' : int_vals d -> int_vals d' -> same_repr d d' -> d = d'.
Proof.
  intros Hi Hi' [H E]. unfold vals, probs in *. revert d' Hi' H E.
  induction d as [|[v p] d IH]; intros [|[v' p'] d'] Hi' H E; cbn in *; inversion H; subst; try reflexivity.
  inversion E; subst. inversion Hi; subst. inversion Hi'; subst. cbn in *.
  f_equal; [f_equal; apply int_val_eq; assumption | apply IH; assumption].
Qed.
