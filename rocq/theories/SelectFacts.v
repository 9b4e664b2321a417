(** Selecting positions of a roll: [k @ roll(n, d)] and [S @ roll(n, d)]. *)
From Coq Require Import String List ZArith QArith Qabs Bool Permutation Sorted Lia Lqa.
From Verif Require Import PyBase Num Val Sorting RVModel Obj RollModel RollSpec AtModel Spec CmpFacts SortFacts MassFacts RVFacts ConstructFacts IntFacts LimitFacts OpFacts ConvFacts UnaryFacts MixFacts RollFacts RollObjFacts OrderFacts ExpandFacts.
Import ListNotations.
Open Scope Z_scope.

(** ** Mixing plain values *)
Section Vals.
  Variable L : list (pval * Z).
  Let l := map MxVal (map fst L).
  Let ws := map snd L.
  Let cs := components l ws.

  Lemma vals_components : cs = map (fun vw => (snd vw, [(fst vw, 1)])) L.
  Proof. unfold cs, l, ws. induction L as [|[v w] L' IH]; [reflexivity|]. cbn [map components mx_law fst snd]. rewrite IH. reflexivity. Qed.
  Lemma vals_wtotal : wtotal cs = total L.
  Proof.
    rewrite vals_components. unfold wtotal, total. rewrite map_map. cbn [fst].
    induction L as [|[v w] L' IH]; [reflexivity|]. cbn [map mass snd]. unfold sumZ in *. cbn [fold_right]. rewrite IH. reflexivity.
  Qed.
  Lemma vals_denominators : denominators cs = 1.
  Proof.
    rewrite vals_components. unfold denominators, zprod. clear. induction L as [|[v w] L' IH]; [reflexivity|].
    cbn [map snd fst fold_right]. rewrite IH. reflexivity.
  Qed.
  Lemma vals_mixture v : (mixture v cs == Pr L v)%Q.
  Proof.
    unfold mixture, Pr. rewrite vals_wtotal. apply Qdiv_comp; [|reflexivity]. rewrite vals_components. unfold wt.
    clear. induction L as [|[a w] L' IH]; [reflexivity|]. cbn [map mix_num mass fst snd]. rewrite IH, inject_Z_plus.
    apply Qplus_comp; [|reflexivity]. unfold PrP, total. cbn [mass]. destruct (veqb v a).
    - change (inject_Z (1 + 0) / inject_Z (1 + 0))%Q with 1%Q. ring.
    - change (inject_Z (0 + 0) / inject_Z (1 + 0))%Q with 0%Q. ring.
  Qed.
  Hypothesis N : nonneg L.
  Lemma vals_good : Forall good cs.
  Proof.
    rewrite vals_components. apply Forall_map. eapply Forall_impl; [|exact N]. intros [v w] H. split; [exact H|].
    split; [repeat constructor; cbn; lia|reflexivity].
  Qed.
  Lemma vals_mix_length : length (mix_list cs) = length L.
  Proof. rewrite mix_list_length, vals_components. clear. induction L as [|a L' IH]; [reflexivity|]. cbn [map fold_right snd length]. rewrite IH. reflexivity. Qed.

  Lemma from_vals c : cfg_trunc c = false -> 0 < total L -> total L <= SUM_LIMIT ->
    exists r, from_rvs c l ws = Ok (Some r) /\ rv_roll r = 1 /\ rv_src r = None /\ canon (rv_dist r) /\ proper (rv_dist r) /\
      same_law (rv_dist r) L.
  Proof.
    intros T P H.
    assert (E : length l = length ws) by (unfold l, ws; now rewrite !map_length).
    destruct (from_rvs_succeeds c l ws T E vals_good) as [r Hr].
    { fold cs. rewrite vals_denominators, vals_wtotal. unfold SUM_LIMIT in H. lia. }
    destruct (from_rvs_below c l ws r T E vals_good) as (x & -> & R & S & C & Px & HP); auto; fold cs.
    - rewrite vals_wtotal. exact P.
    - rewrite vals_denominators, vals_wtotal. lia.
    - exists x. split; [exact Hr|]. repeat (split; [assumption|]). intro v. rewrite HP. apply vals_mixture.
  Qed.
  Lemma from_vals_close c : cfg_trunc c = false -> 0 < total L -> total L < 2 ^ 1024 - 2 ^ 970 -> Z.of_nat (length L) <= 10 ^ 10 ->
    exists r, from_rvs c l ws = Ok (Some r) /\ rv_roll r = 1 /\ rv_src r = None /\
      forall v, (Qabs (Pr (rv_dist r) v - Pr L v) <= 1 # 1000000000)%Q.
  Proof.
    intros T P H HL.
    assert (E : length l = length ws) by (unfold l, ws; now rewrite !map_length).
    destruct (from_rvs_succeeds c l ws T E vals_good) as [r Hr].
    { fold cs. rewrite vals_denominators, vals_wtotal. lia. }
    destruct (from_rvs_law c l ws r T E vals_good) as (x & -> & R & S & _); auto; [fold cs; rewrite vals_wtotal; exact P|].
    exists x. split; [exact Hr|]. split; [exact R|]. split; [exact S|]. intro v. rewrite <- (vals_mixture v).
    apply (from_rvs_close c l ws x T E vals_good); auto; fold cs; [rewrite vals_wtotal; exact P|rewrite vals_mix_length; exact HL].
  Qed.
End Vals.

(** ** One position *)
Lemma get_seq_int k : get_seq [oint k] = Ok (OSeq [vint k]).
Proof. reflexivity. Qed.

Lemma at_single c k x : rv_rmatmul c (oint k) x =
  (r <- kth_order c (rv_die x) (rv_roll x) k ;; Ok (match r with Some r => ORV r | None => oint 0 end)).
Proof. reflexivity. Qed.

(** ** Several positions *)
Lemma seq_get_entry l i : seq_get l i = entry i l.
Proof.
  unfold seq_get, entry. destruct (Z.leb_spec 0 (i - 1)), (Z.leb_spec 1 i), (Z.ltb_spec (i - 1) (Z.of_nat (length l))), (Z.leb_spec i (Z.of_nat (length l))); try lia; reflexivity.
Qed.
Lemma entry_int k t : Forall (fun v => v_is_int v = true) t -> v_is_int (entry k t) = true.
Proof.
  intro F. unfold entry. destruct ((1 <=? k) && (k <=? Z.of_nat (length t))); [|reflexivity].
  destruct (nth_in_or_default (Z.to_nat (k - 1)) t (vint 0)) as [I|E]; [exact (proj1 (Forall_forall _ _) F _ I)|rewrite E; reflexivity].
Qed.
Lemma fold_add_ints l : Forall (fun v => v_is_int v = true) l -> forall acc,
  foldM (vop OAdd) (vint acc) l = Ok (vint (acc + sumZ (map toZ l))).
Proof.
  induction 1 as [|v l Hv F IH]; intro acc; [cbn; now rewrite Z.add_0_r|]. cbn [foldM].
  rewrite vop_add_int by auto. cbn [bind]. change (toZ (vint acc)) with acc. rewrite IH. unfold sumZ. cbn [map fold_right]. rewrite Z.add_assoc. reflexivity.
Qed.
Lemma sum_at_ints t locs : Forall (fun v => v_is_int v = true) t ->
  sum_at (OSeq t) locs = Ok (vint (sumZ (map (fun i => toZ (entry i t)) locs))).
Proof.
  intro F. unfold sum_at.
  assert (M : mapM (obj_get (OSeq t)) locs = Ok (map (fun i => entry i t) locs)).
  { induction locs as [|i locs IH]; [reflexivity|]. cbn [mapM map obj_get bind]. rewrite seq_get_entry. cbn [bind]. rewrite IH. reflexivity. }
  rewrite M. cbn [bind]. rewrite (fold_add_ints (map (fun i => entry i t) locs)).
  - rewrite map_map. reflexivity.
  - apply Forall_map, Forall_forall. intros i _. now apply entry_int.
Qed.

Section Select.
  Variables (y : rv) (x : dist).
  Hypothesis HD : rv_die y = x.
  Hypothesis HS : strict x.
  Hypothesis HN : nonneg x.
  Hypothesis HI : int_vals x.
  Hypothesis HR : 0 <= rv_roll y.
  Let n := Z.to_nat (rv_roll y).
  Let R := map (fun t => (t, arrangements x n t)) (roll_list x n).

  Lemma faces_ints t : faces x t -> Forall (fun v => v_is_int v = true) t.
  Proof.
    intro F. eapply Forall_impl; [|exact F]. intros a Ha. apply in_map_iff in Ha. destruct Ha as [[v w] [<- H]].
    exact (proj1 (Forall_forall _ _) HI _ H).
  Qed.
  Lemma roll_list_ints t : In t (roll_list x n) -> Forall (fun v => v_is_int v = true) t.
  Proof. intro H. apply (roll_list_spec x HS) in H. apply faces_ints. tauto. Qed.

  Lemma roll_seqs_ints : roll_seqs y = Ok (map (fun t => (OSeq t, arrangements x n t)) (roll_list x n)).
  Proof.
    unfold roll_seqs. rewrite (expanded_list x HS y HD HR). cbn [bind]. fold n.
    assert (G : forall l, (forall t, In t l -> In t (roll_list x n)) ->
      mapM (fun rp : list pval * Z => s <- (if rv_roll y =? 1 then get_seq (map OV (fst rp)) else Ok (OSeq (fst rp))) ;; Ok (s, snd rp))
        (map (fun t => (t, arrangements x n t)) l) = Ok (map (fun t => (OSeq t, arrangements x n t)) l)).
    { induction l as [|t l IH]; intro H; [reflexivity|]. cbn [map mapM fst snd].
      assert (E : (if rv_roll y =? 1 then get_seq (map OV t) else Ok (OSeq t)) = Ok (OSeq t)).
      { destruct (Z.eqb_spec (rv_roll y) 1) as [E1|]; [|reflexivity].
        pose proof (H t (or_introl eq_refl)) as Ht. pose proof (roll_list_ints t Ht) as F.
        apply (roll_list_spec x HS) in Ht. destruct Ht as [Lt _]. unfold n in Lt. rewrite E1 in Lt.
        destruct t as [|v [|? ?]]; try discriminate Lt. inversion F; subst. destruct v as [[z|]|]; try discriminate. reflexivity. }
      rewrite E. cbn [bind]. rewrite IH; [reflexivity|]. intros s Hs. apply H. right. exact Hs. }
    apply G. auto.
  Qed.

  Definition pick_list (S : list Z) : dist := map (fun t => (vint (sumZ (map (fun i => toZ (entry i t)) S)), arrangements x n t)) (roll_list x n).

  Lemma sum_at_list c S : rv_sum_at c y S =
    (m <- from_rvs c (map MxVal (map fst (pick_list S))) (map snd (pick_list S)) ;;
     Ok (match m with Some r => ORV r | None => OBlank false end)).
  Proof.
    unfold rv_sum_at. rewrite roll_seqs_ints. cbn [bind]. unfold pick_list. rewrite !map_map. cbn [fst snd].
    assert (G : forall l, (forall t, In t l -> In t (roll_list x n)) ->
      mapM (fun rp : obj * Z => sum_at (fst rp) S) (map (fun t => (OSeq t, arrangements x n t)) l) =
      Ok (map (fun t => vint (sumZ (map (fun i => toZ (entry i t)) S))) l)).
    { induction l as [|t l IH]; intro H; [reflexivity|]. cbn [map mapM fst snd].
      rewrite (sum_at_ints t S (roll_list_ints t (H t (or_introl eq_refl)))). cbn [bind].
      rewrite IH; [reflexivity|]. intros s Hs. apply H. right. exact Hs. }
    rewrite G by auto. cbn [bind]. rewrite !map_map. reflexivity.
  Qed.

  Lemma pick_mass S P : mass P (pick_list S) = mass (fun t => P (picked S t)) (tuples n x).
  Proof.
    unfold picked. rewrite <- (roll_list_mass x HS n (fun t => P (vint (sumZ (map (fun i => toZ (entry i t)) S))))).
    unfold pick_list. induction (roll_list x n) as [|t l IH]; [reflexivity|]. cbn [map mass]. rewrite IH. reflexivity.
  Qed.
  Lemma pick_nonneg S : nonneg (pick_list S).
  Proof.
    unfold pick_list, nonneg. apply Forall_map, Forall_forall. intros t _. cbn [snd]. apply mass_nonneg, nonneg_tuples, HN.
  Qed.
  Lemma pick_total S : total (pick_list S) = total x ^ rv_roll y.
  Proof. unfold total at 1. rewrite pick_mass. fold (@total (list pval) (tuples n x)). rewrite total_tuples. unfold n. rewrite Z2Nat.id by lia. reflexivity. Qed.
  Lemma pick_Pr S v : (Pr (pick_list S) v == PrP (fun t => veqb v (picked S t)) (tuples n x))%Q.
  Proof. unfold Pr, PrP. unfold wt. rewrite pick_mass. unfold total at 1. rewrite pick_mass. reflexivity. Qed.

  Lemma select_law c S : cfg_trunc c = false -> 0 < total x -> total x ^ rv_roll y <= SUM_LIMIT ->
    exists q, rv_sum_at c y S = Ok (ORV q) /\ rv_roll q = 1 /\ rv_src q = None /\ canon (rv_dist q) /\ proper (rv_dist q) /\
      forall v, (Pr (rv_dist q) v == PrP (fun t => veqb v (picked S t)) (tuples n x))%Q.
  Proof.
    intros T P H. destruct (from_vals (pick_list S) (pick_nonneg S) c T) as (q & E & Q1 & Q2 & Q3 & Q4 & Q5).
    - rewrite pick_total. apply Z.pow_pos_nonneg; lia.
    - rewrite pick_total. exact H.
    - exists q. rewrite sum_at_list, E. cbn [bind]. repeat (split; [first [assumption|reflexivity]|]). intro v. rewrite <- pick_Pr. apply Q5.
  Qed.
  Lemma select_close c S : cfg_trunc c = false -> 0 < total x -> total x ^ rv_roll y < 2 ^ 1024 - 2 ^ 970 ->
    Z.of_nat (length (roll_list x n)) <= 10 ^ 10 ->
    exists q, rv_sum_at c y S = Ok (ORV q) /\
      forall v, (Qabs (Pr (rv_dist q) v - PrP (fun t => veqb v (picked S t)) (tuples n x)) <= 1 # 1000000000)%Q.
  Proof.
    intros T P H HL. destruct (from_vals_close (pick_list S) (pick_nonneg S) c T) as (q & E & Q1 & Q2 & Q5).
    - rewrite pick_total. apply Z.pow_pos_nonneg; lia.
    - rewrite pick_total. exact H.
    - unfold pick_list. rewrite map_length. exact HL.
    - exists q. rewrite sum_at_list, E. cbn [bind]. split; [reflexivity|]. intro v. rewrite <- pick_Pr. apply Q5.
  Qed.
End Select.

(** ** The selector *)
Lemma int_leaves S : existsb is_label_leaf (map oint S) = false /\ forallb is_number_leaf (map oint S) = true /\
  filter (fun o => negb (is_meta_rv o)) (map oint S) = map oint S /\ flat_map rv_leaf_vals (map oint S) = [] /\
  all_some (map leaf_val (map oint S)) = Some (map vint S) /\ flat_map flat1 (map oint S) = map oint S.
Proof.
  induction S as [|z S (A & B & C & D & E & F)]; [repeat split|]. cbn [map existsb forallb filter flat_map all_some oint leaf_val is_label_leaf is_number_leaf is_meta_rv negb rv_leaf_vals flat1 orb andb app].
  fold (oint z). rewrite A, B, C, D, F, E. repeat split.
Qed.
Lemma select_ints S : get_seq [OIter (map oint S)] = Ok (OSeq (map vint S)).
Proof.
  destruct (int_leaves S) as (A & B & C & D & E & F). unfold get_seq, flatten. cbn [flat_map flat1]. rewrite app_nil_r, F, C, D. cbn [map].
  rewrite app_nil_r, A, B, E. reflexivity.
Qed.
Lemma entries_ints S : all_some (map as_int (seq_entries (OSeq (map vint S)))) = Some S.
Proof. cbn [seq_entries]. induction S as [|z S IH]; [reflexivity|]. cbn [map as_int all_some vint]. rewrite IH. reflexivity. Qed.

Lemma at_several c S x : length S <> 1%nat -> rv_rmatmul c (OIter (map oint S)) x = rv_sum_at c x S.
Proof.
  intro H. unfold rv_rmatmul. rewrite select_ints. cbn [bind]. rewrite entries_ints.
  destruct S as [|a [|b S]]; [reflexivity|cbn in H; lia|reflexivity].
Qed.
Lemma at_one c k x : rv_rmatmul c (OIter [oint k]) x = rv_rmatmul c (oint k) x.
Proof. reflexivity. Qed.
Lemma at_seq c S x : rv_rmatmul c (OSeq (map vint S)) x = rv_rmatmul c (OIter (map oint S)) x.
Proof.
  unfold rv_rmatmul. rewrite select_ints. f_equal.
  destruct (int_leaves S) as (A & B & C & D & E & F). unfold get_seq, flatten. cbn [flat_map flat1]. rewrite app_nil_r.
  replace (map OV (map vint S)) with (map oint S) by (rewrite map_map; reflexivity).
  rewrite C, D. cbn [map]. rewrite app_nil_r, A, B, E. reflexivity.
Qed.

(** ** Rolls *)
Lemma roll_source c calls n x r : Forall int_call calls -> int_vals (rv_dist x) -> 2 <= n ->
  roll_after c calls (oint n) (Some (ORV x)) = Ok (ORV r) -> rv_roll r = n /\ rv_die r = rv_dist x.
Proof.
  intros H I N E. destruct (roll_length c calls n x r H I E) as (A & _ & B).
  destruct (Z.eqb_spec n 1); [lia|]. destruct (Z.leb_spec 2 n); [|lia]. split; [exact A|]. unfold rv_die. rewrite B by lia. reflexivity.
Qed.

Lemma position_law c x y n k : rv_die y = x -> rv_roll y = n ->
  cfg_trunc c = false -> canon x -> 0 < total x -> no_dropped c x -> 1 <= k <= n -> total x ^ n <= SUM_LIMIT ->
  exists q, rv_rmatmul c (oint k) y = Ok (ORV q) /\
    forall v, (Pr (rv_dist q) v ==
      PrP (fun t => veqb v (if cfg_highest c then entry k (descending t) else entry k (ascending t))) (tuples (Z.to_nat n) x))%Q.
Proof.
  intros HD HR T C P D K L. rewrite at_single, HD, HR.
  destruct (kth_order_law c x n k T C P D K L) as (r & E & _ & _ & _ & _ & Q). rewrite E. exists r. split; [reflexivity|exact Q].
Qed.
Lemma position_close c x y n k : rv_die y = x -> rv_roll y = n ->
  cfg_trunc c = false -> canon x -> 0 < total x -> no_dropped c x -> 1 <= k <= n ->
  total x ^ n < 2 ^ 1024 - 2 ^ 970 -> Z.of_nat (length x) <= 10 ^ 10 ->
  exists q, rv_rmatmul c (oint k) y = Ok (ORV q) /\
    forall v, (Qabs (Pr (rv_dist q) v -
      PrP (fun t => veqb v (if cfg_highest c then entry k (descending t) else entry k (ascending t))) (tuples (Z.to_nat n) x)) <= 1 # 1000000000)%Q.
Proof.
  intros HD HR T C P D K L L'. rewrite at_single, HD, HR.
  destruct (kth_order_close c x n k T C P D K L L') as (r & E & _ & _ & Q). rewrite E. exists r. split; [reflexivity|exact Q].
Qed.
Lemma position_outside c x y n k : rv_die y = x -> rv_roll y = n ->
  cfg_trunc c = false -> nonneg x -> ~ 1 <= k <= n -> rv_rmatmul c (oint k) y = Ok (oint 0).
Proof. intros HD HR T N K. rewrite at_single, HD, HR, (kth_order_outside c x n k T N K). reflexivity. Qed.

Lemma roll_position c calls n x k r : Forall int_call calls -> int_vals (rv_dist x) -> 2 <= n ->
  roll_after c calls (oint n) (Some (ORV x)) = Ok (ORV r) ->
  cfg_trunc c = false -> canon (rv_dist x) -> 0 < total (rv_dist x) -> no_dropped c (rv_dist x) ->
  1 <= k <= n -> total (rv_dist x) ^ n <= SUM_LIMIT ->
  exists q, rv_rmatmul c (oint k) r = Ok (ORV q) /\
    forall v, (Pr (rv_dist q) v ==
      PrP (fun t => veqb v (if cfg_highest c then entry k (descending t) else entry k (ascending t))) (tuples (Z.to_nat n) (rv_dist x)))%Q.
Proof. intros H I N E. destruct (roll_source c calls n x r H I N E). now apply position_law. Qed.
Lemma roll_position_close c calls n x k r : Forall int_call calls -> int_vals (rv_dist x) -> 2 <= n ->
  roll_after c calls (oint n) (Some (ORV x)) = Ok (ORV r) ->
  cfg_trunc c = false -> canon (rv_dist x) -> 0 < total (rv_dist x) -> no_dropped c (rv_dist x) ->
  1 <= k <= n -> total (rv_dist x) ^ n < 2 ^ 1024 - 2 ^ 970 -> Z.of_nat (length (rv_dist x)) <= 10 ^ 10 ->
  exists q, rv_rmatmul c (oint k) r = Ok (ORV q) /\
    forall v, (Qabs (Pr (rv_dist q) v -
      PrP (fun t => veqb v (if cfg_highest c then entry k (descending t) else entry k (ascending t))) (tuples (Z.to_nat n) (rv_dist x)))
      <= 1 # 1000000000)%Q.
Proof. intros H I N E. destruct (roll_source c calls n x r H I N E). now apply position_close. Qed.
Lemma roll_position_outside c calls n x k r : Forall int_call calls -> int_vals (rv_dist x) -> 2 <= n ->
  roll_after c calls (oint n) (Some (ORV x)) = Ok (ORV r) ->
  cfg_trunc c = false -> nonneg (rv_dist x) -> ~ 1 <= k <= n -> rv_rmatmul c (oint k) r = Ok (oint 0).
Proof. intros H I N E. destruct (roll_source c calls n x r H I N E). now apply position_outside. Qed.
Lemma die_position c x : cfg_trunc c = false -> rv_roll x = 1 -> rv_src x = None ->
  canon (rv_dist x) -> proper (rv_dist x) -> no_dropped c (rv_dist x) -> total (rv_dist x) <= SUM_LIMIT ->
  exists q, rv_rmatmul c (oint 1) x = Ok (ORV q) /\ same_law (rv_dist q) (rv_dist x).
Proof.
  intros T R S C P D L. destruct (position_law c (rv_dist x) x 1 1) as (q & E & Q); auto; try lia; try apply P.
  - unfold rv_die. now rewrite S.
  - exists q. split; [exact E|]. intro v. rewrite Q. unfold Pr, PrP, wt. rewrite total_tuples. change (Z.of_nat (Z.to_nat 1)) with 1.
    rewrite Z.pow_1_r. apply Qdiv_comp; [|reflexivity]. change (Z.to_nat 1) with 1%nat.
    apply inject_Z_injective. rewrite mass_tuples_S, mass_wsum. apply wsum_ext. intros a w _. cbn [tuples mass].
    replace (if cfg_highest c then entry 1 (descending [a]) else entry 1 (ascending [a])) with a by (destruct (cfg_highest c); reflexivity).
    destruct (veqb v a); reflexivity.
Qed.

(** several positions *)
Lemma roll_select c calls n x S r : Forall int_call calls -> int_vals (rv_dist x) -> 2 <= n ->
  roll_after c calls (oint n) (Some (ORV x)) = Ok (ORV r) ->
  cfg_trunc c = false -> wf (rv_dist x) -> 0 < total (rv_dist x) ->
  length S <> 1%nat -> total (rv_dist x) ^ n <= SUM_LIMIT ->
  exists q, rv_rmatmul c (OIter (map oint S)) r = Ok (ORV q) /\
    forall v, (Pr (rv_dist q) v == PrP (fun t => veqb v (picked S t)) (tuples (Z.to_nat n) (rv_dist x)))%Q.
Proof.
  intros H I N E T W P HS L. destruct (roll_source c calls n x r H I N E) as [R D]. rewrite at_several by exact HS. rewrite <- R in *.
  destruct (select_law r (rv_dist x) D) with (c := c) (S := S) as (q & Q1 & _ & _ & _ & _ & Q2); auto; try apply W; try lia.
  exists q. split; [exact Q1|exact Q2].
Qed.
Lemma roll_select_close c calls n x S r : Forall int_call calls -> int_vals (rv_dist x) -> 2 <= n ->
  roll_after c calls (oint n) (Some (ORV x)) = Ok (ORV r) ->
  cfg_trunc c = false -> wf (rv_dist x) -> 0 < total (rv_dist x) ->
  length S <> 1%nat -> total (rv_dist x) ^ n < 2 ^ 1024 - 2 ^ 970 ->
  Z.of_nat (length (cwr (Z.to_nat n) (vals (rv_dist x)))) <= 10 ^ 10 ->
  exists q, rv_rmatmul c (OIter (map oint S)) r = Ok (ORV q) /\
    forall v, (Qabs (Pr (rv_dist q) v - PrP (fun t => veqb v (picked S t)) (tuples (Z.to_nat n) (rv_dist x))) <= 1 # 1000000000)%Q.
Proof.
  intros H I N E T W P HS L HL. destruct (roll_source c calls n x r H I N E) as [R D]. rewrite at_several by exact HS. rewrite <- R in *.
  destruct (select_close r (rv_dist x) D) with (c := c) (S := S) as (q & Q1 & Q2); auto; try apply W; try lia.
  - unfold roll_list. destruct (Nat.eqb_spec (Z.to_nat (rv_roll r)) 1); [lia|].
    assert (CL : forall (A : Type) j (l l' : list A), length l = length l' -> length (cwr j l) = length (cwr j l')).
    { intros A j. induction j as [|m IH]; intros l l' Q; [reflexivity|]. revert l' Q.
      induction l as [|a l IHl]; intros [|b l'] Q; try discriminate; [reflexivity|]. rewrite !cwr_S, !app_length, !map_length.
      rewrite (IH (a :: l) (b :: l') Q). injection Q as Q. rewrite (IHl l' Q). reflexivity. }
    rewrite (CL _ _ (rev (vals (rv_dist x))) (vals (rv_dist x))) by apply rev_length. exact HL.
  - exists q. split; [exact Q1|exact Q2].
Qed.

Lemma toZ_int v : v_is_int v = true -> vint (toZ v) = v.
Proof. destruct v as [[z|]|]; try discriminate. reflexivity. Qed.
Lemma tuple_ints n (x : dist) t w : int_vals x -> In (t, w) (tuples n x) -> Forall (fun v => v_is_int v = true) t.
Proof.
  intros I H. pose proof (tuples_in _ _ _ _ H) as F. eapply Forall_impl; [|exact F]. intros a Ha.
  apply in_map_iff in Ha. destruct Ha as [y [<- Hy]]. exact (proj1 (Forall_forall _ _) I _ Hy).
Qed.
Lemma descending_ints t : Forall (fun v => v_is_int v = true) t -> Forall (fun v => v_is_int v = true) (descending t).
Proof. intro F. exact (Permutation_Forall (descending_perm t) F). Qed.
Lemma entry_outside i t : ~ 1 <= i <= Z.of_nat (length t) -> entry i t = vint 0.
Proof. intro H. unfold entry. destruct (Z.leb_spec 1 i), (Z.leb_spec i (Z.of_nat (length t))); try lia; reflexivity. Qed.

Lemma sum_entries t : map (fun i => entry i t) (one_to (Z.of_nat (length t))) = t.
Proof.
  unfold one_to. rewrite Nat2Z.id, map_map. apply (nth_ext _ _ (vint 0) (vint 0)); [now rewrite map_length, seq_length|].
  intros j Hj. rewrite map_length, seq_length in Hj. rewrite (nth_indep _ (vint 0) (entry (Z.of_nat 0) t)) by (now rewrite map_length, seq_length).
  rewrite (map_nth (fun i => entry (Z.of_nat i) t)). rewrite seq_nth by exact Hj. unfold entry.
  destruct (Z.leb_spec 1 (Z.of_nat (1 + j))), (Z.leb_spec (Z.of_nat (1 + j)) (Z.of_nat (length t))); try lia. cbn [andb]. f_equal. lia.
Qed.
Lemma sumZ_perm l l' : Permutation l l' -> sumZ l = sumZ l'.
Proof. unfold sumZ. induction 1; cbn [fold_right]; lia. Qed.
Lemma picked_all n t : length t = Z.to_nat n -> picked (one_to n) t = vsumZ t.
Proof.
  intro L. unfold picked, vsumZ. f_equal. rewrite <- (map_map (fun i => entry i (descending t)) toZ).
  replace (one_to n) with (one_to (Z.of_nat (length (descending t)))) by (unfold one_to; rewrite descending_length, L; f_equal; f_equal; lia).
  rewrite sum_entries. apply sumZ_perm, Permutation_map. symmetry. apply descending_perm.
Qed.
Lemma dice_total_pos n d v : 0 < n -> (Pr (dice_total n d) v == PrP (fun t => veqb v (vsumZ t)) (tuples (Z.to_nat n) d))%Q.
Proof.
  intro N. unfold Pr, PrP, wt, total, dice_total. rewrite !mass_image. rewrite Zabs2Nat.abs_nat_spec, Z.abs_eq by lia.
  unfold vsumZ. replace (Z.sgn n) with 1 by lia. apply Qdiv_comp; [|reflexivity]. apply inject_Z_injective, mass_ext. intros t w _. now rewrite Z.mul_1_l.
Qed.
Lemma PrP_ext {A} (P P' : A -> bool) l : (forall a w, In (a, w) l -> P a = P' a) -> (PrP P l == PrP P' l)%Q.
Proof. intro H. unfold PrP. rewrite (mass_ext P P' l H). reflexivity. Qed.

Lemma roll_select_all c calls n x r : Forall int_call calls -> int_vals (rv_dist x) -> 2 <= n ->
  roll_after c calls (oint n) (Some (ORV x)) = Ok (ORV r) ->
  cfg_trunc c = false -> wf (rv_dist x) -> 0 < total (rv_dist x) -> total (rv_dist x) ^ n <= SUM_LIMIT ->
  exists q, rv_rmatmul c (OIter (map oint (one_to n))) r = Ok (ORV q) /\ same_law (rv_dist q) (rv_dist r).
Proof.
  intros H I N E T W P L. destruct (roll_select c calls n x (one_to n) r) as (q & Q1 & Q2); auto.
  { unfold one_to. rewrite map_length, seq_length. lia. }
  exists q. split; [exact Q1|]. intro v. rewrite Q2.
  destruct (roll_exact c calls n x H T) as (r' & E' & Q3 & _); auto; [split; [apply W|exact P]|rewrite Z.abs_eq by lia; exact L|].
  rewrite E in E'. injection E' as <-. rewrite Q3, dice_total_pos by lia. apply PrP_ext. intros t w Ht.
  rewrite picked_all; [reflexivity|]. exact (tuples_length _ _ _ _ Ht).
Qed.

Lemma roll_out_of_range c calls n x k j r : Forall int_call calls -> int_vals (rv_dist x) -> 2 <= n ->
  roll_after c calls (oint n) (Some (ORV x)) = Ok (ORV r) ->
  cfg_trunc c = false -> cfg_highest c = true -> canon (rv_dist x) -> 0 < total (rv_dist x) -> no_dropped c (rv_dist x) ->
  1 <= k <= n -> ~ 1 <= j <= n -> total (rv_dist x) ^ n <= SUM_LIMIT ->
  exists p q, rv_rmatmul c (oint k) r = Ok (ORV p) /\ rv_rmatmul c (OIter [oint k; oint j]) r = Ok (ORV q) /\
    same_law (rv_dist p) (rv_dist q).
Proof.
  intros H I N E T HH C P D K J L. destruct (roll_position c calls n x k r) as (p & P1 & P2); auto.
  destruct (roll_select c calls n x [k; j] r) as (q & Q1 & Q2); auto; [apply C|cbn; lia|].
  exists p, q. split; [exact P1|]. split; [exact Q1|]. intro v. rewrite P2, Q2, HH. apply PrP_ext. intros t w Ht.
  pose proof (tuples_length _ _ _ _ Ht) as Lt. unfold picked. cbn [map]. unfold sumZ. cbn [fold_right].
  rewrite (entry_outside j) by (rewrite descending_length, Lt, Z2Nat.id; lia). change (toZ (vint 0)) with 0. rewrite !Z.add_0_r, toZ_int; [reflexivity|].
  apply entry_int, descending_ints. exact (tuple_ints _ _ _ _ I Ht).
Qed.

(** ** Casting to sequences *)
Lemma list_eqb_faces x t s : strict x -> faces x t -> faces x s ->
  list_eqb veqb t s = if list_eq_dec pval_eq_dec t s then true else false.
Proof.
  intros S F. revert s. induction F as [|a t Ha F IH]; intros s G.
  - destruct s; [destruct (list_eq_dec pval_eq_dec [] []); [reflexivity|congruence]|].
    destruct (list_eq_dec pval_eq_dec [] (p :: s)); [discriminate|reflexivity].
  - destruct s as [|b s]; [destruct (list_eq_dec pval_eq_dec (a :: t) []); [discriminate|reflexivity]|].
    inversion G as [|? ? Hb G']; subst. cbn [list_eqb]. rewrite IH by exact G'.
    destruct (veqb a b) eqn:V.
    + pose proof (face_eq x S a b Ha Hb V) as Eab. cbn [andb].
      destruct (list_eq_dec pval_eq_dec t s) as [E1|N1], (list_eq_dec pval_eq_dec (a :: t) (b :: s)) as [E2|N2]; congruence.
    + cbn [andb]. destruct (list_eq_dec pval_eq_dec (a :: t) (b :: s)) as [Q|]; [|reflexivity].
      injection Q as -> _. rewrite veqb_refl in V. discriminate.
Qed.

Lemma expanded_spec y x : rv_die y = x -> strict x -> 0 <= rv_roll y ->
  exists L, expanded_rolls y = Ok L /\ NoDup (map fst L) /\
    (forall t, In t (map fst L) <->
       length t = Z.to_nat (rv_roll y) /\ Forall (fun a => In a (vals x)) t /\ StronglySorted (fun a b => vleb b a = true) t) /\
    (forall t w, In (t, w) L -> w = mass (fun u => list_eqb veqb (descending u) t) (tuples (Z.to_nat (rv_roll y)) x)) /\
    total L = total x ^ rv_roll y /\
    forall P, mass P L = mass (fun u => P (descending u)) (tuples (Z.to_nat (rv_roll y)) x).
Proof.
  intros D S R. exists (map (fun t => (t, arrangements x (Z.to_nat (rv_roll y)) t)) (roll_list x (Z.to_nat (rv_roll y)))).
  set (n := Z.to_nat (rv_roll y)).
  assert (M : map fst (map (fun t => (t, arrangements x n t)) (roll_list x n)) = roll_list x n) by (rewrite map_map; apply map_id).
  split; [apply expanded_list; auto|]. rewrite M. split; [apply roll_list_NoDup, S|]. split; [intro t; apply (roll_list_spec x S)|].
  split; [|split].
  - intros t w H. apply in_map_iff in H. destruct H as [t' [Q H]]. injection Q as <- <-.
    rewrite (arrangements_mass x S n t' H). apply mass_ext. intros u w' Hu.
    pose proof (proj1 (roll_list_spec x S n t') H) as (_ & F & _).
    rewrite (list_eqb_faces x); auto.
    + destruct (list_eq_dec pval_eq_dec t' (descending u)) as [Q|Q], (list_eq_dec pval_eq_dec (descending u) t') as [Q'|Q']; congruence.
    + exact (Permutation_Forall (descending_perm u) (tuples_in _ _ _ _ Hu)).
  - unfold total at 1. rewrite (roll_list_mass x S). fold (@total (list pval) (tuples n x)). rewrite total_tuples. unfold n. rewrite Z2Nat.id by lia. reflexivity.
  - intro P. apply (roll_list_mass x S).
Qed.

Lemma roll_expanded c calls n x r : Forall int_call calls -> int_vals (rv_dist x) -> 2 <= n ->
  roll_after c calls (oint n) (Some (ORV x)) = Ok (ORV r) -> wf (rv_dist x) ->
  exists L, expanded_rolls r = Ok L /\ NoDup (map fst L) /\
    (forall t, In t (map fst L) <->
       length t = Z.to_nat n /\ Forall (fun a => In a (vals (rv_dist x))) t /\ StronglySorted (fun a b => vleb b a = true) t) /\
    (forall t w, In (t, w) L -> w = mass (fun u => list_eqb veqb (descending u) t) (tuples (Z.to_nat n) (rv_dist x))) /\
    total L = total (rv_dist x) ^ n.
Proof.
  intros H I N E W. destruct (roll_source c calls n x r H I N E) as [R D]. rewrite <- R in *.
  destruct (expanded_spec r (rv_dist x) D) as (L & L1 & L2 & L3 & L4 & L5 & _); [apply W|lia|].
  exists L. repeat (split; [assumption|]). exact L5.
Qed.

Lemma vsumZ_descending t : vsumZ (descending t) = vsumZ t.
Proof. unfold vsumZ. f_equal. apply sumZ_perm, Permutation_map. symmetry. apply descending_perm. Qed.

Lemma roll_expanded_total c calls n x r : Forall int_call calls -> int_vals (rv_dist x) -> 2 <= n ->
  roll_after c calls (oint n) (Some (ORV x)) = Ok (ORV r) ->
  cfg_trunc c = false -> wf (rv_dist x) -> 0 < total (rv_dist x) -> total (rv_dist x) ^ n <= SUM_LIMIT ->
  exists L, expanded_rolls r = Ok L /\ forall v, (PrP (fun t => veqb v (vsumZ t)) L == Pr (rv_dist r) v)%Q.
Proof.
  intros H I N E T W P HL. destruct (roll_source c calls n x r H I N E) as [R D].
  destruct (expanded_spec r (rv_dist x) D) as (L & L1 & _ & _ & _ & L5 & L6); [apply W|lia|].
  exists L. split; [exact L1|]. intro v.
  destruct (roll_exact c calls n x H T) as (r' & E' & Q3 & _); auto; [split; [apply W|exact P]|rewrite Z.abs_eq by lia; exact HL|].
  rewrite E in E'. injection E' as <-. rewrite Q3, dice_total_pos by lia. unfold PrP. rewrite L5, total_tuples, L6, R, Z2Nat.id by lia.
  apply Qdiv_comp; [|reflexivity]. apply inject_Z_injective, mass_ext. intros t w _. now rewrite vsumZ_descending.
Qed.
Lemma die_expanded_total x : wf (rv_dist x) -> int_vals (rv_dist x) -> rv_roll x = 1 -> rv_src x = None ->
  exists L, expanded_rolls x = Ok L /\ forall v, (PrP (fun t => veqb v (vsumZ t)) L == Pr (rv_dist x) v)%Q.
Proof.
  intros W I R S. exists (map (fun vp => ([fst vp], snd vp)) (rv_dist x)). split.
  - unfold expanded_rolls, rv_die. rewrite R, S. reflexivity.
  - intro v. change (map (fun vp => ([fst vp], snd vp)) (rv_dist x)) with (image (fun a : pval => [a]) (rv_dist x)).
    unfold Pr, PrP, wt, total. rewrite !mass_image. apply Qdiv_comp; [|reflexivity]. apply inject_Z_injective, mass_ext.
    intros a w H. unfold vsumZ. cbn [map]. unfold sumZ. cbn [fold_right]. rewrite Z.add_0_r, toZ_int; [reflexivity|].
    exact (proj1 (Forall_forall _ _) I _ H).
Qed.
