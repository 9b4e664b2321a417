(** Facts about damage dice that are re-rolled once. *)
From Coq Require Import String List ZArith QArith Qabs Bool Permutation Sorted Lia Lqa.
From Verif Require Import PyBase Num Val Sorting RVModel Obj RollModel RollSpec AtModel CastModel DispModel LibModel Spec SeqSpec LibSpec CmpFacts SortFacts NumFacts MassFacts RVFacts ConstructFacts IntFacts LimitFacts OpFacts ConvFacts UnaryFacts MixFacts RollFacts RollObjFacts RollErrFacts OrderFacts ExpandFacts SelectFacts CastSpec CastFacts CastMixFacts DispFacts SeqFacts LawFacts LibFacts LibLaws PoolFacts ExplodeFacts.
Import ListNotations.
Open Scope Z_scope.

(** *** The total of n dice depends only on the law of one *)
Lemma law_wsum a b : proper a -> proper b -> int_vals a -> int_vals b -> same_law a b ->
  forall h, total b * wsum (fun v => h (toZ v)) a = total a * wsum (fun v => h (toZ v)) b.
Proof.
  intros PA PB IA IB S h. set (c := mkCfg false true true 2 10 180).
  assert (E : normal c a = normal c b).
  { apply (normal_unique_int c a b (total b) (total a)); auto; try apply PA; try apply PB; [|discriminate].
    intro k. assert (NA := proj2 PA). assert (NB := proj2 PB). pose proof (proj1 (same_law_cross a b ltac:(lia) ltac:(lia)) S (vint k)) as X. lia. }
  destruct (normal_wsum c a IA (proper_something c a (proj1 PA) (proj2 PA))) as (g & G & HA).
  destruct (normal_wsum c b IB (proper_something c b (proj1 PB) (proj2 PB))) as (g' & G' & HB).
  pose proof (HA (fun _ => 1)) as TA. pose proof (HB (fun _ => 1)) as TB. cbv beta in TA, TB. rewrite !wsum_const in TA, TB.
  rewrite (HA h), (HB h), E in *. rewrite !Z.mul_1_l in *. rewrite TA, TB. ring.
Qed.

Lemma law_tuples a b n : proper a -> proper b -> int_vals a -> int_vals b -> same_law a b ->
  forall h, total b ^ Z.of_nat n * wsum (fun t => h (tsum t)) (tuples n a) = total a ^ Z.of_nat n * wsum (fun t => h (tsum t)) (tuples n b).
Proof.
  intros PA PB IA IB S. induction n as [|n IH]; intro h; [reflexivity|].
  rewrite !wsum_tuples_S, Nat2Z.inj_succ, !Z.pow_succ_r by lia.
  assert (R : forall z t, tsum (z :: t) = toZ z + tsum t) by reflexivity.
  transitivity (total b * wsum (fun u => total a ^ Z.of_nat n * wsum (fun t => h (toZ u + tsum t)) (tuples n b)) a).
  - rewrite <- Z.mul_assoc. f_equal. rewrite <- wsum_cmul. apply wsum_ext. intros u w _. exact (IH (fun z => h (toZ u + z))).
  - rewrite wsum_cmul. pose proof (law_wsum a b PA PB IA IB S (fun z => wsum (fun t => h (z + tsum t)) (tuples n b))) as X. cbv beta in X.
    transitivity (total a ^ Z.of_nat n * (total b * wsum (fun v => wsum (fun t => h (toZ v + tsum t)) (tuples n b)) a)); [ring|].
    rewrite X. ring_simplify. reflexivity.
Qed.

Lemma dice_total_law n a b : proper a -> proper b -> int_vals a -> int_vals b -> same_law a b ->
  same_law (dice_total n a) (dice_total n b).
Proof.
  intros PA PB IA IB S v. unfold Pr.
  assert (W : forall d, wt (dice_total n d) v = wsum (fun t => ind (veqb v (vint (Z.sgn n * tsum t)))) (tuples (Z.abs_nat n) d)).
  { intro d. unfold wt. rewrite mass_wsum. rewrite <- dice_total_wsum with (h := fun z => ind (veqb v (vint z))).
    apply wsum_ext. intros u w J. rewrite <- (is_int_vint u) by (apply (int_in _ _ _ (dice_total_int n d) J)). reflexivity. }
  rewrite !W, !dice_total_total. pose proof (law_tuples a b (Z.abs_nat n) PA PB IA IB S (fun z => ind (veqb v (vint (Z.sgn n * z))))) as X. cbv beta in X.
  replace (Z.of_nat (Z.abs_nat n)) with (Z.abs n) in X by lia.
  assert (A := proj2 PA). assert (B := proj2 PB).
  assert (0 < total a ^ Z.abs n) by (apply Z.pow_pos_nonneg; lia). assert (0 < total b ^ Z.abs n) by (apply Z.pow_pos_nonneg; lia).
  apply frac_eq; [lia|lia|]. lia.
Qed.

Section Gwf.
  Variables (c : cfg) (x : rv) (m : Z).
  Hypothesis T : cfg_trunc c = false.
  Hypothesis P : proper (rv_dist x).
  Hypothesis I : int_vals (rv_dist x).
  Hypothesis L : total (rv_dist x) ^ (Z.of_nat (length (rv_dist x)) + 1) <= SUM_LIMIT.
  Let d := rv_dist x.
  Definition single : dist := image (rerolled m) (indep d d).

  Lemma single_proper : proper single.
  Proof.
    unfold single. apply proper_image. destruct P as [P1 P2]. split; [|rewrite total_indep; fold d in P2; nia].
    unfold indep, nonneg in *. apply Forall_flat_map. eapply Forall_impl; [|exact P1].
    intros [v p] Hp. apply Forall_map. eapply Forall_impl; [|exact P1]. intros [a' w'] Hw. cbn in *. lia.
  Qed.
  Lemma single_int : int_vals single.
  Proof.
    unfold single, int_vals, image. apply Forall_map. apply Forall_forall. intros [[u v] w] J. cbn [fst].
    unfold indep in J. apply in_flat_map in J. destruct J as ([u'' p''] & J1 & J2).
    apply in_map_iff in J2. destruct J2 as ([v'' q''] & E & J2). injection E as <- <- <-.
    unfold rerolled. cbn [fst snd]. destruct (toZ u'' <=? m); [exact (int_in _ _ _ I J2)|exact (int_in _ _ _ I J1)].
  Qed.

  Lemma le_truth u : v_is_int u = true -> (g <- py_op c OLe (OV u) (oint m) ;; truth g) = Ok (toZ u <=? m).
  Proof.
    intros U. rewrite (is_int_vint u U) at 1. unfold oint. rewrite op_cmp_values by reflexivity. cbn [bind]. rewrite truth_b01. f_equal.
    unfold vint, vcmp. rewrite ncmp_Q, cmp_holds_Q by reflexivity. cbn [related].
    apply bool_iff_eq. rewrite Qle_bool_iff, Z.leb_le. change (numQ (NI (toZ u))) with (inject_Z (toZ u)). change (numQ (NI m)) with (inject_Z m). symmetry. rewrite Zle_Qle. reflexivity.
  Qed.

  Lemma gwf_single : exists s, gwf_helper c [(KName "roll_1", ORV x); (KName "dmg_die", ORV x); (KName "min_to_reroll", oint m)] = Ok (ORV s) /\
    canon (rv_dist s) /\ proper (rv_dist s) /\ int_vals (rv_dist s) /\ total (rv_dist s) <= total d ^ 2 /\ same_law (rv_dist s) single.
  Proof.
    set (rest := [(KName "dmg_die", ORV x); (KName "min_to_reroll", oint m)]).
    set (h := fun v => if toZ v <=? m then ORV x else OV v).
    set (DD := fun v => if toZ v <=? m then d else [(v, 1)]).
    assert (VI : forall v, In v (vals d) -> v_is_int v = true).
    { intros v J. apply in_map_iff in J. destruct J as [[v' w] [<- J]]. exact (int_in _ _ _ I J). }
    assert (ND : NoDup (KName "roll_1" :: map fst rest)) by (repeat constructor; cbn; intuition discriminate).
    assert (KP : Forall (kept gwf_helper_sig) rest) by (repeat constructor).
    assert (HF : forall v, In v (vals (rv_dist x)) -> gwf_helper_body c ((KName "roll_1", OV v) :: rest) = Ok (h v) /\ usable (h v) /\ result_law (h v) = Some (DD v)).
    { intros v J. unfold gwf_helper_body. cbv zeta. change (need 0 "roll_1" ((KName "roll_1", OV v) :: rest)) with (Ok (OV v)).
      change (need 1 "dmg_die" ((KName "roll_1", OV v) :: rest)) with (Ok (ORV x)). change (need 2 "min_to_reroll" ((KName "roll_1", OV v) :: rest)) with (Ok (oint m)).
      cbn [bind]. rewrite (le_truth v (VI v J)). cbn [bind]. unfold h, DD. destruct (toZ v <=? m); split; auto; split; try reflexivity; try exact Logic.I. }
    destruct (casting_mix c gwf_helper_sig (gwf_helper_body c) (KName "roll_1") x rest h DD) as (s & Q1 & Q2 & Q3 & Q4 & Q5 & Q6); auto.
    { eapply Z.le_trans; [|exact L]. rewrite Z.pow_add_r, Z.pow_1_r by lia. apply Z.mul_le_mono_nonneg_r; [apply Z.lt_le_incl, P|].
      destruct (zprod_le (map (fun v => total (DD v)) (vals (rv_dist x))) (total (rv_dist x))) as [Z1 _].
      - apply Forall_map, Forall_forall. intros v J. assert (0 < total (rv_dist x)) by apply P. unfold DD. destruct (toZ v <=? m); [unfold d; lia|]. unfold total at 1 2. cbn [mass]. lia.
      - rewrite map_length in Z1. unfold vals in Z1 at 2. rewrite map_length in Z1. exact Z1. }
    assert (S : same_law (rv_dist s) single).
    { intro v. rewrite Q6. unfold single. rewrite Pr_image. rewrite <- (average_PrP (fun u w => veqb v (rerolled m (u, w))) d d (proj2 P) (proj2 P)).
      unfold average. apply Qdiv_comp; [|reflexivity]. apply qsum_ext. intros u w J. unfold DD, rerolled. cbn [fst snd].
      destruct (toZ u <=? m).
      - reflexivity.
      - rewrite PrP_const by apply P. apply Pr_point. }
    exists s. split; [exact Q1|]. split; [exact Q4|]. split; [exact Q5|]. split; [|split; [|exact S]].
    - apply (casting_mix_ints c gwf_helper_sig (gwf_helper_body c) (KName "roll_1") x rest h DD); auto.
      intros v J. unfold DD. destruct (toZ v <=? m); [exact I|]. repeat constructor. exact (VI v J).
    - apply (canon_total_le _ (total d ^ 2) (wt single) Q4 Q5); [apply Z.pow_pos_nonneg; [apply P|lia]|].
      intro v. rewrite (S v). unfold Pr. unfold single at 2. rewrite total_image, total_indep. replace (total d ^ 2) with (total d * total d) by ring. reflexivity.
  Qed.

  Lemma gwf_law calls n : Forall int_call calls -> (total d ^ 2) ^ Z.abs n <= SUM_LIMIT ->
    exists q, fst (gwf c (positional [oint n; ORV x; oint m]) (after c calls)) = Ok (ORV q) /\
      (m = 2 -> fst (gwf c (positional [oint n; ORV x]) (after c calls)) = Ok (ORV q)) /\
      same_law (rv_dist q) (dice_total n single).
  Proof.
    intros HC B. destruct gwf_single as (s & S1 & S2 & S3 & S4 & S5 & S6).
    destruct (roll_exact c calls n s HC T S3 S4) as (q & Q1 & Q2 & _).
    { eapply Z.le_trans; [|exact B]. apply Z.pow_le_mono_l. split; [apply Z.lt_le_incl, S3|exact S5]. }
    exists q. split; [|split].
    - change (gwf c (positional [oint n; ORV x; oint m]) (after c calls)) with
        ((s <~ slift (gwf_helper c [(KName "roll_1", ORV x); (KName "dmg_die", ORV x); (KName "min_to_reroll", oint m)]) ;; roll c (oint n) (Some s)) (after c calls)).
      unfold slift, sbind. rewrite S1. exact Q1.
    - intros E. change (gwf c (positional [oint n; ORV x]) (after c calls)) with
        ((s <~ slift (gwf_helper c [(KName "roll_1", ORV x); (KName "dmg_die", ORV x); (KName "min_to_reroll", oint 2)]) ;; roll c (oint n) (Some s)) (after c calls)).
      unfold slift, sbind. rewrite <- E, S1. exact Q1.
    - intro v. rewrite Q2. apply dice_total_law; auto using single_proper, single_int.
  Qed.
End Gwf.

Lemma after_app c calls nd : after c (calls ++ [nd]) = snd (roll c (fst nd) (snd nd) (after c calls)).
Proof.
  unfold after. generalize (@nil ((Z * dist) * rv)) as M. induction calls as [|[n d] calls IH]; intro M; [destruct nd; reflexivity|].
  cbn [app after_from]. apply IH.
Qed.

(** an integer stands for its die *)
Lemma gwf_int_die c calls n k m : cfg_trunc c = false -> Forall int_call calls ->
  fst (gwf c (positional [oint n; oint k; oint m]) (after c calls)) =
  fst (gwf c (positional [oint n; ORV (rv_of (int_die k)); oint m]) (after c (calls ++ [(oint 1, Some (oint k))]))).
Proof.
  intros T HC. rewrite after_app. cbn [fst snd].
  change (gwf c (positional [oint n; oint k; oint m]) (after c calls)) with
    ((d <~ roll c (oint 1) (Some (oint k)) ;;
      s <~ slift (gwf_helper c [(KName "roll_1", d); (KName "dmg_die", d); (KName "min_to_reroll", oint m)]) ;; roll c (oint n) (Some s)) (after c calls)).
  assert (E : fst (roll c (oint 1) (Some (oint k)) (after c calls)) = Ok (ORV (rv_of (int_die k)))).
  { rewrite roll_int_die by exact T. change (fst (roll c (oint 1) (Some (ORV (rv_of (int_die k)))) (after c calls))) with (roll_after c calls (oint 1) (Some (ORV (rv_of (int_die k))))).
    rewrite roll_rv_fresh by (try exact HC; apply int_die_good). reflexivity. }
  unfold sbind at 1. destruct (roll c (oint 1) (Some (oint k)) (after c calls)) as [r M]. cbn [fst snd] in *. rewrite E. reflexivity.
Qed.
