(** Mixtures (from_rvs), running totals (get_cdf) and conditioning (filter). *)
From Coq Require Import List ZArith QArith Qabs Bool Permutation Sorted Lia Lqa.
From Verif Require Import PyBase Num Val Sorting RVModel Spec CmpFacts SortFacts MassFacts NumFacts RVFacts ConstructFacts ConvFacts IntFacts RoundFacts LimitFacts OpFacts UnaryFacts.
Import ListNotations.
Open Scope Z_scope.

(** ** The weighted mixture of laws *)
Definition mx_law (m : mixin) : option dist :=
  match m with MxRV x => Some (rv_dist x) | MxVal v => Some [(v, 1)] | MxBlank => None end.

Fixpoint components (l : list mixin) (ws : list Z) : list (Z * dist) :=
  match l, ws with
  | m :: l', w :: ws' =>
      match mx_law m with Some d => (w, d) :: components l' ws' | None => components l' ws' end
  | _, _ => []
  end.

Definition wtotal (cs : list (Z * dist)) : Z := sumZ (map fst cs).

Fixpoint mix_num (P : pval -> bool) (cs : list (Z * dist)) : Q :=
  match cs with
  | [] => 0
  | (w, d) :: cs' => inject_Z w * PrP P d + mix_num P cs'
  end.

Definition mixture (v : pval) (cs : list (Z * dist)) : Q := (mix_num (veqb v) cs / inject_Z (wtotal cs))%Q.

Definition denominators (cs : list (Z * dist)) : Z := zprod (map (fun wd => total (snd wd)) cs).

(** ** from_rvs on its components *)
Definition comp_of (wm : Z * mixin) : option (Z * dist) :=
  match mx_law (snd wm) with Some d => Some (fst wm, d) | None => None end.

Lemma drop_combine l ws : length l = length ws ->
  length (filter (fun m => negb (is_mx_blank m)) l) = length (drop_blank_weights l ws) /\
  map comp_of (combine (drop_blank_weights l ws) (filter (fun m => negb (is_mx_blank m)) l)) = map Some (components l ws) /\
  map mx_sum (filter (fun m => negb (is_mx_blank m)) l) = map (fun wd => total (snd wd)) (components l ws) /\
  length (components l ws) = length (filter (fun m => negb (is_mx_blank m)) l).
Proof.
  revert ws. induction l as [|m l IH]; intros [|w ws] H; try discriminate; [repeat split|].
  injection H as H. destruct (IH ws H) as (H1 & H2 & H3 & H4). destruct m as [x|v|];
    cbn [is_mx_blank negb filter drop_blank_weights components mx_law combine map length mx_sum fst snd];
    rewrite ?H1, ?H2, ?H3, ?H4, ?sum_probs_total; repeat split; congruence.
Qed.

(** the weights of one component *)
Definition scaled (PROD : Z) (wd : Z * dist) : dist :=
  map (fun vp => (fst vp, snd vp * fst wd * (PROD / total (snd wd)))) (snd wd).

Lemma mx_entries_scaled PROD w m d : mx_law m = Some d -> total d <> 0 ->
  exists e, mx_entries PROD w m = Ok e /\ e = scaled PROD (w, d).
Proof.
  intros H Ht. destruct m as [x|v|]; inversion H; subst; cbn [mx_entries].
  - rewrite sum_probs_total. destruct (rv_dist x) eqn:E; [contradiction Ht; reflexivity|].
    destruct (Z.eqb_spec (total (p :: d)) 0); [contradiction|]. eexists. split; [reflexivity|]. reflexivity.
  - eexists. split; [reflexivity|]. unfold scaled. cbn. rewrite Z.div_1_r.
    replace (match w with 0 => 0 | Z.pos y' => Z.pos y' | Z.neg y' => Z.neg y' end) with w by (destruct w; reflexivity). reflexivity.
Qed.

Lemma entries_concat PROD wms cs : map comp_of wms = map Some cs -> Forall (fun wd => total (snd wd) <> 0) cs ->
  mapM (fun wm => mx_entries PROD (fst wm) (snd wm)) wms = Ok (map (scaled PROD) cs).
Proof.
  revert cs. induction wms as [|[w m] wms IH]; intros [|[w' d] cs] E F; try discriminate; [reflexivity|].
  cbn [map comp_of] in E. injection E as E1 E2. inversion F; subst. cbn [snd] in *. unfold comp_of in E1. cbn in E1.
  destruct (mx_law m) as [d'|] eqn:L; [|discriminate]. injection E1 as <- <-.
  destruct (mx_entries_scaled PROD w m d' L H1) as (e & He & ->).
  cbn [mapM fst snd]. rewrite He. cbn [bind]. rewrite (IH cs E2 H2). reflexivity.
Qed.

Lemma mass_scaled P PROD wd : mass P (scaled PROD wd) = fst wd * (PROD / total (snd wd)) * mass P (snd wd).
Proof.
  unfold scaled. set (q := PROD / total (snd wd)). clearbody q.
  induction (snd wd) as [|[v p] d IH]; cbn [map mass fst snd]; [lia|]. rewrite IH. destruct (P v); lia.
Qed.

Definition good (wd : Z * dist) : Prop := 0 <= fst wd /\ proper (snd wd).

Lemma scaled_nonneg PROD wd : 0 <= PROD -> good wd -> nonneg (scaled PROD wd).
Proof.
  intros HP (Hw & Hn & Ht). unfold scaled, nonneg. apply Forall_map. eapply Forall_impl; [|exact Hn].
  intros [v p] Hp. cbn in *. assert (0 <= PROD / total (snd wd)) by (apply Z.div_pos; lia). nia.
Qed.

Lemma denominators_pos cs : Forall good cs -> 0 < denominators cs.
Proof.
  unfold denominators, zprod. induction 1 as [|[w d] cs (H1 & H2 & H3) H IH]; cbn; [lia|]. cbn in *. nia.
Qed.

Lemma denominators_divide wd cs : In wd cs -> (total (snd wd) | denominators cs).
Proof.
  unfold denominators, zprod. induction cs as [|x cs IH]; cbn [In map fold_right]; [tauto|]. intros [->|H].
  - apply Z.divide_factor_l.
  - apply Z.divide_mul_r, IH, H.
Qed.

Lemma mass_mixture P PROD cs : (forall wd, In wd cs -> (total (snd wd) | PROD)) -> Forall good cs ->
  (inject_Z (mass P (concat (map (scaled PROD) cs))) == inject_Z PROD * mix_num P cs)%Q.
Proof.
  induction cs as [|[w d] cs IH]; intros HD HG; [cbn; ring|].
  cbn [map concat mix_num]. rewrite mass_app, inject_Z_plus, IH; [|intros; apply HD; right; assumption|inversion HG; assumption].
  inversion HG as [|? ? (G1 & G2 & G3) _]; subst. cbn [fst snd] in *. rewrite mass_scaled. cbn [fst snd].
  destruct (HD (w, d) (or_introl eq_refl)) as [q Eq]. cbn [snd] in Eq. subst PROD.
  rewrite Z.div_mul by lia. unfold PrP. rewrite !inject_Z_mult. field. apply inject_Z_nonzero. lia.
Qed.

Lemma mix_num_true cs : Forall good cs -> (mix_num (fun _ => true) cs == inject_Z (wtotal cs))%Q.
Proof.
  unfold wtotal. induction 1 as [|[w d] cs (H1 & H2 & H3) H IH]; cbn [mix_num map sumZ fold_right]; [reflexivity|].
  cbn [fst snd] in *. fold (sumZ (map fst cs)). rewrite IH, inject_Z_plus. unfold PrP. fold (total d).
  field. apply inject_Z_nonzero. lia.
Qed.

Lemma wtotal_nonneg cs : Forall good cs -> 0 <= wtotal cs.
Proof. unfold wtotal. induction 1 as [|[w d] cs (H1 & _) H IH]; cbn in *; [lia|]. unfold sumZ in IH. lia. Qed.

Definition mix_list (cs : list (Z * dist)) : dist := concat (map (scaled (denominators cs)) cs).

Lemma mix_list_spec cs : Forall good cs ->
  nonneg (mix_list cs) /\ total (mix_list cs) = denominators cs * wtotal cs /\
  (0 < wtotal cs -> proper (mix_list cs) /\ forall v, (Pr (mix_list cs) v == mixture v cs)%Q).
Proof.
  intro HG. pose proof (denominators_pos cs HG) as HD.
  assert (N : nonneg (mix_list cs)).
  { unfold mix_list, nonneg. set (D := denominators cs) in *. clearbody D. clear -HG HD.
    induction HG as [|wd cs H HG IH]; cbn; [constructor|]. apply Forall_app. split; [apply scaled_nonneg; [lia|exact H]|exact IH]. }
  assert (T : total (mix_list cs) = denominators cs * wtotal cs).
  { apply inject_Z_injective. unfold total, mix_list. rewrite mass_mixture; auto using denominators_divide.
    rewrite mix_num_true by exact HG. rewrite inject_Z_mult. reflexivity. }
  split; [exact N|]. split; [exact T|]. intro HW. split; [split; [exact N|rewrite T; nia]|].
  intro v. unfold Pr, mixture, wt. rewrite T. unfold mix_list. rewrite mass_mixture; auto using denominators_divide.
  rewrite inject_Z_mult. field. split; apply inject_Z_nonzero; lia.
Qed.

Lemma from_rvs_is c l ws : cfg_trunc c = false -> length l = length ws -> Forall good (components l ws) ->
  from_rvs c l ws =
    match components l ws with
    | [] => Ok None
    | cs => d <- prob_limit (normal c (mix_list cs)) ;; Ok (Some (rv_of d))
    end.
Proof.
  intros Ht HL HG. destruct (drop_combine l ws HL) as (H1 & H2 & H3 & H4).
  unfold from_rvs. set (l' := filter _ l) in *. set (ws' := drop_blank_weights l ws) in *.
  destruct (components l ws) as [|c0 cs0] eqn:E.
  - destruct l'; [reflexivity|discriminate].
  - destruct l' as [|m l1] eqn:El; [discriminate|]. cbv beta iota zeta. rewrite H1, Nat.eqb_refl. cbn [assert_].
    rewrite H3. fold (denominators (c0 :: cs0)).
    rewrite (entries_concat (denominators (c0 :: cs0)) _ (c0 :: cs0)); [|exact H2|].
    + cbn [bind]. fold (mix_list (c0 :: cs0)). rewrite mk_dist_self; [|exact Ht|exact (proj1 (mix_list_spec _ HG))].
      reflexivity.
    + eapply Forall_impl; [|exact HG]. intros wd (_ & _ & K). apply Z.neq_sym, Z.lt_neq, K.
Qed.

Lemma from_rvs_blank c l ws : length l = length ws ->
  (components l ws = [] <-> Forall (fun m => m = MxBlank) l) /\
  (Forall (fun m => m = MxBlank) l -> from_rvs c l ws = Ok None).
Proof.
  intro HL. split.
  - revert ws HL. induction l as [|m l IH]; intros [|w ws] HL; try discriminate; [split; [constructor|reflexivity]|].
    injection HL as HL. cbn. destruct m; cbn; try (split; [discriminate|intro H; inversion H; discriminate]).
    rewrite (IH ws HL). split; [intro; constructor; auto|intro H; inversion H; assumption].
  - intro H. unfold from_rvs. replace (filter (fun m => negb (is_mx_blank m)) l) with (@nil mixin); [reflexivity|].
    clear HL. induction H as [|m l -> _ IH]; cbn; [reflexivity|exact IH].
Qed.

(** The mixture law *)
Lemma from_rvs_law c l ws r :
  cfg_trunc c = false -> length l = length ws -> Forall good (components l ws) ->
  0 < wtotal (components l ws) ->
  from_rvs c l ws = Ok r ->
  exists x, r = Some x /\ rv_roll x = 1 /\ rv_src x = None /\
    exists d, (forall v, (Pr d v == mixture v (components l ws))%Q) /\ canon d /\ proper d /\
      prob_limit d = Ok (rv_dist x) /\
      total d <= denominators (components l ws) * wtotal (components l ws) /\
      (length d <= length (mix_list (components l ws)))%nat.
Proof.
  intros Ht HL HG HW H. rewrite from_rvs_is in H by assumption.
  destruct (mix_list_spec _ HG) as (N & T & K). destruct (K HW) as (HP & HPr).
  assert (Hne : components l ws <> []) by (intro E; rewrite E in HW; cbn in HW; lia).
  destruct (components l ws) as [|c0 cs] eqn:E; [congruence|]. rewrite <- E in *. clear E.
  destruct (prob_limit (normal c (mix_list (components l ws)))) as [d'|] eqn:PL; cbn [bind] in H; [|discriminate].
  inversion H; subst r. eexists. split; [reflexivity|]. cbn [rv_of rv_dist rv_roll rv_src]. split; [reflexivity|]. split; [reflexivity|].
  exists (normal c (mix_list (components l ws))). split; [|split; [|split; [|split; [|split]]]].
  - intro v. rewrite normal_Pr by exact HP. apply HPr.
  - apply normal_canon, HP.
  - apply normal_proper, HP.
  - exact PL.
  - rewrite <- T. pose proof (normal_total_le c _ N). destruct HP as [_ HP]. lia.
  - pose proof (normal_length c (mix_list (components l ws))) as G.
    destruct (mix_list (components l ws)) eqn:M; [destruct HP as [_ HP]; cbn in HP; lia|]. cbn [length] in *. lia.
Qed.

Lemma from_rvs_below c l ws r :
  cfg_trunc c = false -> length l = length ws -> Forall good (components l ws) ->
  0 < wtotal (components l ws) ->
  denominators (components l ws) * wtotal (components l ws) <= SUM_LIMIT ->
  from_rvs c l ws = Ok r ->
  exists x, r = Some x /\ rv_roll x = 1 /\ rv_src x = None /\ canon (rv_dist x) /\ proper (rv_dist x) /\
    forall v, (Pr (rv_dist x) v == mixture v (components l ws))%Q.
Proof.
  intros Ht HL HG HW HS H. destruct (from_rvs_law c l ws r Ht HL HG HW H) as (x & -> & R & S & d & HPr & C & P & PL & TL & _).
  exists x. rewrite prob_limit_id in PL by lia. inversion PL as [E]. rewrite <- E. repeat (split; [auto; fail|]). exact HPr.
Qed.

Lemma from_rvs_close c l ws x :
  cfg_trunc c = false -> length l = length ws -> Forall good (components l ws) ->
  0 < wtotal (components l ws) ->
  Z.of_nat (length (mix_list (components l ws))) <= 10 ^ 10 ->
  from_rvs c l ws = Ok (Some x) ->
  forall v, (Qabs (Pr (rv_dist x) v - mixture v (components l ws)) <= 1 # 1000000000)%Q.
Proof.
  intros Ht HL HG HW HS H v. destruct (from_rvs_law c l ws _ Ht HL HG HW H) as (x' & E & R & S & d & HPr & C & P & PL & TL & L).
  inversion E; subst x'. rewrite <- HPr. apply limit_error; [apply P|lia|exact PL].
Qed.

Lemma from_rvs_succeeds c l ws :
  cfg_trunc c = false -> length l = length ws -> Forall good (components l ws) ->
  denominators (components l ws) * wtotal (components l ws) < 2 ^ 1024 - 2 ^ 970 ->
  exists r, from_rvs c l ws = Ok r.
Proof.
  intros Ht HL HG HS. rewrite from_rvs_is by assumption. destruct (components l ws) as [|c0 cs] eqn:E; [eauto|].
  rewrite <- E in *. clear E. destruct (mix_list_spec _ HG) as (N & T & _).
  destruct (prob_limit_ok (normal c (mix_list (components l ws)))) as [d' ->]; [|cbn; eauto].
  pose proof (normal_total_le c _ N) as K. rewrite T in K.
  eapply Z.le_lt_trans; [exact K|]. apply Z.max_lub_lt; [reflexivity|exact HS].
Qed.

Lemma mix_list_length cs : length (mix_list cs) = fold_right (fun wd n => (length (snd wd) + n)%nat) O cs.
Proof.
  unfold mix_list. generalize (denominators cs) as D. intro D.
  induction cs as [|wd cs IH]; cbn; [reflexivity|]. rewrite app_length, IH. unfold scaled. rewrite map_length. reflexivity.
Qed.

(** ** get_cdf *)
Lemma accumulate_length acc l : length (accumulate acc l) = length l.
Proof. revert acc. induction l as [|p l IH]; intro; cbn; [reflexivity|]. rewrite IH. reflexivity. Qed.

Lemma accumulate_nonneg acc l : 0 <= acc -> Forall (fun p => 0 <= p) l -> Forall (fun p => acc <= p) (accumulate acc l).
Proof.
  intros Ha H. revert acc Ha. induction H as [|p l Hp H IH]; intros acc Ha; cbn; [constructor|].
  constructor; [lia|]. eapply Forall_impl; [|apply IH; lia]. cbn. intros; lia.
Qed.

(** the weight listed at an outcome of the unnormalised running total *)
Definition cdf_list (x : dist) : dist := combine (vals x) (accumulate 0 (probs x)).

Lemma cdf_list_in acc (x : dist) v q : strict x -> In (v, q) (combine (vals x) (accumulate acc (probs x))) ->
  q = acc + mass (fun y => vleb y v) x.
Proof.
  revert acc. induction x as [|[w p] x IH]; intros acc Hs H; [destruct H|].
  cbn [vals probs map fst snd accumulate combine] in H. destruct H as [H|H].
  - inversion H; subst. cbn [mass]. assert (E : vleb v v = true) by (unfold vleb; rewrite (lw_refl _ vcmp_lawful); reflexivity).
    rewrite E. rewrite mass_false; [lia|]. intros a z Ha. inversion Hs as [|? ? _ F]; subst. rewrite Forall_forall in F.
    specialize (F _ Ha). unfold vlt in F. cbn in F. unfold vleb. rewrite (lw_anti _ vcmp_lawful), F. reflexivity.
  - assert (Hin : In v (vals x)) by (eapply in_combine_l; exact H).
    apply IH in H; [|inversion Hs; assumption]. rewrite H. cbn [mass].
    replace (vleb w v) with true; [lia|]. symmetry. inversion Hs as [|? ? _ F]; subst. rewrite Forall_forall in F.
    unfold vals in Hin. apply in_map_iff in Hin as (e & <- & He). specialize (F _ He). unfold vlt in F. cbn in F. unfold vleb. rewrite F. reflexivity.
Qed.

Lemma cdf_list_vals x : vals (cdf_list x) = vals x.
Proof. unfold cdf_list. apply vals_combine. rewrite accumulate_length. unfold vals, probs. rewrite !map_length. reflexivity. Qed.

Lemma cdf_list_strict x : strict x -> strict (cdf_list x).
Proof. apply strict_vals. symmetry. apply cdf_list_vals. Qed.

Lemma cdf_list_nonneg x : nonneg x -> nonneg (cdf_list x).
Proof. intro H. apply nonneg_combine, accumulate_nonneg; [lia|]. apply nonneg_probs, H. Qed.

Lemma cdf_list_wt x v : strict x -> listed v x = true -> wt (cdf_list x) v = mass (fun y => vleb y v) x.
Proof.
  intros Hs Hv. rewrite (listed_vals v x (cdf_list x)) in Hv by (symmetry; apply cdf_list_vals).
  apply listed_iff in Hv as ([a q] & Ha & E). cbn in E. rewrite (wt_congr _ _ _ E).
  change a with (fst (a, q)). rewrite wt_strict by auto using cdf_list_strict. cbn [fst snd].
  apply cdf_list_in in Ha; [|exact Hs]. rewrite Ha. rewrite Z.add_0_l. apply mass_ext. intros b w _.
  unfold vleb. rewrite (vcmp_congr_r _ _ _ E). reflexivity.
Qed.

Lemma group_strict (x : dist) : strict x -> group x = x.
Proof.
  intro H. destruct x as [|a x]; [reflexivity|]. cbn [group]. revert a H.
  induction x as [|b x IH]; intros a H; [reflexivity|]. cbn [group_from].
  rewrite (strict_cons_notin a (b :: x) b H (or_introl eq_refl)). f_equal. apply IH. inversion H; assumption.
Qed.

Lemma insert_last {A} (leb : A -> A -> bool) x l : (forall y, In y l -> leb x y = false) -> insert leb x l = l ++ [x].
Proof.
  induction l as [|y l IH]; intro H; [reflexivity|]. cbn. rewrite H by (left; reflexivity). f_equal. apply IH. intros; apply H; right; assumption.
Qed.

Lemma isort_rev_strict (x : dist) : strict x -> isort vp_leb (rev x) = x.
Proof.
  intro H. rewrite <- (rev_involutive x) at 2. assert (K : StronglySorted (fun a b => vlt b a) (rev x)) by (apply StronglySorted_rev, H).
  revert K. generalize (rev x) as l. intro l. induction l as [|a l IH]; intro K; [reflexivity|].
  cbn [isort rev]. inversion K as [|? ? K1 K2]; subst. rewrite (IH K1). apply insert_last.
  intros b Hb. apply in_rev in Hb. rewrite Forall_forall in K2. specialize (K2 _ Hb). unfold vlt in K2.
  unfold vp_leb, leb_of, vp_cmp. rewrite (lw_anti _ vcmp_lawful), K2. reflexivity.
Qed.

Lemma grouped_strict_id c x : cfg_skip0 c = false -> strict x -> grouped c x = x.
Proof.
  intros Hc Hs. unfold grouped, get_new_zipped. rewrite Hc, rev_get_zip, isort_rev_strict by exact Hs. apply group_strict, Hs.
Qed.

Lemma normal_strict_vals c x : cfg_skip0 c = false -> x <> [] -> strict x -> vals (normal c x) = vals x.
Proof.
  intros Hc Hne Hs. unfold normal. rewrite grouped_strict_id by assumption.
  destruct (get_normalized x) eqn:E; [apply get_normalized_nil in E; contradiction|]. rewrite <- E. apply get_normalized_vals.
Qed.

Lemma get_cdf_is c x : cfg_trunc c = false -> nonneg x -> get_cdf c x = Ok (normal c (cdf_list x)).
Proof.
  intros Ht Hn. unfold get_cdf, cdf_list. apply mk_dist_ok; [exact Ht| |].
  - rewrite accumulate_length. unfold vals, probs. rewrite !map_length. reflexivity.
  - apply accumulate_nonneg; [lia|]. apply nonneg_probs, Hn.
Qed.

Lemma get_cdf_spec c x : cfg_trunc c = false -> cfg_skip0 c = false -> wf x -> 0 < total x ->
  exists g d, get_cdf c x = Ok d /\ 0 < g /\ vals d = vals x /\
    forall v, listed v x = true -> mass (fun y => vleb y v) x = g * wt d v.
Proof.
  intros Ht Hc (Hne & Hs & Hn) Hp. rewrite get_cdf_is by assumption.
  assert (N : nothing_left c (cdf_list x) = false).
  { destruct (nothing_left c (cdf_list x)) eqn:E; [|reflexivity]. apply nothing_left_iff in E; [|apply cdf_list_nonneg, Hn].
    destruct E as [E|[E _]]; [|congruence]. apply (f_equal vals) in E. rewrite cdf_list_vals in E. destruct x; [congruence|discriminate]. }
  destruct (normal_mass c _ N) as (g & Hg & HM).
  exists g, (normal c (cdf_list x)). split; [reflexivity|]. split; [exact Hg|]. split.
  - rewrite normal_strict_vals; [apply cdf_list_vals|exact Hc| |apply cdf_list_strict, Hs].
    intro E. apply (f_equal vals) in E. rewrite cdf_list_vals in E. destruct x; [congruence|discriminate].
  - intros v Hv. rewrite <- cdf_list_wt by assumption. unfold wt. apply HM, vresp_veqb.
Qed.

(** the weights of a running total never decrease and the last one stands for
    the whole *)
Lemma cdf_monotone (x : dist) a b : nonneg x -> vleb a b = true ->
  mass (fun y => vleb y a) x <= mass (fun y => vleb y b) x.
Proof.
  intros Hn H. apply mass_mono; [exact Hn|]. intros y Hy. unfold vleb in *.
  pose proof (leb_of_trans vcmp vcmp_lawful y a b) as K. unfold leb_of in K. destruct (vcmp y b); try reflexivity. apply K; assumption.
Qed.

Lemma last_is_max (x : dist) : x <> [] -> strict x -> mass (fun y => vleb y (last (vals x) (vint 0))) x = total x.
Proof.
  intros Hne Hs. unfold total. apply mass_ext. intros a w Ha.
  destruct (exists_last Hne) as (x' & [v p] & ->). unfold vals. rewrite map_app. cbn [map fst]. rewrite last_last.
  apply in_app_or in Ha. destruct Ha as [Ha|[Ha|[]]].
  - clear Hne. induction x' as [|e x' IH]; [destruct Ha|]. cbn [app] in Hs. inversion Hs as [|? ? Hs1 F]; subst.
    destruct Ha as [->|Ha]; [|apply IH; assumption]. rewrite Forall_forall in F.
    assert (Hl : In (v, p) (x' ++ [(v, p)])) by (apply in_or_app; right; left; reflexivity). specialize (F _ Hl). unfold vlt in F. cbn in F. unfold vleb. rewrite F. reflexivity.
  - inversion Ha; subst. unfold vleb. rewrite (lw_refl _ vcmp_lawful). reflexivity.
Qed.

(** ** filter *)

(** values for which being the same dict key is plain equality: numbers, and
    labels with at most one key *)
Definition plain (v : pval) : Prop := match v with VN _ => True | VS s => (length s <= 1)%nat end.

Lemma s_sorted_short s : (length s <= 1)%nat -> s_sorted s = s.
Proof. destruct s as [|a [|b s]]; cbn; intro; try reflexivity; lia. Qed.

Lemma dict_same_plain a b : plain a -> plain b -> dict_same a b = veqb a b.
Proof.
  intros Ha Hb. unfold dict_same. destruct (veqb a b) eqn:E; [|reflexivity]. destruct a as [n|s], b as [m|t]; try reflexivity.
  cbn [andb plain] in *. unfold veqb, vcmp, scmp in E. rewrite !s_sorted_short in E by assumption.
  destruct s as [|[k x] [|]], t as [|[k' y] [|]]; cbn in *; try reflexivity; try discriminate; try lia.
  unfold pair_cmp in E. cbn in E. destruct (String.compare k k') eqn:C; try discriminate.
  apply string_compare_eq in C. subst. rewrite String.eqb_refl. reflexivity.
Qed.

Definition among (vs : list pval) (v : pval) : bool := existsb (veqb v) vs.

Lemma among_resp vs : vresp (among vs).
Proof. intros a b H. unfold among. induction vs as [|v vs IH]; cbn; [reflexivity|]. rewrite IH, (veqb_congr_l _ _ _ H). reflexivity. Qed.

Definition remaining (vs : list pval) (x : dist) : dist := filter (fun vp => negb (among vs (fst vp))) x.

Lemma filter_remaining vs x : Forall plain vs -> Forall plain (vals x) ->
  filter (fun vp => negb (existsb (fun v => dict_same v (fst vp)) vs)) x = remaining vs x.
Proof.
  intros Hv Hx. unfold remaining. apply filter_ext_in. intros [a w] Ha. cbn [fst]. f_equal.
  assert (P : plain a). { rewrite Forall_forall in Hx. apply Hx. unfold vals. apply (in_map fst) in Ha. exact Ha. }
  unfold among. clear -Hv P. induction Hv as [|v vs H Hv IH]; cbn; [reflexivity|].
  rewrite IH, dict_same_plain, veqb_sym by assumption. reflexivity.
Qed.

Lemma mass_remaining P vs x : mass P (remaining vs x) = mass (fun v => P v && negb (among vs v)) x.
Proof.
  unfold remaining. induction x as [|[v p] x IH]; cbn [filter fst mass]; [reflexivity|].
  destruct (among vs v); cbn [negb mass]; rewrite IH; [rewrite andb_false_r|rewrite andb_true_r]; reflexivity.
Qed.

Lemma rv_filter_is c x vs : cfg_trunc c = false -> nonneg x -> Forall plain vs -> Forall plain (vals x) ->
  rv_filter c x vs = Ok (rv_of (match remaining vs x with [] => [(vint 0, 1)] | _ => normal c (remaining vs x) end)).
Proof.
  intros Ht Hn Hv Hx. unfold rv_filter. rewrite filter_remaining by assumption.
  destruct (remaining vs x) eqn:E; [apply from_const_int, Ht|]. rewrite <- E. unfold mk_rv.
  rewrite mk_dist_self; [reflexivity|exact Ht|]. unfold remaining. apply nonneg_filter, Hn.
Qed.

Lemma rv_filter_law c x vs : cfg_trunc c = false -> nonneg x -> Forall plain vs -> Forall plain (vals x) ->
  exists r, rv_filter c x vs = Ok r /\ canon (rv_dist r) /\
    (0 < mass (fun v => negb (among vs v)) x ->
       forall v, (Pr (rv_dist r) v ==
                  if among vs v then 0
                  else inject_Z (wt x v) / inject_Z (mass (fun v => negb (among vs v)) x))%Q) /\
    (cfg_skip0 c = false -> (exists v, listed v x = true /\ among vs v = false) ->
       forall v, listed v (rv_dist r) = listed v x && negb (among vs v)) /\
    ((forall v, listed v x = true -> among vs v = true) -> rv_dist r = [(vint 0, 1)]).
Proof.
  intros Ht Hn Hv Hx. rewrite rv_filter_is by assumption. eexists. split; [reflexivity|]. cbn [rv_of rv_dist].
  assert (N : nonneg (remaining vs x)) by (apply nonneg_filter, Hn).
  assert (L : forall v, listed v (remaining vs x) = listed v x && negb (among vs v)).
  { intro v. apply eq_true_iff_eq. rewrite andb_true_iff, !listed_iff. unfold remaining. split.
    - intros (e & He & E). apply filter_In in He as [He F]. rewrite <- (among_resp vs v (fst e) E) in F. eauto.
    - intros ((e & He & E) & F). exists e. split; [|exact E]. apply filter_In. split; [exact He|].
      rewrite <- (among_resp vs v (fst e) E). exact F. }
  split; [|split; [|split]].
  - destruct (remaining vs x) eqn:E; [|rewrite <- E in *; apply normal_canon, N].
    rewrite <- (normal_nothing c []) by (unfold nothing_left, grouped, get_new_zipped; cbn; destruct (cfg_skip0 c); reflexivity). apply normal_canon. constructor.
  - intros Hpos v. assert (HT : total (remaining vs x) = mass (fun v => negb (among vs v)) x).
    { unfold total. rewrite mass_remaining. apply mass_ext. reflexivity. }
    destruct (remaining vs x) as [|e0 l0] eqn:E.
    { exfalso. assert (M0 : mass (fun v => true && negb (among vs v)) x = 0) by (rewrite <- mass_remaining, E; reflexivity). cbn [andb] in M0. lia. }
    rewrite <- E in *. rewrite normal_Pr by (split; [exact N|lia]).
    unfold Pr, wt. rewrite HT, mass_remaining. destruct (among vs v) eqn:F.
    + rewrite mass_false; [unfold Qdiv; rewrite Qmult_0_l; reflexivity|]. intros a w _.
      destruct (veqb v a) eqn:G; [|reflexivity]. rewrite <- (among_resp vs v a G), F. reflexivity.
    + rewrite (mass_ext _ (veqb v)); [reflexivity|]. intros a w _. destruct (veqb v a) eqn:G; [|reflexivity].
      rewrite <- (among_resp vs v a G), F. reflexivity.
  - intros Hc (u & Hu & Fu) v. assert (K : listed u (remaining vs x) = true) by (rewrite L, Hu, Fu; reflexivity).
    destruct (remaining vs x) as [|e0 l0] eqn:E; [discriminate|]. rewrite <- E in *.
    rewrite normal_listed, Hc, L; [reflexivity|exact N|].
    destruct (nothing_left c (remaining vs x)) eqn:NL; [|reflexivity]. apply nothing_left_iff in NL; [|exact N].
    destruct NL as [NL|[NL _]]; congruence.
  - intro H. destruct (remaining vs x) as [|[a w] l0] eqn:E; [reflexivity|]. exfalso.
    assert (K : listed a ((a, w) :: l0) = true) by (unfold listed; cbn; rewrite veqb_refl; reflexivity).
    rewrite L in K. apply andb_true_iff in K as [K1 K2]. rewrite (H a K1) in K2. discriminate.
Qed.
