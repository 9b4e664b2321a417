(** Scalars, unary operators and means. *)
From Coq Require Import List ZArith QArith Qabs Bool Permutation Sorted Lia Lqa.
From Verif Require Import PyBase Num Val Sorting RVModel Spec CmpFacts SortFacts MassFacts NumFacts RVFacts ConstructFacts ConvFacts IntFacts RoundFacts LimitFacts OpFacts.
Import ListNotations.
Open Scope Z_scope.

(** ** A canonical die is its own normal form *)
Definition no_dropped (c : cfg) (d : dist) : Prop := cfg_skip0 c = true -> positive_weights d.

Lemma canon_something c d : canon d -> no_dropped c d -> nothing_left c d = false.
Proof.
  intros [(Hne & Hs & Hn) _] Hd. destruct (nothing_left c d) eqn:E; [|reflexivity].
  apply nothing_left_iff in E; [|exact Hn]. destruct E as [E|[Hk Hz]]; [contradiction|].
  specialize (Hd Hk). destruct d as [|[v p] d]; [congruence|]. inversion Hd; inversion Hz; subst. cbn in *. lia.
Qed.

Lemma normal_id c d : canon d -> no_dropped c d -> same_repr (normal c d) d.
Proof.
  intros Hc Hd. pose proof (canon_something c d Hc Hd) as N. pose proof Hc as [(Hne & Hs & Hn) _].
  destruct (normal_mass c d N) as (g & Hg & HM).
  destruct (canon_unique (normal c d) d g 1) as [F P]; try lia; auto.
  - apply normal_canon, Hn.
  - intro v. rewrite normal_listed by assumption. destruct (cfg_skip0 c) eqn:K; [|reflexivity].
    symmetry. apply positive_listed; auto.
  - intro v. unfold wt. rewrite (HM _ (vresp_veqb v)). lia.
  - split; [apply Forall2_map_fst, F | exact P].
Qed.

Lemma normal_id_int c d : canon d -> no_dropped c d -> int_vals d -> normal c d = d.
Proof. intros H1 H2 H3. apply same_repr_int_eq; auto using normal_int. apply normal_id; assumption. Qed.

(** ** X + 0 *)
Lemma mapM_id (f : pval -> res pval) l : (forall v, In v l -> f v = Ok v) -> mapM f l = Ok l.
Proof.
  induction l as [|v l IH]; intro H; cbn; [reflexivity|]. rewrite H by (left; reflexivity). cbn.
  rewrite IH by (intros; apply H; right; assumption). reflexivity.
Qed.

Lemma in_vals_int d v : int_vals d -> In v (vals d) -> v_is_int v = true.
Proof. intros H Hv. unfold vals in Hv. apply in_map_iff in Hv as ([a p] & <- & Hx). cbn. int_mem. Qed.

Lemma add_zero c x : cfg_trunc c = false -> canon x -> no_dropped c x -> int_vals x ->
  rv_op_const c OAdd x (vint 0) = Ok (rv_of x) /\ const_op_rv c OAdd (vint 0) x = Ok (rv_of x).
Proof.
  intros Ht Hc Hd Hi. pose proof Hc as [(_ & _ & Hn) _].
  assert (K : forall f, (forall v, v_is_int v = true -> f v = Ok v) -> rv_map c f x = Ok (rv_of x)).
  { intros f Hf. rewrite (rv_map_eq c f x (vals x) Ht Hn).
    - rewrite combine_vals_probs, normal_id_int by assumption. reflexivity.
    - apply mapM_id. intros v Hv. apply Hf. eapply in_vals_int; eassumption. }
  split; apply K; intros v Hv; rewrite (is_int_vint v Hv); cbn; f_equal; unfold vint; f_equal; f_equal; lia.
Qed.

(** ** Integer images *)
Lemma mapM_int_image (g : Z -> Z) (f : pval -> res pval) (d : dist) : int_vals d ->
  (forall v, v_is_int v = true -> f v = Ok (vint (g (toZ v)))) ->
  mapM f (vals d) = Ok (map (fun v => vint (g (toZ v))) (vals d)).
Proof.
  intros Hi Hf. unfold vals. induction d as [|[v p] d IH]; [reflexivity|].
  inversion Hi; subst. cbn [map fst mapM]. rewrite Hf by assumption. cbn [bind]. rewrite IH by assumption. reflexivity.
Qed.

Lemma image_combine (f : pval -> pval) (d : dist) : combine (map f (vals d)) (probs d) = image f d.
Proof. induction d as [|[v p] d IH]; cbn; [reflexivity|]. f_equal. exact IH. Qed.

Lemma rv_map_int c f g x : cfg_trunc c = false -> nonneg x -> int_vals x ->
  (forall v, v_is_int v = true -> f v = Ok (vint (g (toZ v)))) ->
  rv_map c f x = Ok (rv_of (normal c (image (fun v => vint (g (toZ v))) x))).
Proof.
  intros Ht Hn Hi Hf. rewrite (rv_map_eq c f x _ Ht Hn (mapM_int_image g f x Hi Hf)).
  rewrite image_combine. reflexivity.
Qed.

Lemma image_int (g : Z -> Z) x : int_vals (image (fun v => vint (g (toZ v))) x).
Proof. unfold int_vals, image. apply Forall_map. apply Forall_forall. reflexivity. Qed.

Lemma wt_image_int (g : Z -> Z) (x : dist) k :
  wt (image (fun v => vint (g (toZ v))) x) (vint k) = mass (fun v => g (toZ v) =? k) x.
Proof.
  unfold wt. rewrite mass_image. apply mass_ext. intros a w _. rewrite veqb_int. apply Z.eqb_sym.
Qed.

Lemma proper_image {A B} (f : A -> B) (x : list (A * Z)) : proper x -> proper (image f x).
Proof. intros [H1 H2]. split; [apply nonneg_image, H1 | rewrite total_image; exact H2]. Qed.

(** Pr of an integer image *)
Lemma rv_map_int_law c f g x r : cfg_trunc c = false -> proper x -> int_vals x ->
  (forall v, v_is_int v = true -> f v = Ok (vint (g (toZ v)))) ->
  rv_map c f x = Ok r ->
  int_vals (rv_dist r) /\ forall k, (Pr (rv_dist r) (vint k) == PrP (fun v => (g (toZ v) =? k)%Z) x)%Q.
Proof.
  intros Ht Hp Hi Hf H. rewrite (rv_map_int c f g x Ht (proj1 Hp) Hi Hf) in H. inversion H; subst r. cbn [rv_of rv_dist].
  split; [apply normal_int, image_int|]. intro k.
  rewrite normal_Pr by (apply proper_image, Hp). unfold Pr, PrP. rewrite wt_image_int, total_image. reflexivity.
Qed.

Lemma vop_neg_int v : v_is_int v = true -> vop OSub (vint 0) v = Ok (vint (- toZ v)).
Proof. intro H. rewrite (is_int_vint v H). reflexivity. Qed.

Lemma vabs_int v : v_is_int v = true -> vnum1 (fun n => Ok (nabs n)) v = Ok (vint (Z.abs (toZ v))).
Proof. intro H. rewrite (is_int_vint v H). reflexivity. Qed.

Lemma neg_law c x r : cfg_trunc c = false -> proper x -> int_vals x -> rv_neg c x = Ok r ->
  int_vals (rv_dist r) /\ forall k, (Pr (rv_dist r) (vint k) == Pr x (vint (- k)))%Q.
Proof.
  intros Ht Hp Hi H. unfold rv_neg, const_op_rv in H.
  destruct (rv_map_int_law c _ (fun z => - z) x r Ht Hp Hi vop_neg_int H) as [H1 H2]. split; [exact H1|].
  intro k. rewrite H2. unfold Pr, PrP. unfold wt. rewrite (mass_ext (veqb (vint (- k))) (fun v => - toZ v =? k) x); [reflexivity|].
  intros a w Hin. rewrite veqb_vint_l by int_mem. destruct (Z.eqb_spec (toZ a) (- k)), (Z.eqb_spec (- toZ a) k); try reflexivity; lia.
Qed.

Lemma abs_law c x r : cfg_trunc c = false -> proper x -> int_vals x -> rv_abs c x = Ok r ->
  int_vals (rv_dist r) /\ forall k, (Pr (rv_dist r) (vint k) == PrP (fun v => (Z.abs (toZ v) =? k)%Z) x)%Q.
Proof. intros Ht Hp Hi H. exact (rv_map_int_law c _ Z.abs x r Ht Hp Hi vabs_int H). Qed.

Lemma listed_image_int (g : Z -> Z) (x : dist) k : int_vals x ->
  listed (vint k) (image (fun v => vint (g (toZ v))) x) = true <-> exists e, In e x /\ g (toZ (fst e)) = k.
Proof.
  intro Hi. rewrite listed_iff. split.
  - intros (e & He & E). unfold image in He. apply in_map_iff in He as (e' & <- & He'). cbn in E.
    exists e'. split; [exact He'|]. change (veqb (vint k) (vint (g (toZ (fst e')))) = true) in E.
    rewrite veqb_int in E. apply Z.eqb_eq in E. congruence.
  - intros (e & He & E). exists (vint (g (toZ (fst e))), snd e). split.
    + unfold image. apply in_map_iff. eauto.
    + cbn [fst]. rewrite veqb_int. apply Z.eqb_eq. congruence.
Qed.

Lemma neg_succeeds c x : cfg_trunc c = false -> nonneg x -> int_vals x ->
  rv_neg c x = Ok (rv_of (normal c (image (fun v => vint (- toZ v)) x))).
Proof. intros Ht Hn Hi. apply (rv_map_int c _ (fun z => - z)); auto using vop_neg_int. Qed.

Lemma neg_involutive c x r r' : cfg_trunc c = false -> canon x -> no_dropped c x -> int_vals x ->
  rv_neg c x = Ok r -> rv_neg c (rv_dist r) = Ok r' -> rv_dist r' = x.
Proof.
  intros Ht Hc Hd Hi H H'. pose proof Hc as [(_ & Hs & Hn) _].
  rewrite neg_succeeds in H by assumption. inversion H; subst r. cbn [rv_of rv_dist] in H'. clear H.
  set (l := image (fun v => vint (- toZ v)) x) in *.
  assert (Hl : nonneg l) by (apply nonneg_image, Hn).
  assert (Il : int_vals l) by apply (image_int Z.opp).
  assert (C1 : canon (normal c l)) by (apply normal_canon, Hl).
  assert (N1 : nonneg (normal c l)) by apply C1. assert (I1 : int_vals (normal c l)) by (apply normal_int, Il).
  rewrite neg_succeeds in H' by assumption. inversion H'; subst r'. cbn [rv_of rv_dist].
  transitivity (normal c x); [|apply normal_id_int; assumption].
  assert (NL : nothing_left c l = false).
  { pose proof (canon_something c x Hc Hd) as K. destruct (nothing_left c l) eqn:E; [|reflexivity].
    apply nothing_left_iff in E; [|exact Hl]. exfalso.
    assert (K2 : nothing_left c x = true); [|congruence]. apply nothing_left_iff; [exact Hn|].
    destruct E as [E|[E1 E2]]; [left; destruct x; [reflexivity|discriminate]|right].
    split; [exact E1|]. unfold l, image in E2. rewrite Forall_map in E2. exact E2. }
  destruct (normal_stands c l Hl Il NL) as (g & Hg & HW & HL).
  apply (normal_unique_int c _ x g 1); try lia; auto.
  - apply nonneg_image, N1.
  - apply (image_int Z.opp).
  - intro k. rewrite (wt_image_int Z.opp). rewrite mass_wsum.
    rewrite <- (HW (fun z => if - z =? k then 1 else 0)). unfold l. rewrite wsum_image, wt_int by exact Hi. rewrite Z.mul_1_l.
    apply wsum_ext. intros a w _. cbn [toZ vint]. rewrite Z.opp_involutive. reflexivity.
  - intros K k. apply eq_true_iff_eq. rewrite (listed_image_int Z.opp _ k I1), listed_int by exact Hi. split.
    + intros (e & He & Ek). assert (L : listed (vint (toZ (fst e))) (normal c l) = true) by (apply listed_int; eauto).
      rewrite HL in L by exact K. apply (listed_image_int Z.opp _ _ Hi) in L as (e' & He' & Ee'). exists e'. split; [exact He'|lia].
    + intros (e & He & Ek). assert (L : listed (vint (- k)) (normal c l) = true).
      { rewrite HL by exact K. apply (listed_image_int Z.opp _ _ Hi). exists e. split; [exact He|lia]. }
      apply listed_int in L; [|exact I1]. destruct L as (e' & He' & Ee'). exists e'. split; [exact He'|lia].
Qed.

(** floor, ceil, trunc of numeric dice *)
Definition num_vals (d : dist) : Prop := all_numbers (vals d).

Lemma rv_round_law c (f : num -> Z) x r : cfg_trunc c = false -> proper x ->
  rv_map c (vnum1 (fun n => Ok (NI (f n)))) x = Ok r ->
  int_vals (rv_dist r) /\
  forall k, (Pr (rv_dist r) (vint k) == PrP (fun v => match v with VN n => (f n =? k)%Z | VS _ => false end) x)%Q.
Proof.
  intros Ht Hp H. destruct (rv_map_law c _ x r Ht Hp H) as (HP & _). split.
  - unfold rv_map in H. destruct (mapM _ (vals x)) as [vs|] eqn:E; cbn [bind] in H; [|discriminate].
    unfold mk_rv in H. destruct (mk_dist c vs (probs x)) as [d|] eqn:D; cbn in H; [|discriminate]. inversion H; subst r.
    cbn. apply (mk_dist_int_vals c vs (probs x) d D). clear -E. revert vs E.
    induction (vals x) as [|v l IH]; intros vs E; cbn in E; [inversion E; constructor|].
    destruct v as [n|s]; cbn in E; [|discriminate]. destruct (mapM _ l) eqn:F; cbn in E; [|discriminate].
    inversion E; subst. constructor; [reflexivity|apply IH; reflexivity].
  - intro k. rewrite HP. apply PrP_ext. intros [n|s] w _; cbn; [|reflexivity].
    change (veqb (vint k) (vint (f n)) = (f n =? k)). rewrite veqb_int. apply Z.eqb_sym.
Qed.

Lemma rv_round_ok c (f : num -> Z) x : cfg_trunc c = false -> nonneg x -> num_vals x ->
  exists r, rv_map c (vnum1 (fun n => Ok (NI (f n)))) x = Ok r.
Proof.
  intros Ht Hn Hv. apply rv_map_succeeds; auto. intros a Ha. unfold num_vals, all_numbers in Hv. rewrite Forall_forall in Hv.
  destruct (Hv a Ha) as [n ->]. cbn. eauto.
Qed.

Lemma from_const_int c k : cfg_trunc c = false -> from_const c (vint k) = Ok (rv_of [(vint k, 1)]).
Proof. intro H. unfold from_const, mk_rv, mk_dist, mk_dist_tr. rewrite H. cbn. destruct (cfg_skip0 c); reflexivity. Qed.

Lemma invert_law c x : cfg_trunc c = false -> canon x ->
  rv_invert c x = Ok (rv_of [(vint (if dists_equal x [(vint 0, 1)] then 1 else 0), 1)]).
Proof.
  intros Ht _. unfold rv_invert, dists_equal. destruct x as [|[v p] [|e x]].
  - apply from_const_int, Ht.
  - cbn. rewrite !andb_true_r. destruct (veqb v (vint 0) && (p =? 1)); apply from_const_int, Ht.
  - cbn. rewrite andb_false_r. cbn. apply from_const_int, Ht.
Qed.

(** ** C11: means *)
Lemma mean_terms (x : dist) : int_vals x ->
  mapM (fun vp => match fst vp with VN n => nmul n (NI (snd vp)) | VS _ => Err TypeErr end) x
  = Ok (map (fun vp => NI (toZ (fst vp) * snd vp)) x).
Proof.
  intro Hi. induction Hi as [|[v p] x Hv Hx IH]; [reflexivity|]. cbn [mapM fst snd map].
  cbn in Hv. destruct v as [[z|]|]; try discriminate. cbn [nmul lift2 bind]. cbn in IH. rewrite IH. reflexivity.
Qed.

Lemma nsum_ints l s : foldM nadd (NI s) (map NI l) = Ok (NI (s + sumZ l)).
Proof.
  revert s. induction l as [|z l IH]; intro s; cbn [foldM map sumZ fold_right]; [rewrite Z.add_0_r; reflexivity|].
  cbn [nadd lift2 bind]. rewrite IH. do 2 f_equal. unfold sumZ. lia.
Qed.

Lemma wsum_sumZ (f : pval -> Z) (x : dist) : sumZ (map (fun vp => f (fst vp) * snd vp) x) = wsum f x.
Proof. induction x as [|[v p] x IH]; cbn; [reflexivity|]. unfold sumZ in IH. rewrite IH. reflexivity. Qed.

Lemma mean_int x : int_vals x ->
  rv_mean x = if total x =? 0 then Ok None else rmap Some (fround (wsum toZ x) (total x) OverflowErr).
Proof.
  intro Hi. unfold rv_mean. rewrite sum_probs_total. destruct (Z.eqb_spec (total x) 0) as [E|E]; [reflexivity|].
  rewrite mean_terms by exact Hi. cbn [bind]. unfold nsum.
  replace (map (fun vp => NI (toZ (fst vp) * snd vp)) x) with (map NI (map (fun vp : pval * Z => toZ (fst vp) * snd vp) x))
    by (rewrite map_map; reflexivity).
  rewrite nsum_ints, wsum_sumZ, Z.add_0_l. cbn [bind]. unfold ntruediv. cbn [mant].
  destruct (Z.eqb_spec (total x) 0); [contradiction|].
  destruct (fround (wsum toZ x) (total x) OverflowErr); reflexivity.
Qed.

Lemma mean_correct x : int_vals x -> nonneg x ->
  (rv_mean x = Ok None <-> Forall (fun e => snd e = 0) x) /\
  (forall m, rv_mean x = Ok (Some m) -> is_int m = false /\ nearest_double (expectation x) (numQ m)) /\
  (forall e, rv_mean x = Err e -> e = OverflowErr /\ (inject_Z (2 ^ 1024 - 2 ^ 970) <= Qabs (expectation x))%Q).
Proof.
  intros Hi Hn. rewrite mean_int by exact Hi. destruct (Z.eqb_spec (total x) 0) as [E|E].
  - split; [|split; intros; discriminate]. split; [intros _|reflexivity].
    clear Hi. induction Hn as [|[v p] x Hv Hx IH]; [constructor|]. unfold total in *. cbn [mass snd] in *.
    pose proof (mass_nonneg (fun _ : pval => true) x Hx). constructor; [cbn; lia|apply IH; lia].
  - pose proof (fround_spec (wsum toZ x) (total x) OverflowErr E) as S.
    fold (expectation x) in S. destruct (fround (wsum toZ x) (total x) OverflowErr) as [m|e]; cbn [rmap].
    + split; [split; [discriminate|]|].
      * intro K. exfalso. apply E. apply mass_zero_weights, K.
      * split; [|discriminate]. intros m' H. inversion H; subst. split; apply S.
    + split; [split; [discriminate|]|].
      * intro K. exfalso. apply E. apply mass_zero_weights, K.
      * split; [discriminate|]. intros e' H. inversion H; subst. exact S.
Qed.

Lemma expectation_scale a b g : 0 < g -> total b <> 0 -> wsum toZ a = g * wsum toZ b -> total a = g * total b ->
  (expectation a == expectation b)%Q.
Proof. intros Hg Hb H1 H2. unfold expectation. apply frac_eq; [nia|exact Hb|]. rewrite H1, H2. ring. Qed.

Lemma normal_expectation c l : proper l -> int_vals l -> (expectation (normal c l) == expectation l)%Q.
Proof.
  intros [Hn Ht] Hi. pose proof (proper_something c l Hn Ht) as N.
  destruct (normal_wsum c l Hi N) as (g & Hg & HW). symmetry. apply (expectation_scale _ _ g Hg).
  - pose proof (normal_proper c l (conj Hn Ht)) as [_ K]. lia.
  - apply (HW (fun z => z)).
  - rewrite !total_wsum. apply (HW (fun _ => 1)).
Qed.

Lemma mean_add c x y r : cfg_trunc c = false -> proper x -> proper y -> int_vals x -> int_vals y ->
  total x * total y <= SUM_LIMIT -> rv_op c OAdd x y = Ok r ->
  (expectation (rv_dist r) == expectation x + expectation y)%Q.
Proof.
  intros Ht [Hx Tx] [Hy Ty] Ix Iy HL H.
  destruct (rv_add_below c x y Ht Hx Hy Ix Iy HL) as (m & E & R & F). rewrite F in H. inversion H; subst r. cbn [rv_of rv_dist].
  pose proof (conv_total _ _ _ _ (fast_convolve_spec _ _ _ _ E)) as TM.
  rewrite normal_expectation; [|split; [apply (ar_nonneg _ _ _ R); assumption|rewrite TM; nia]|apply R].
  unfold expectation. rewrite TM. pose proof (ar_wsum _ _ _ R (fun z => z)) as W. cbv beta in W.
  change (wsum (fun v => toZ v) m) with (wsum toZ m) in W. rewrite W.
  assert (K : wsum (fun a => wsum (fun b => toZ a + toZ b) y) x = wsum toZ x * total y + total x * wsum toZ y).
  { rewrite (wsum_ext _ (fun a => total y * toZ a + wsum toZ y) x).
    - rewrite wsum_plus, wsum_cmul, wsum_const. lia.
    - intros a w _. rewrite wsum_plus, wsum_const. lia. }
  rewrite K, inject_Z_plus, !inject_Z_mult. field. split; apply inject_Z_nonzero; lia.
Qed.

Lemma mean_image c g x : proper x -> int_vals x ->
  (expectation (normal c (image (fun v => vint (g (toZ v))) x)) == inject_Z (wsum (fun v => g (toZ v)) x) / inject_Z (total x))%Q.
Proof.
  intros Hp Hi. rewrite normal_expectation by (try apply proper_image, Hp; apply image_int).
  unfold expectation. rewrite total_image, wsum_image. reflexivity.
Qed.

Lemma mean_neg c x r : cfg_trunc c = false -> proper x -> int_vals x -> rv_neg c x = Ok r ->
  (expectation (rv_dist r) == - expectation x)%Q.
Proof.
  intros Ht Hp Hi H. rewrite neg_succeeds in H by (auto; apply Hp). inversion H; subst r. cbn [rv_of rv_dist].
  rewrite (mean_image c Z.opp) by assumption. unfold expectation.
  rewrite (wsum_ext _ (fun v => (-1) * toZ v) x) by (intros; lia). rewrite wsum_cmul, inject_Z_mult.
  change (inject_Z (-1)) with (-1)%Q. field. apply inject_Z_nonzero. destruct Hp. lia.
Qed.

Lemma vop_scal_int k v : v_is_int v = true -> vop OMul v (vint k) = Ok (vint (toZ v * k)).
Proof. intro H. rewrite (is_int_vint v H). reflexivity. Qed.

Lemma vop_shift_int k v : v_is_int v = true -> vop OAdd v (vint k) = Ok (vint (toZ v + k)).
Proof. intro H. rewrite (is_int_vint v H). reflexivity. Qed.

Lemma mean_scale c k x r : cfg_trunc c = false -> proper x -> int_vals x -> rv_op_const c OMul x (vint k) = Ok r ->
  (expectation (rv_dist r) == inject_Z k * expectation x)%Q.
Proof.
  intros Ht Hp Hi H. unfold rv_op_const in H.
  rewrite (rv_map_int c _ (fun z => z * k) x Ht (proj1 Hp) Hi (vop_scal_int k)) in H. inversion H; subst r. cbn [rv_of rv_dist].
  rewrite (mean_image c (fun z => z * k)) by assumption. unfold expectation.
  rewrite (wsum_ext _ (fun v => k * toZ v) x) by (intros; lia). rewrite wsum_cmul, inject_Z_mult.
  field. apply inject_Z_nonzero. destruct Hp. lia.
Qed.

Lemma mean_shift c k x r : cfg_trunc c = false -> proper x -> int_vals x -> rv_op_const c OAdd x (vint k) = Ok r ->
  (expectation (rv_dist r) == expectation x + inject_Z k)%Q.
Proof.
  intros Ht Hp Hi H. unfold rv_op_const in H.
  rewrite (rv_map_int c _ (fun z => z + k) x Ht (proj1 Hp) Hi (vop_shift_int k)) in H. inversion H; subst r. cbn [rv_of rv_dist].
  rewrite (mean_image c (fun z => z + k)) by assumption. unfold expectation.
  rewrite wsum_plus, wsum_const, inject_Z_plus, inject_Z_mult.
  field. apply inject_Z_nonzero. destruct Hp. lia.
Qed.

(** ** floor, ceil, trunc and abs in terms of exact numbers *)
Lemma all_num_mapM f x vs : mapM (vnum1 f) (vals x) = Ok vs -> num_vals x.
Proof.
  unfold num_vals, all_numbers. revert vs. induction (vals x) as [|v l IH]; intros vs H; [constructor|].
  cbn in H. destruct v as [n|s]; [|discriminate]. constructor; [eauto|].
  destruct (vnum1 f (VN n)); cbn in H; [|discriminate]. destruct (mapM (vnum1 f) l); [|discriminate]. eapply IH; reflexivity.
Qed.

Lemma rv_map_inv c f x r : rv_map c f x = Ok r -> exists vs, mapM f (vals x) = Ok vs.
Proof. unfold rv_map. destruct (mapM f (vals x)); cbn; [eauto|discriminate]. Qed.

Lemma num_val_in x v w : num_vals x -> In (v, w) x -> exists n, v = VN n.
Proof. intros H Hin. unfold num_vals, all_numbers in H. rewrite Forall_forall in H. apply H. unfold vals. apply (in_map fst) in Hin. exact Hin. Qed.

Lemma rounding_law c (f : num -> Z) (S : Q -> Z -> Prop) x r :
  (forall n k, f n = k <-> S (numQ n) k) ->
  cfg_trunc c = false -> proper x -> rv_map c (vnum1 (fun n => Ok (NI (f n)))) x = Ok r ->
  int_vals (rv_dist r) /\
  forall k P, (forall n, P (VN n) = true <-> S (numQ n) k) -> (Pr (rv_dist r) (vint k) == PrP P x)%Q.
Proof.
  intros HS Ht Hp H. destruct (rv_round_law c f x r Ht Hp H) as [H1 H2]. split; [exact H1|]. intros k P HP.
  rewrite H2. apply PrP_ext. intros a w Hin. destruct (rv_map_inv _ _ _ _ H) as (vs & E).
  destruct (num_val_in x a w (all_num_mapM _ _ _ E) Hin) as (n & ->). apply eq_true_iff_eq.
  rewrite Z.eqb_eq, HP. apply HS.
Qed.

Definition floor_of (q : Q) (k : Z) : Prop := (inject_Z k <= q /\ q < inject_Z (k + 1))%Q.
Definition ceil_of (q : Q) (k : Z) : Prop := (q <= inject_Z k /\ inject_Z (k - 1) < q)%Q.

Lemma nfloor_iff n k : nfloor n = k <-> floor_of (numQ n) k.
Proof.
  pose proof (nfloor_spec n) as [H1 H2]. split; [intros <-; split; assumption|]. intros [K1 K2].
  assert ((inject_Z (nfloor n) < inject_Z (k + 1))%Q) as A by lra. assert ((inject_Z k < inject_Z (nfloor n + 1))%Q) as B by lra.
  rewrite <- Zlt_Qlt in A, B. lia.
Qed.

Lemma nceil_iff n k : nceil n = k <-> ceil_of (numQ n) k.
Proof.
  pose proof (nceil_spec n) as [H1 H2]. split; [intros <-; split; assumption|]. intros [K1 K2].
  assert ((inject_Z (nceil n - 1) < inject_Z k)%Q) as A by lra. assert ((inject_Z (k - 1) < inject_Z (nceil n))%Q) as B by lra.
  rewrite <- Zlt_Qlt in A, B. lia.
Qed.

Lemma ntrunc_iff n k : ntrunc n = k <-> int_part (numQ n) k.
Proof. split; [intros <-; apply ntrunc_spec|]. intro H. eapply int_part_unique; [apply ntrunc_spec|exact H]. Qed.

Lemma floor_law c x r : cfg_trunc c = false -> proper x -> rv_floor c x = Ok r ->
  int_vals (rv_dist r) /\
  forall k P, (forall n, P (VN n) = true <-> floor_of (numQ n) k) -> (Pr (rv_dist r) (vint k) == PrP P x)%Q.
Proof. apply rounding_law, nfloor_iff. Qed.

Lemma ceil_law c x r : cfg_trunc c = false -> proper x -> rv_ceil c x = Ok r ->
  int_vals (rv_dist r) /\
  forall k P, (forall n, P (VN n) = true <-> ceil_of (numQ n) k) -> (Pr (rv_dist r) (vint k) == PrP P x)%Q.
Proof. apply rounding_law, nceil_iff. Qed.

Lemma trunc_law c x r : cfg_trunc c = false -> proper x -> rv_trunc c x = Ok r ->
  int_vals (rv_dist r) /\
  forall k P, (forall n, P (VN n) = true <-> int_part (numQ n) k) -> (Pr (rv_dist r) (vint k) == PrP P x)%Q.
Proof. apply rounding_law, ntrunc_iff. Qed.

Lemma nabs_Q n : (numQ (nabs n) == Qabs (numQ n))%Q.
Proof.
  rewrite !num_val. replace (expo (nabs n)) with (expo n) by (destruct n; reflexivity).
  replace (mant (nabs n)) with (Z.abs (mant n)) by (destruct n; reflexivity).
  rewrite Qabs_Qmult, (Qabs_pos (p2 _)) by (apply Qlt_le_weak, p2_pos). rewrite <- (Qabs_Zabs (mant n)) || idtac. reflexivity.
Qed.

Lemma abs_num_law c x r : cfg_trunc c = false -> proper x -> rv_abs c x = Ok r ->
  forall z P, (forall n, P (VN n) = true <-> (Qabs (numQ n) == numQ z)%Q) -> (Pr (rv_dist r) (VN z) == PrP P x)%Q.
Proof.
  intros Ht Hp H z P HP. destruct (rv_map_law c _ x r Ht Hp H) as (HL & _). rewrite HL. apply PrP_ext. intros a w Hin.
  destruct (rv_map_inv _ _ _ _ H) as (vs & E). destruct (num_val_in x a w (all_num_mapM _ _ _ E) Hin) as (n & ->).
  cbn [vnum1 rmap yields]. apply eq_true_iff_eq. rewrite HP, veqb_Q, nabs_Q. split; intro K; symmetry; exact K.
Qed.

Lemma unary_succeed c x : cfg_trunc c = false -> nonneg x -> num_vals x ->
  (exists r, rv_abs c x = Ok r) /\ (exists r, rv_floor c x = Ok r) /\ (exists r, rv_ceil c x = Ok r) /\ (exists r, rv_trunc c x = Ok r).
Proof.
  intros Ht Hn Hv. split; [|split; [|split]]; try (apply rv_round_ok; assumption).
  apply rv_map_succeeds; auto. intros a Ha. unfold num_vals, all_numbers in Hv. rewrite Forall_forall in Hv.
  destruct (Hv a Ha) as [n ->]. cbn. eauto.
Qed.
