(** Facts about roller.py. *)
From Coq Require Import String List ZArith QArith Qabs Bool Permutation Sorted Lia Lqa.
From Verif Require Import PyBase Num Val Sorting RVModel UtilModel Obj RollModel Spec CmpFacts SortFacts MassFacts NumFacts RVFacts ConstructFacts ConvFacts IntFacts RoundFacts LimitFacts OpFacts UnaryFacts MixFacts OutFacts.
Import ListNotations.
Open Scope Z_scope.

(** ** Rolling without a table *)
Fixpoint roll_pure (c : cfg) (p : positive) (d : rv) : res rv :=
  match p with
  | xH => Ok d
  | xO q =>
      half <- roll_pure c q d ;;
      full <- rv_op c OAdd (rv_dist half) (rv_dist half) ;;
      Ok (set_source full (Zpos p) (rv_dist d))
  | xI q =>
      half <- roll_pure c q d ;;
      full <- rv_op c OAdd (rv_dist half) (rv_dist half) ;;
      full <- rv_op c OAdd (rv_dist full) (rv_dist d) ;;
      Ok (set_source full (Zpos p) (rv_dist d))
  end.

Definition rdist (r : res rv) : res dist := rmap rv_dist r.

Lemma roll_pure_dist c p d d' : rv_dist d = rv_dist d' ->
  rdist (roll_pure c p d) = rdist (roll_pure c p d') /\
  (p <> xH -> roll_pure c p d = roll_pure c p d').
Proof.
  intros E. induction p; cbn [roll_pure].
  - destruct IHp as [I _]. rewrite E. unfold rdist in *.
    destruct (roll_pure c p d), (roll_pure c p d'); cbn in I |- *; try discriminate; inversion I; subst.
    + rewrite H0. split; auto.
    + split; auto.
  - destruct IHp as [I _]. rewrite E. unfold rdist in *.
    destruct (roll_pure c p d), (roll_pure c p d'); cbn in I |- *; try discriminate; inversion I; subst.
    + rewrite H0. split; auto.
    + split; auto.
  - split; [cbn; congruence | congruence].
Qed.

Definition int_key (d : dist) : Prop := int_vals d.

(** every entry is what a fresh computation gives *)
Definition memo_ok (c : cfg) (m : memo) : Prop :=
  Forall (fun e => int_vals (snd (fst e)) /\
                   exists p, p <> xH /\ fst (fst e) = Zpos p /\
                             roll_pure c p (rv_of (snd (fst e))) = Ok (snd e)) m.

Lemma dict_same_int a b : v_is_int a = true -> v_is_int b = true -> dict_same a b = true -> a = b.
Proof. intros Ha Hb H. apply int_val_eq; auto. now apply dict_same_veqb. Qed.

Lemma vals_probs_eq (d d' : dist) : vals d = vals d' -> probs d = probs d' -> d = d'.
Proof. intros H1 H2. rewrite <- (combine_vals_probs d), <- (combine_vals_probs d'). congruence. Qed.

Lemma key_same_int n n' d d' : int_vals d -> int_vals d' -> key_same (n, d) (n', d') = true -> n = n' /\ d = d'.
Proof.
  intros Hd Hd'. unfold key_same; cbn. intros H.
  apply andb_true_iff in H as [H1 H2]. apply andb_true_iff in H2 as [H2 H3].
  apply Z.eqb_eq in H1. apply list_eqb_Z in H3. split; auto.
  apply vals_probs_eq; auto.
  clear H1 H3. unfold int_vals in *. revert d' Hd' H2.
  induction d as [|x d IH]; destruct d' as [|y d']; cbn; intros Hd' H2; try discriminate; auto.
  apply andb_true_iff in H2 as [H2 H3]. inversion Hd; inversion Hd'; subst. f_equal; auto.
  now apply dict_same_int.
Qed.

Lemma memo_get_ok c m p d r : p <> xH -> memo_ok c m -> int_vals (rv_dist d) ->
  memo_get m (Zpos p, rv_dist d) = Some r -> roll_pure c p d = Ok r.
Proof.
  intros Hp Hm Hd. induction Hm as [|[k r'] m [Hk [p' [Hp' [E R]]]] _ IH]; cbn [memo_get]; [discriminate|].
  destruct k as [n' d']; cbn [fst snd] in *. subst n'.
  destruct (key_same _ _) eqn:K; [|auto].
  apply key_same_int in K as [K1 K2]; auto. inversion K1; subst. intros H; inversion H; subst.
  rewrite <- R. now apply (proj2 (roll_pure_dist c p d (rv_of (rv_dist d)) eq_refl)).
Qed.

Lemma memoised_ok c p d compute pure : p <> xH -> int_vals (rv_dist d) ->
  roll_pure c p d = pure ->
  (forall m, memo_ok c m -> exists m', compute m = (pure, m') /\ memo_ok c m') ->
  forall m, memo_ok c m -> exists m', memoised (Zpos p, rv_dist d) compute m = (pure, m') /\ memo_ok c m'.
Proof.
  intros Hp Hd E C m Hm. unfold memoised.
  destruct (memo_get m _) as [r|] eqn:G.
  - exists m. split; auto. rewrite <- E. now rewrite (memo_get_ok c m p d r).
  - destruct (C m Hm) as [m' [C1 C2]]. rewrite C1. destruct pure as [r|e].
    + eexists; split; [reflexivity|]. constructor; auto. cbn. split; auto.
      exists p. split; auto. split; auto. rewrite <- E. symmetry.
      now apply (proj2 (roll_pure_dist c p d (rv_of (rv_dist d)) eq_refl)).
    + eauto.
Qed.

Lemma roll_pos_pure c p d : int_vals (rv_dist d) -> forall m, memo_ok c m ->
  exists m', roll_pos c p d m = (roll_pure c p d, m') /\ memo_ok c m'.
Proof.
  intros Hd. induction p; intros m Hm.
  - cbn [roll_pos]. refine (memoised_ok c _ d _ _ _ Hd eq_refl _ m Hm); [discriminate|].
    clear m Hm. intros m Hm. destruct (IHp m Hm) as [m' [E Hm']].
    cbn [roll_pure]. unfold sbind, slift, sret. rewrite E.
    destruct (roll_pure c p d) as [h|e]; cbn; [|eauto].
    destruct (rv_op c OAdd (rv_dist h) (rv_dist h)) as [f|e]; cbn; [|eauto].
    destruct (rv_op c OAdd (rv_dist f) (rv_dist d)) as [f'|e]; cbn; eauto.
  - cbn [roll_pos]. refine (memoised_ok c _ d _ _ _ Hd eq_refl _ m Hm); [discriminate|].
    clear m Hm. intros m Hm. destruct (IHp m Hm) as [m' [E Hm']].
    cbn [roll_pure]. unfold sbind, slift, sret. rewrite E.
    destruct (roll_pure c p d) as [h|e]; cbn; [|eauto].
    destruct (rv_op c OAdd (rv_dist h) (rv_dist h)) as [f|e]; cbn; eauto.
  - cbn. unfold sret. eauto.
Qed.

Definition roll_int_pure (c : cfg) (n : Z) (d : rv) : res rv :=
  match n with
  | Z0 => from_const c (vint 0)
  | Zpos p => roll_pure c p d
  | Zneg p => r <- roll_pure c p d ;; rv_neg c (rv_dist r)
  end.

Lemma roll_int_is_pure c n d : int_vals (rv_dist d) -> forall m, memo_ok c m ->
  exists m', roll_int c n d m = (roll_int_pure c n d, m') /\ memo_ok c m'.
Proof.
  intros Hd m Hm. destruct n; cbn [roll_int roll_int_pure].
  - unfold slift. eauto.
  - now apply roll_pos_pure.
  - destruct (roll_pos_pure c p d Hd m Hm) as [m' [E Hm']]. unfold sbind, slift. rewrite E.
    destruct (roll_pure c p d); cbn; eauto.
Qed.

(** ** Tuples *)
Lemma wsum_map_pair {A B} (g : A -> B) (f : B -> Z) (l : list (A * Z)) :
  wsum f (map (fun x => (g (fst x), snd x)) l) = wsum (fun a => f (g a)) l.
Proof. exact (wsum_image g f l). Qed.

Lemma wsum_tuples_S {A} n (l : list (A * Z)) f :
  wsum f (tuples (S n) l) = wsum (fun a => wsum (fun t => f (a :: t)) (tuples n l)) l.
Proof.
  cbn [tuples].
  transitivity (wsum (fun at_ => f (fst at_ :: snd at_)) (indep l (tuples n l))).
  - exact (wsum_image (fun at_ : A * list A => fst at_ :: snd at_) f _).
  - rewrite wsum_indep. reflexivity.
Qed.

Lemma wsum_tuples_add {A} a b (l : list (A * Z)) f :
  wsum f (tuples (a + b) l) = wsum (fun s => wsum (fun t => f (s ++ t)) (tuples b l)) (tuples a l).
Proof.
  revert f. induction a as [|a IH]; intros f.
  - cbn [tuples Nat.add wsum]. rewrite Z.mul_1_r, Z.add_0_r. reflexivity.
  - cbn [Nat.add]. rewrite !wsum_tuples_S. apply wsum_ext. intros x w _. rewrite IH.
    apply wsum_ext. intros; reflexivity.
Qed.

Lemma in_tuples_S {A} n (l : list (A * Z)) t w :
  In (t, w) (tuples (S n) l) <-> exists a p t' q, In (a, p) l /\ In (t', q) (tuples n l) /\ t = a :: t' /\ w = p * q.
Proof.
  cbn [tuples]. rewrite in_map_iff. split.
  - intros [[[a t'] w'] [E H]]. cbn in E. inversion E; subst. apply in_indep in H as [p [q [H1 [H2 H3]]]].
    exists a, p, t', q. auto.
  - intros [a [p [t' [q [H1 [H2 [E1 E2]]]]]]]. subst. exists ((a, t'), p * q). split; auto.
    apply in_indep. exists p, q. auto.
Qed.

Lemma in_tuples_add {A} a b (l : list (A * Z)) t :
  (exists w, In (t, w) (tuples (a + b) l)) <->
  exists s u p q, t = s ++ u /\ In (s, p) (tuples a l) /\ In (u, q) (tuples b l).
Proof.
  revert t. induction a as [|a IH]; intros t.
  - cbn [Nat.add tuples]. split.
    + intros [w H]. exists [], t, 1, w. cbn. auto.
    + intros [s [u [p [q [E [[H1|[]] H2]]]]]]. inversion H1; subst. cbn. eauto.
  - cbn [Nat.add]. split.
    + intros [w H]. apply in_tuples_S in H as [x [p [t' [q [H1 [H2 [E1 E2]]]]]]].
      destruct (proj1 (IH t') (ex_intro _ q H2)) as [s [u [p' [q' [E [H3 H4]]]]]].
      exists (x :: s), u, (p * p'), q'. subst. split; auto. split; auto.
      apply in_tuples_S. exists x, p, s, p'. auto.
    + intros [s [u [p [q [E [H1 H2]]]]]]. apply in_tuples_S in H1 as [x [p' [t' [q' [H1 [H3 [E1 E2]]]]]]]. subst.
      destruct (proj2 (IH (t' ++ u))) as [w H]. { exists t', u, q', q. auto. }
      exists (p' * w). apply in_tuples_S. exists x, p', (t' ++ u), w. auto.
Qed.

Lemma sumZ_app a b : sumZ (a ++ b) = sumZ a + sumZ b.
Proof. unfold sumZ. induction a; cbn [app fold_right]; lia. Qed.

Definition tsum (t : list pval) : Z := sumZ (map toZ t).
Lemma tsum_one v : tsum [v] = toZ v.
Proof. unfold tsum, sumZ. cbn [map fold_right]. lia. Qed.
Lemma tsum_app a b : tsum (a ++ b) = tsum a + tsum b.
Proof. unfold tsum. now rewrite map_app, sumZ_app. Qed.

Lemma proper_tuples {A} n (l : list (A * Z)) : proper l -> proper (tuples n l).
Proof.
  intros [H1 H2]. split; [now apply nonneg_tuples|]. rewrite total_tuples. apply Z.pow_pos_nonneg; lia.
Qed.

(** [x] is the law of the total of n dice, up to a factor *)
Record sums (c : cfg) (n : nat) (d x : dist) : Prop := {
  su_law : exists g, 0 < g /\ forall h, wsum (fun t => h (tsum t)) (tuples n d) = g * wsum (fun v => h (toZ v)) x;
  su_listed : cfg_skip0 c = false -> forall k, listed (vint k) x = true <-> exists t w, In (t, w) (tuples n d) /\ tsum t = k;
  su_proper : proper x;
  su_int : int_vals x
}.

Lemma sums_one c d : proper d -> int_vals d -> sums c 1 d d.
Proof.
  intros H1 H2. constructor; auto.
  - exists 1. split; [lia|]. intros h. rewrite wsum_tuples_S. cbn [tuples].
    rewrite Z.mul_1_l. apply wsum_ext. intros a w _. cbn [wsum]. rewrite tsum_one. lia.
  - intros _ k. rewrite listed_int by auto. split.
    + intros [[v w] [H E]]. exists [v], w. split; [|rewrite tsum_one; exact E].
      apply in_tuples_S. exists v, w, [], 1. cbn. repeat split; auto. lia.
    + intros [t [w [H E]]]. apply in_tuples_S in H as [a [p [t' [q [H1' [H2' [E1 E2]]]]]]].
      cbn in H2'. destruct H2' as [H2'|[]]. inversion H2'; subst. exists (a, p). split; auto.
      cbn [fst]. now rewrite tsum_one.
Qed.

Lemma sums_total_le c n d x : proper d -> sums c n d x -> total x <= total d ^ Z.of_nat n.
Proof.
  intros Hd [[g [Hg L]] _ [_ Hx] _]. specialize (L (fun _ => 1)). cbn beta in L.
  rewrite !wsum_const in L. rewrite total_tuples in L. nia.
Qed.

Lemma wsum_flip_scale (f : Z -> Z -> Z) (x : dist) (T : list (list pval * Z)) g :
  (forall h, wsum (fun t => h (tsum t)) T = g * wsum (fun v => h (toZ v)) x) ->
  forall (U : list (list pval * Z)) (y : dist) g',
  (forall h, wsum (fun t => h (tsum t)) U = g' * wsum (fun v => h (toZ v)) y) ->
  wsum (fun s => wsum (fun t => f (tsum s) (tsum t)) U) T =
  g * g' * wsum (fun a => wsum (fun b => f (toZ a) (toZ b)) y) x.
Proof.
  intros L U y g' L'.
  transitivity (wsum (fun s => (fun z => wsum (fun t => f z (tsum t)) U) (tsum s)) T); [reflexivity|].
  rewrite (L (fun z => wsum (fun t => f z (tsum t)) U)).
  rewrite <- Z.mul_assoc. f_equal. rewrite <- wsum_cmul.
  apply wsum_ext. intros a w _. apply L'.
Qed.

Lemma add_sums c a b d x y : cfg_trunc c = false -> sums c a d x -> sums c b d y ->
  total x * total y <= SUM_LIMIT ->
  exists r, rv_op c OAdd x y = Ok r /\ sums c (a + b) d (rv_dist r).
Proof.
  intros Ht [[g [Hg L]] S Px Ix] [[g' [Hg' L']] S' Py Iy] Hlim.
  destruct (rv_add_below c x y Ht (proj1 Px) (proj1 Py) Ix Iy Hlim) as [m [Hm [A E]]].
  exists (rv_of (normal c m)). split; auto. cbn [rv_dist rv_of].
  assert (Nm : nonneg m) by (apply (ar_nonneg _ _ _ A); [apply Px | apply Py]).
  assert (Tm : total m = total x * total y).
  { rewrite (total_wsum m). rewrite (ar_wsum _ _ _ A (fun _ => 1)).
    rewrite <- (total_wsum y), wsum_const. lia. }
  assert (Pm : proper m). { split; auto. rewrite Tm. destruct Px, Py. nia. }
  assert (NL : nothing_left c m = false) by (apply proper_something; apply Pm).
  destruct (normal_wsum c m (ar_int _ _ _ A) NL) as [k [Hk K]].
  constructor.
  - exists (g * g' * k). split; [nia|]. intros h. rewrite wsum_tuples_add.
    transitivity (wsum (fun s => wsum (fun t => h (tsum s + tsum t)) (tuples b d)) (tuples a d)).
    { apply wsum_ext. intros s w _. apply wsum_ext. intros t w' _. now rewrite tsum_app. }
    rewrite (wsum_flip_scale (fun u v => h (u + v)) x _ g L _ y g' L').
    rewrite <- (ar_wsum _ _ _ A h). rewrite K. lia.
  - intros Hs k'. rewrite normal_listed by auto. rewrite Hs. rewrite (ar_listed _ _ _ A). split.
    + intros [e [e' [H1 [H2 H3]]]].
      assert (X1 : exists t w, In (t, w) (tuples a d) /\ tsum t = toZ (fst e)).
      { apply S; auto. apply listed_int; auto. exists e. auto. }
      assert (X2 : exists t w, In (t, w) (tuples b d) /\ tsum t = toZ (fst e')).
      { apply S'; auto. apply listed_int; auto. exists e'. auto. }
      destruct X1 as [s [w [X1 X1']]], X2 as [u [w' [X2 X2']]].
      destruct (proj2 (in_tuples_add a b d (s ++ u))) as [w2 X].
      { exists s, u, w, w'. auto. }
      exists (s ++ u), w2. split; auto. rewrite tsum_app. lia.
    + intros [t [w [H1 H2]]].
      destruct (proj1 (in_tuples_add a b d t) (ex_intro _ w H1)) as [s [u [p [q [E1 [E2 E3]]]]]].
      subst t. rewrite tsum_app in H2.
      assert (X1 : listed (vint (tsum s)) x = true) by (apply S; eauto).
      assert (X2 : listed (vint (tsum u)) y = true) by (apply S'; eauto).
      apply listed_int in X1 as [e [X1 X1']]; auto. apply listed_int in X2 as [e' [X2 X2']]; auto.
      exists e, e'. repeat split; auto. lia.
  - now apply normal_proper.
  - apply normal_int. apply (ar_int _ _ _ A).
Qed.

Lemma pow_limit t a b M : 0 < t -> t ^ Z.of_nat (a + b) <= M -> t ^ Z.of_nat a * t ^ Z.of_nat b <= M.
Proof. intros. rewrite <- Z.pow_add_r by lia. rewrite <- Nat2Z.inj_add. auto. Qed.

Lemma pow_le_mono t a b : 0 < t -> (a <= b)%nat -> t ^ Z.of_nat a <= t ^ Z.of_nat b.
Proof. intros. apply Z.pow_le_mono_r; lia. Qed.

Lemma roll_pure_sums c p d : cfg_trunc c = false -> proper (rv_dist d) -> int_vals (rv_dist d) ->
  total (rv_dist d) ^ Zpos p <= SUM_LIMIT ->
  exists r, roll_pure c p d = Ok r /\ sums c (Pos.to_nat p) (rv_dist d) (rv_dist r).
Proof.
  intros Ht Hp Hi. set (D := rv_dist d) in *.
  assert (T : 0 < total D) by apply Hp.
  replace (Zpos p) with (Z.of_nat (Pos.to_nat p)) by lia.
  induction p; cbn [roll_pure]; intros Hl.
  - assert (X : Pos.to_nat p~1 = (Pos.to_nat p + Pos.to_nat p + 1)%nat) by lia.
    rewrite X in *.
    destruct IHp as [h [E S]].
    { eapply Z.le_trans; [|exact Hl]. apply pow_le_mono; lia. }
    rewrite E. cbn [bind].
    pose proof (sums_total_le c _ D _ Hp S) as L1.
    pose proof (pow_limit (total D) _ _ _ T Hl) as L2.
    destruct (add_sums c _ _ D _ _ Ht S S) as [f [E2 S2]].
    { destruct S as [_ _ [_ Q] _].
      eapply Z.le_trans; [|eapply Z.le_trans; [|exact L2]].
      - apply Z.mul_le_mono_nonneg; [lia|exact L1|lia|exact L1].
      - rewrite <- Z.pow_add_r by lia. rewrite <- Nat2Z.inj_add.
        rewrite <- (Z.mul_1_r (total D ^ _)) at 1. apply Z.mul_le_mono_nonneg_l; [|].
        + apply Z.pow_nonneg; lia.
        + assert (0 < total D ^ Z.of_nat 1) by (apply Z.pow_pos_nonneg; lia). lia. }
    rewrite E2. cbn [bind].
    pose proof (sums_total_le c _ D _ Hp S2) as L3.
    destruct (add_sums c _ _ D _ _ Ht S2 (sums_one c D Hp Hi)) as [f' [E3 S3]].
    { eapply Z.le_trans; [|exact L2]. rewrite Z.pow_1_r. apply Z.mul_le_mono_nonneg_r; [lia|exact L3]. }
    fold D. rewrite E3. cbn [bind]. eexists; split; [reflexivity|]. cbn [rv_dist set_source]. exact S3.
  - assert (X : Pos.to_nat p~0 = (Pos.to_nat p + Pos.to_nat p)%nat) by lia.
    rewrite X in *.
    destruct IHp as [h [E S]].
    { eapply Z.le_trans; [|exact Hl]. apply pow_le_mono; lia. }
    rewrite E. cbn [bind].
    pose proof (sums_total_le c _ D _ Hp S) as L1.
    pose proof (pow_limit (total D) _ _ _ T Hl) as L2.
    destruct (add_sums c _ _ D _ _ Ht S S) as [f [E2 S2]].
    { destruct S as [_ _ [_ Q] _]. eapply Z.le_trans; [|exact L2].
      apply Z.mul_le_mono_nonneg; [lia|exact L1|lia|exact L1]. }
    rewrite E2. cbn [bind]. eexists; split; [reflexivity|]. exact S2.
  - eexists; split; [reflexivity|]. now apply sums_one.
Qed.

(** ** The law of a roll *)
Lemma dice_total_int n d : int_vals (dice_total n d).
Proof. unfold dice_total, image, int_vals. apply Forall_forall. intros x H. apply in_map_iff in H as [y [E _]]. subst. reflexivity. Qed.

Lemma dice_total_total n d : total (dice_total n d) = total d ^ Z.abs n.
Proof. unfold dice_total. rewrite total_image, total_tuples. f_equal. lia. Qed.

Lemma dice_total_proper n d : proper d -> proper (dice_total n d).
Proof. intros. now apply proper_image, proper_tuples. Qed.

Lemma dice_total_wsum n d h :
  wsum (fun v => h (toZ v)) (dice_total n d) = wsum (fun t => h (Z.sgn n * tsum t)) (tuples (Z.abs_nat n) d).
Proof. unfold dice_total. rewrite wsum_image. reflexivity. Qed.

Lemma dice_total_listed n d k :
  listed (vint k) (dice_total n d) = true <-> exists t w, In (t, w) (tuples (Z.abs_nat n) d) /\ Z.sgn n * tsum t = k.
Proof.
  rewrite listed_int by apply dice_total_int. unfold dice_total, image. split.
  - intros [x [H E]]. apply in_map_iff in H as [[t w] [X H]]. subst x. cbn in E. exists t, w. auto.
  - intros [t [w [H E]]]. exists (vint k, w). split; [|reflexivity]. apply in_map_iff. exists (t, w). subst. auto.
Qed.

(** [x] is the law of the total of [n] dice [d] (same probabilities, and the
    same listed outcomes unless impossible outcomes are dropped) *)
Record roll_law (c : cfg) (n : Z) (d x : dist) : Prop := {
  rl_stands : stands_for c x (dice_total n d);
  rl_proper : proper x;
  rl_int : int_vals x
}.

Lemma bool_iff_eq (a b : bool) : (a = true <-> b = true) -> a = b.
Proof. destruct a, b; intros [H H']; auto; symmetry; auto. Qed.

Lemma sums_roll_law c p d x : sums c (Pos.to_nat p) d x -> roll_law c (Zpos p) d x.
Proof.
  intros [[g [Hg L]] S P I]. constructor; auto. exists g. split; auto. split.
  - intros h. rewrite dice_total_wsum. change (Z.abs_nat (Zpos p)) with (Pos.to_nat p). rewrite <- L.
    apply wsum_ext. intros t w _. cbn [Z.sgn]. now rewrite Z.mul_1_l.
  - intros Hs k. apply bool_iff_eq. rewrite S, dice_total_listed by auto.
    change (Z.abs_nat (Zpos p)) with (Pos.to_nat p). cbn [Z.sgn].
    split; intros [t [w [H E]]]; exists t, w; split; auto; lia.
Qed.

Lemma stands_total_le c x l : proper x -> stands_for c x l -> total x <= total l.
Proof. intros [_ P] [g [Hg [L _]]]. specialize (L (fun _ => 1)). cbn beta in L. rewrite !wsum_const in L. nia. Qed.

Lemma stands_same_law c x l : proper x -> int_vals x -> int_vals l -> stands_for c x l -> same_law x l.
Proof.
  intros P Ix Il [g [Hg [L _]]].
  apply (same_law_of_scale x l g 1); auto; try lia.
  - destruct P. lia.
  - apply wt_int_ext; auto. intros k. rewrite !wt_int by auto.
    specialize (L (fun z => ind (z =? k))). cbn beta in L. lia.
  - specialize (L (fun _ => 1)). cbn beta in L. rewrite !wsum_const in L. lia.
Qed.

Lemma stands_normal c x l l' (f : Z -> Z) : nonneg x -> nothing_left c (image (fun v => vint (f (toZ v))) x) = false ->
  stands_for c x l ->
  int_vals x -> int_vals l -> int_vals l' ->
  (forall h, wsum (fun v => h (toZ v)) l' = wsum (fun v => h (f (toZ v))) l) ->
  (forall k, listed (vint k) l' = true <-> exists z, listed (vint z) l = true /\ f z = k) ->
  stands_for c (normal c (image (fun v => vint (f (toZ v))) x)) l'.
Proof.
  intros Nx NL [g [Hg [L S]]] Ix Il Il' W Li.
  destruct (normal_wsum c _ (image_int f x) NL) as [k [Hk K]].
  exists (g * k). split; [nia|]. split.
  - intros h. rewrite W. rewrite (L (fun z => h (f z))).
    transitivity (g * wsum (fun v => h (toZ v)) (image (fun v => vint (f (toZ v))) x)).
    + f_equal. rewrite wsum_image. reflexivity.
    + rewrite K. lia.
  - intros Hs k'. apply bool_iff_eq.
    rewrite normal_listed; auto; [|now apply nonneg_image]. rewrite Hs, listed_image_int by auto.
    rewrite Li. split.
    + intros [e [H E]]. exists (toZ (fst e)). split; auto. rewrite <- S by auto. apply listed_int; auto. eauto.
    + intros [z [H E]]. rewrite <- S in H by auto. apply listed_int in H as [e [H1 H2]]; auto.
      exists e. split; auto. congruence.
Qed.

Lemma neg_roll_law c n d x : cfg_trunc c = false -> int_vals d -> roll_law c n d x ->
  exists r, rv_neg c x = Ok r /\ roll_law c (- n) d (rv_dist r).
Proof.
  intros Ht Id [S P I].
  exists (rv_of (normal c (image (fun v => vint (- toZ v)) x))). split.
  - apply neg_succeeds; auto. apply P.
  - cbn [rv_dist rv_of]. assert (Pi : proper (image (fun v => vint (- toZ v)) x)) by now apply proper_image.
    constructor.
    + apply (stands_normal c x (dice_total n d) _ Z.opp); auto; try apply dice_total_int.
      * apply P.
      * apply proper_something; apply Pi.
      * intros h. rewrite !dice_total_wsum. rewrite dice_total_wsum with (h := fun z => h (- z)) || idtac.
        replace (Z.abs_nat (- n)) with (Z.abs_nat n) by lia.
        apply wsum_ext. intros t w _. rewrite Z.sgn_opp. f_equal. lia.
      * intros k. rewrite dice_total_listed. replace (Z.abs_nat (- n)) with (Z.abs_nat n) by lia.
        rewrite Z.sgn_opp. split.
        -- intros [t [w [H E]]]. exists (Z.sgn n * tsum t). split; [|lia]. apply dice_total_listed. eauto.
        -- intros [z [H E]]. apply dice_total_listed in H as [t [w [H1 H2]]]. exists t, w. split; auto. lia.
    + now apply normal_proper.
    + apply normal_int, image_int.
Qed.

Lemma zero_roll_law c d : cfg_trunc c = false -> exists r, from_const c (vint 0) = Ok r /\ r = rv_of [(vint 0, 1)] /\ roll_law c 0 d (rv_dist r).
Proof.
  intros Ht. rewrite from_const_int by auto. eexists; split; [reflexivity|]. split; [reflexivity|].
  cbn [rv_dist rv_of]. constructor.
  - exists 1. split; [lia|]. split; intros; [rewrite Z.mul_1_l|]; reflexivity.
  - split; [repeat constructor; discriminate | reflexivity].
  - repeat constructor.
Qed.

Lemma roll_int_pure_law c n d : cfg_trunc c = false -> proper (rv_dist d) -> int_vals (rv_dist d) ->
  total (rv_dist d) ^ Z.abs n <= SUM_LIMIT ->
  exists r, roll_int_pure c n d = Ok r /\ roll_law c n (rv_dist d) (rv_dist r).
Proof.
  intros Ht P I Hl. destruct n as [|p|p]; cbn [roll_int_pure].
  - destruct (zero_roll_law c (rv_dist d) Ht) as [r [E [_ L]]]. eauto.
  - destruct (roll_pure_sums c p d Ht P I Hl) as [r [E S]]. exists r. split; auto. now apply sums_roll_law.
  - destruct (roll_pure_sums c p d Ht P I Hl) as [r [E S]]. rewrite E. cbn [bind].
    apply sums_roll_law in S. apply neg_roll_law in S as [r' [E' L']]; auto. exists r'. split; auto.
Qed.

(** ** A random number of dice *)
Lemma all_some_map {A B} (f : A -> option B) (g : A -> B) l : (forall a, In a l -> f a = Some (g a)) ->
  all_some (map f l) = Some (map g l).
Proof.
  induction l as [|a l IH]; intros H; cbn [map all_some]; auto.
  rewrite H by (left; auto). rewrite IH; [reflexivity|]. intros; apply H; right; auto.
Qed.

Lemma int_of_int v : v_is_int v = true -> int_of v = Some (toZ v).
Proof. destruct v as [[z|m e]|s]; cbn; intros; congruence. Qed.

Lemma int_of_vals d : int_vals d -> all_some (map int_of (vals d)) = Some (map toZ (vals d)).
Proof.
  intros H. apply all_some_map. intros v Hv. apply int_of_int. now apply (in_vals_int d).
Qed.

Lemma smapM_pure {A B} c (f : A -> ST B) (g : A -> res B) l :
  (forall a m, In a l -> memo_ok c m -> exists m', f a m = (g a, m') /\ memo_ok c m') ->
  forall m, memo_ok c m -> exists m', smapM f l m = (mapM g l, m') /\ memo_ok c m'.
Proof.
  induction l as [|a l IH]; intros H m Hm; cbn [smapM mapM].
  - unfold sret. eauto.
  - destruct (H a m (or_introl eq_refl) Hm) as [m1 [E1 H1]]. unfold sbind. rewrite E1.
    destruct (g a) as [b|e]; cbn [bind]; [|eauto].
    destruct (IH (fun a m Ha => H a m (or_intror Ha)) m1 H1) as [m2 [E2 H2]]. rewrite E2.
    destruct (mapM g l) as [bs|e]; cbn [bind]; unfold sret; eauto.
Qed.

Definition roll_count_pure (c : cfg) (n : count_arg) (d : rv) : res rv :=
  match n with
  | CInt n => roll_int_pure c n d
  | CSeq s => s <- meta_sum s ;; match int_of s with Some n => roll_int_pure c n d | None => Err AssertErr end
  | CRV x =>
      match all_some (map int_of (vals (rv_dist x))) with
      | None => Err AssertErr
      | Some ns =>
          dies <- mapM (fun n => roll_int_pure c n d) ns ;;
          r <- from_rvs c (map MxRV dies) (probs (rv_dist x)) ;;
          match r with Some r => Ok (set_source r 1 (rv_dist d)) | None => Err Unmodelled end
      end
  end.

Lemma roll_count_is_pure c n d : int_vals (rv_dist d) -> forall m, memo_ok c m ->
  exists m', roll_count c n d m = (roll_count_pure c n d, m') /\ memo_ok c m'.
Proof.
  intros Hd m Hm. destruct n as [n|s|x]; cbn [roll_count roll_count_pure].
  - now apply roll_int_is_pure.
  - unfold sbind, slift. destruct (meta_sum s) as [v|e]; cbn [bind]; [|eauto].
    destruct (int_of v); [now apply roll_int_is_pure | eauto].
  - destruct (all_some _) as [ns|]; [|unfold slift; eauto].
    destruct (smapM_pure c (fun n => roll_int c n d) (fun n => roll_int_pure c n d) ns) with (m := m) as [m' [E Hm']]; auto.
    { intros a m0 _ H0. now apply roll_int_is_pure. }
    unfold sbind, slift. rewrite E. destruct (mapM _ ns) as [dies|e]; cbn [bind]; [|eauto].
    destruct (from_rvs c _ _) as [[r|]|e]; cbn [bind]; unfold sret; eauto.
Qed.

Lemma mapM_law c (d : rv) ns : cfg_trunc c = false -> proper (rv_dist d) -> int_vals (rv_dist d) ->
  (forall n, In n ns -> total (rv_dist d) ^ Z.abs n <= SUM_LIMIT) ->
  exists dies, mapM (fun n => roll_int_pure c n d) ns = Ok dies /\
    Forall2 (fun n r => roll_law c n (rv_dist d) (rv_dist r)) ns dies.
Proof.
  intros Ht P I. induction ns as [|n ns IH]; intros H; cbn [mapM].
  - exists []. split; auto.
  - destruct (roll_int_pure_law c n d Ht P I) as [r [E L]]. { apply H. now left. }
    rewrite E. cbn [bind]. destruct IH as [dies [E2 L2]]. { intros; apply H. now right. }
    rewrite E2. cbn [bind]. eexists; split; [reflexivity|]. constructor; auto.
Qed.

Lemma components_rvs dies ws : components (map MxRV dies) ws = combine ws (map rv_dist dies).
Proof.
  revert ws. induction dies as [|x dies IH]; destruct ws as [|w ws]; cbn [map components combine mx_law]; auto.
  now rewrite IH.
Qed.

Definition count_total (N : dist) : Z := sumZ (map (fun v => Z.abs (toZ v)) (vals N)).

Lemma pow_le_sum t z rest : 1 <= t -> 0 <= z <= rest -> t ^ z <= t ^ rest.
Proof. intros. apply Z.pow_le_mono_r; lia. Qed.

Lemma sumZ_nonneg l : Forall (fun z => 0 <= z) l -> 0 <= sumZ l.
Proof. unfold sumZ. induction 1; cbn [fold_right]; lia. Qed.

Lemma sumZ_member l z : Forall (fun z => 0 <= z) l -> In z l -> z <= sumZ l.
Proof.
  unfold sumZ. induction 1 as [|a l Ha Hl IH]; cbn [fold_right]; intros []; subst.
  - pose proof (sumZ_nonneg l Hl) as K. unfold sumZ in K. lia.
  - specialize (IH H). lia.
Qed.

Lemma average_qsum {A} (f : A -> Q) (l : list (A * Z)) : (average f l == qsum f l / inject_Z (total l))%Q.
Proof. reflexivity. Qed.

Lemma dies_denominators (c : cfg) (D : dist) ws ns dies : proper D ->
  Forall2 (fun n r => roll_law c n D (rv_dist r)) ns dies -> length ws = length dies ->
  0 < denominators (combine ws (map rv_dist dies)) <= total D ^ sumZ (map Z.abs ns).
Proof.
  intros P H. revert ws. induction H as [|n r ns dies L _ IH]; intros ws E.
  - destruct ws; [|discriminate]. cbn. lia.
  - destruct ws as [|w ws]; [discriminate|]. cbn in E. specialize (IH ws ltac:(lia)).
    unfold denominators in *. cbn [combine map]. unfold zprod in *. cbn [fold_right snd].
    destruct L as [S Px _]. apply stands_total_le in S; auto. rewrite dice_total_total in S.
    unfold sumZ in *. cbn [fold_right map].
    rewrite Z.pow_add_r; [|lia|].
    2:{ apply sumZ_nonneg. apply Forall_forall. intros z Hz. apply in_map_iff in Hz as [y [Ey _]]. lia. }
    destruct Px as [_ Px]. nia.
Qed.

Lemma mix_num_dies (c : cfg) (D N : dist) v dies : proper D ->
  Forall2 (fun n r => roll_law c n D (rv_dist r)) (map toZ (vals N)) dies ->
  (mix_num (veqb v) (combine (probs N) (map rv_dist dies)) == qsum (fun n => Pr (dice_total (toZ n) D) v) N)%Q.
Proof.
  intros P. revert dies. induction N as [|[n w] N IH]; intros dies H; inversion H as [|? ? ? ? L H']; subst.
  - reflexivity.
  - cbn [probs map combine mix_num qsum snd]. fold (probs N). rewrite (IH _ H').
    destruct L as [S Px Ix]. pose proof (stands_same_law c _ _ Px Ix (dice_total_int _ _) S v) as K.
    cbn [fst] in K. unfold Pr in K at 1. unfold PrP. unfold wt in K at 1. rewrite K. reflexivity.
Qed.

Lemma wtotal_combine N dies : length (probs N) = length dies -> wtotal (combine (probs N) (map rv_dist dies)) = total N.
Proof.
  revert dies. induction N as [|[n w] N IH]; intros [|x dies] H; cbn in H; try discriminate; auto.
  unfold wtotal in *. cbn [probs map combine fst sumZ fold_right]. unfold sumZ in *. cbn [fold_right].
  fold (probs N). rewrite IH; [|unfold probs; lia]. unfold total. cbn [mass]. reflexivity.
Qed.

Lemma good_dies c D ws ns dies : Forall (fun w => 0 <= w) ws ->
  Forall2 (fun n r => roll_law c n D (rv_dist r)) ns dies -> Forall good (combine ws (map rv_dist dies)).
Proof.
  intros Hw H. revert ws Hw. induction H as [|n r ns dies [_ P _] _ IH]; intros ws Hw; destruct ws; cbn; auto.
  inversion Hw; subst. constructor; auto. split; auto.
Qed.

Lemma roll_count_rv_law c (N d : rv) : cfg_trunc c = false -> proper (rv_dist d) -> int_vals (rv_dist d) ->
  proper (rv_dist N) -> int_vals (rv_dist N) ->
  total (rv_dist d) ^ count_total (rv_dist N) * total (rv_dist N) <= SUM_LIMIT ->
  exists r, roll_count_pure c (CRV N) d = Ok r /\ rv_roll r = 1 /\ rv_src r = Some (rv_dist d) /\ 
    proper (rv_dist r) /\ canon (rv_dist r) /\
    forall v, (Pr (rv_dist r) v == average (fun n => Pr (dice_total (toZ n) (rv_dist d)) v) (rv_dist N))%Q.
Proof.
  intros Ht Pd Id PN IN Hl. set (D := rv_dist d) in *. set (M := rv_dist N) in *.
  assert (T : 1 <= total D) by (destruct Pd; lia).
  assert (TN : 1 <= total M) by (destruct PN; lia).
  assert (NNs : Forall (fun z => 0 <= z) (map (fun v => Z.abs (toZ v)) (vals M))).
  { apply Forall_forall. intros z Hz. apply in_map_iff in Hz as [y [Ey _]]. lia. }
  assert (C0 : 0 <= count_total M) by now apply sumZ_nonneg.
  assert (B : total D ^ count_total M <= SUM_LIMIT).
  { assert (0 < total D ^ count_total M) by (apply Z.pow_pos_nonneg; lia). nia. }
  cbn [roll_count_pure]. fold M. rewrite int_of_vals by auto.
  destruct (mapM_law c d (map toZ (vals M)) Ht Pd Id) as [dies [E L]].
  { intros n Hn. eapply Z.le_trans; [|exact B]. apply pow_le_sum; auto. split; [lia|].
    apply sumZ_member; auto. rewrite <- map_map with (f := toZ) (g := Z.abs). now apply in_map. }
  rewrite E. cbn [bind]. fold D in L.
  assert (Len : length (probs M) = length dies).
  { apply Forall2_len in L. rewrite map_length in L. unfold vals, probs in *. rewrite map_length in L |- *. auto. }
  assert (G : Forall good (components (map MxRV dies) (probs M))).
  { rewrite components_rvs. eapply good_dies; [|exact L]. apply nonneg_probs, PN. }
  assert (W : wtotal (components (map MxRV dies) (probs M)) = total M).
  { rewrite components_rvs. now apply wtotal_combine. }
  assert (Dn : 0 < denominators (components (map MxRV dies) (probs M)) <= total D ^ count_total M).
  { rewrite components_rvs. unfold count_total. rewrite <- map_map with (f := toZ) (g := Z.abs).
    eapply dies_denominators; eauto. }
  assert (Bound : denominators (components (map MxRV dies) (probs M)) * wtotal (components (map MxRV dies) (probs M)) <= SUM_LIMIT).
  { rewrite W. nia. }
  destruct (from_rvs_succeeds c (map MxRV dies) (probs M)) as [r Er]; auto.
  { now rewrite map_length. }
  { eapply Z.le_lt_trans; [exact Bound|]. reflexivity. }
  destruct (from_rvs_below c (map MxRV dies) (probs M) r) as [x [Ex [R1 [R2 [Cx [Px Lx]]]]]]; auto.
  { now rewrite map_length. }
  { rewrite W; lia. }
  rewrite Er. subst r. cbn [bind]. eexists; split; [reflexivity|]. cbn [rv_roll rv_src rv_dist set_source].
  repeat split; auto; try apply Px; try apply Cx.
  intros v. rewrite Lx. unfold mixture, average. rewrite W, components_rvs.
  rewrite (mix_num_dies c D M v dies Pd L). reflexivity.
Qed.
