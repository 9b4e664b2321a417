(** Proofs about binary operators on dice. *)
From Coq Require Import List ZArith QArith Bool Permutation Sorted Lia.
From Verif Require Import PyBase Num Val Sorting RVModel Spec CmpFacts SortFacts MassFacts NumFacts RVFacts ConstructFacts.
Import ListNotations.
Open Scope Z_scope.

Lemma dict_same_veqb a b : dict_same a b = true -> veqb a b = true.
Proof. unfold dict_same. intro H. apply andb_true_iff in H as [H _]. exact H. Qed.

(** ** The accumulating dict

    [rd_add_by same] is [rd_add] for an arbitrary notion of "the same key"; all
    that matters is that the same keys are equal values. *)
Fixpoint rd_add_by (same : pval -> pval -> bool) (d : dist) (k : pval) (w : Z) : dist :=
  match d with
  | [] => [(k, w)]
  | (k', w') :: d' => if same k' k then (k', w' + w) :: d' else (k', w') :: rd_add_by same d' k w
  end.
Definition key_test (same : pval -> pval -> bool) : Prop := forall a b, same a b = true -> veqb a b = true.

Section AnyDict.
Variable same : pval -> pval -> bool.
Hypothesis same_eq : key_test same.

Lemma mass_rd_add P d k w : vresp P -> mass P (rd_add_by same d k w) = mass P d + (if P k then w else 0).
Proof.
  intro HP. induction d as [|[k' w'] d IH]; cbn; [lia|].
  destruct (same k' k) eqn:E; cbn.
  - rewrite (HP _ _ (same_eq _ _ E)). destruct (P k); lia.
  - rewrite IH. lia.
Qed.

Lemma wsum_rd_add f d k w : vrespf f -> wsum f (rd_add_by same d k w) = wsum f d + f k * w.
Proof.
  intro HP. induction d as [|[k' w'] d IH]; cbn; [lia|].
  destruct (same k' k) eqn:E; cbn.
  - rewrite (HP _ _ (same_eq _ _ E)). lia.
  - rewrite IH. lia.
Qed.

Lemma listed_rd_add v d k w : listed v (rd_add_by same d k w) = listed v d || veqb v k.
Proof.
  unfold listed. induction d as [|[k' w'] d IH]; cbn; [rewrite orb_false_r; reflexivity|].
  destruct (same k' k) eqn:E; cbn.
  - rewrite (veqb_congr_r _ _ v (same_eq _ _ E)). destruct (veqb v k); cbn; [reflexivity|].
    rewrite orb_false_r. reflexivity.
  - rewrite IH, orb_assoc. reflexivity.
Qed.

Lemma nonneg_rd_add d k w : nonneg d -> 0 <= w -> nonneg (rd_add_by same d k w).
Proof.
  unfold nonneg. induction 1 as [|[k' w'] d H Hd IH]; cbn; intro Hw.
  - repeat constructor. exact Hw.
  - cbn in H. destruct (same k' k); constructor; cbn; auto; lia.
Qed.

Lemma rd_add_length d k w : (length (rd_add_by same d k w) <= S (length d))%nat.
Proof.
  induction d as [|[k' w'] d IH]; cbn; [lia|]. destruct (same k' k); cbn; lia.
Qed.

(** ** The double loop *)
Definition okP {A} (f : A -> res pval) (P : pval -> bool) (a : A) : bool :=
  match f a with Ok v => P v | Err _ => false end.
Definition okF {A} (f : A -> res pval) (g : pval -> Z) (a : A) : Z :=
  match f a with Ok v => g v | Err _ => 0 end.
Definition uncur (f : pval -> pval -> res pval) (ab : pval * pval) : res pval := f (fst ab) (snd ab).

Definition pw (xy : (pval * Z) * (pval * Z)) : (pval * pval) * Z :=
  ((fst (fst xy), fst (snd xy)), snd (fst xy) * snd (snd xy)).

Lemma indep_all_pairs x y : indep x y = map pw (all_pairs x y).
Proof.
  unfold indep, all_pairs. induction x as [|a x IH]; cbn [flat_map]; [reflexivity|].
  rewrite map_app, IH, map_map. reflexivity.
Qed.

Definition conv_step (f : pval -> pval -> res pval) (m : dist) (xy : (pval * Z) * (pval * Z)) : res dist :=
  k <- f (fst (fst xy)) (fst (snd xy)) ;; Ok (rd_add_by same m k (snd (fst xy) * snd (snd xy))).

Lemma conv_fold f l m m' : foldM (conv_step f) m l = Ok m' ->
  (forall P, vresp P -> mass P m' = mass P m + mass (okP (uncur f) P) (map pw l)) /\
  (forall g, vrespf g -> wsum g m' = wsum g m + wsum (okF (uncur f) g) (map pw l)) /\
  (forall v, listed v m' = listed v m || existsb (fun xy => okP (uncur f) (veqb v) (fst (pw xy))) l) /\
  (nonneg m -> nonneg (map pw l) -> nonneg m') /\
  Forall (fun xy => exists v, uncur f (fst (pw xy)) = Ok v) l /\
  (length m' <= length m + length l)%nat.
Proof.
  revert m. induction l as [|xy l IH]; intros m H.
  - cbn in H. inversion H; subst. repeat split; intros; cbn; auto; try lia.
    rewrite orb_false_r. reflexivity.
  - cbn [foldM] in H. unfold conv_step at 1 in H.
    destruct (f (fst (fst xy)) (fst (snd xy))) as [k|e] eqn:E; cbn [bind] in H; [|discriminate].
    apply IH in H as (H1 & H2 & H3 & H4 & H5 & H6).
    assert (U : uncur f (fst (pw xy)) = Ok k) by exact E.
    split; [|split; [|split; [|split; [|split]]]].
    + intros P HP. rewrite H1, mass_rd_add by exact HP. cbn [map mass].
      rewrite (surjective_pairing (pw xy)). cbn [mass]. unfold okP at 2. rewrite U. cbn [pw snd]. lia.
    + intros g Hg. rewrite H2, wsum_rd_add by exact Hg. cbn [map wsum].
      rewrite (surjective_pairing (pw xy)). cbn [wsum]. unfold okF at 2. rewrite U. cbn [pw snd]. lia.
    + intro v. rewrite H3, listed_rd_add. cbn [existsb]. unfold okP at 2. rewrite U, orb_assoc. reflexivity.
    + intros Hm Hl. inversion Hl as [|? ? Hx Hl']; subst. apply H4; [|exact Hl'].
      apply nonneg_rd_add; [exact Hm | exact Hx].
    + constructor; [eauto | exact H5].
    + pose proof (rd_add_length m k (snd (fst xy) * snd (snd xy))). cbn [length]. lia.
Qed.

Lemma conv_fold_total f l m :
  (forall xy, In xy l -> exists v, uncur f (fst (pw xy)) = Ok v) -> exists m', foldM (conv_step f) m l = Ok m'.
Proof.
  revert m. induction l as [|xy l IH]; intros m H; cbn [foldM]; [eauto|].
  destruct (H xy (or_introl eq_refl)) as [v Hv]. unfold conv_step at 1. unfold uncur in Hv. cbn in Hv. rewrite Hv.
  cbn [bind]. apply IH. intros; apply H; right; assumption.
Qed.

Definition conv_by (f : pval -> pval -> res pval) (x y : dist) : res dist :=
  m <- foldM (conv_step f) [] (all_pairs x y) ;; Ok (isort vp_leb m).

Lemma conv_by_total f x y :
  (forall a b, In a x -> In b y -> exists v, f (fst a) (fst b) = Ok v) -> exists m, conv_by f x y = Ok m.
Proof.
  intro H. unfold conv_by.
  destruct (conv_fold_total f (all_pairs x y) []) as [m Hm].
  - intros [a b] Hin. unfold all_pairs in Hin. apply in_flat_map in Hin as (a' & Ha & Hin).
    apply in_map_iff in Hin as (b' & E & Hb). inversion E; subst. apply (H a b Ha Hb).
  - rewrite Hm. cbn. eauto.
Qed.

End AnyDict.

Record conv_result (f : pval -> pval -> res pval) (x y m : dist) : Prop := {
  cr_mass : forall P, vresp P -> mass P m = mass (okP (uncur f) P) (indep x y);
  cr_wsum : forall g, vrespf g -> wsum g m = wsum (okF (uncur f) g) (indep x y);
  cr_listed : forall v, listed v m = true <->
     exists a b, In a x /\ In b y /\ okP (uncur f) (veqb v) (fst a, fst b) = true;
  cr_nonneg : nonneg x -> nonneg y -> nonneg m;
  cr_ok : forall a b, In a x -> In b y -> exists v, f (fst a) (fst b) = Ok v;
  cr_length : (length m <= length x * length y)%nat
}.

Lemma in_all_pairs a b x y : In (a, b) (all_pairs x y) <-> In a x /\ In b y.
Proof.
  unfold all_pairs. rewrite in_flat_map. split.
  - intros [a' [Ha H]]. apply in_map_iff in H as [b' [E Hb]]. inversion E; subst. auto.
  - intros [Ha Hb]. exists a. split; [exact Ha|]. apply in_map_iff. eauto.
Qed.

Lemma all_pairs_length x y : length (all_pairs x y) = (length x * length y)%nat.
Proof.
  unfold all_pairs. induction x as [|a x IH]; cbn; [reflexivity|]. rewrite app_length, map_length, IH. reflexivity.
Qed.

Lemma conv_by_spec same f x y m : key_test same -> conv_by same f x y = Ok m -> conv_result f x y m.
Proof.
  intros HS. unfold conv_by.
  destruct (foldM (conv_step same f) [] (all_pairs x y)) as [m0|] eqn:E; cbn [bind]; [|discriminate].
  intro H. inversion H; subst m. clear H.
  apply (conv_fold same HS) in E as (H1 & H2 & H3 & H4 & H5 & H6).
  pose proof (isort_perm vp_leb m0) as HP. constructor.
  - intros P HPr. rewrite <- (mass_perm _ _ _ HP), H1 by exact HPr. rewrite indep_all_pairs. reflexivity.
  - intros g Hg. rewrite <- (wsum_perm _ _ _ HP), H2 by exact Hg. rewrite indep_all_pairs. reflexivity.
  - intro v. rewrite <- (listed_perm v _ _ HP), H3. cbn. rewrite existsb_exists. split.
    + intros [[a b] [Hin Hv]]. apply in_all_pairs in Hin as [Ha Hb]. exists a, b. auto.
    + intros (a & b & Ha & Hb & Hv). exists (a, b). split; [apply in_all_pairs; auto | exact Hv].
  - intros Hx Hy. eapply nonneg_perm; [exact HP|]. apply H4; [constructor|].
    rewrite <- indep_all_pairs. apply nonneg_indep; assumption.
  - intros a b Ha Hb. rewrite Forall_forall in H5. apply (H5 (a, b)). apply in_all_pairs. auto.
  - rewrite <- (Permutation_length HP), <- all_pairs_length. cbn in H6. lia.
Qed.

Lemma rd_add_is d k w : rd_add d k w = rd_add_by dict_same d k w.
Proof. induction d as [|[k' w'] d IH]; cbn; [reflexivity|]. rewrite IH. reflexivity. Qed.

Lemma foldM_ext {A B} (f g : A -> B -> res A) l a : (forall a b, f a b = g a b) -> foldM f a l = foldM g a l.
Proof. intro H. revert a. induction l as [|x l IH]; intro a; cbn; [reflexivity|]. rewrite H. destruct (g a x); cbn; auto. Qed.

Lemma fast_convolve_is f x y : fast_convolve f x y = conv_by dict_same f x y.
Proof.
  unfold fast_convolve, conv_by. erewrite foldM_ext; [reflexivity|]. intros m xy. unfold conv_step.
  destruct (f (fst (fst xy)) (fst (snd xy))); cbn; [|reflexivity]. rewrite rd_add_is. reflexivity.
Qed.

Lemma fast_convolve_spec f x y m : fast_convolve f x y = Ok m -> conv_result f x y m.
Proof. rewrite fast_convolve_is. apply conv_by_spec. exact dict_same_veqb. Qed.

Lemma fast_convolve_total f x y :
  (forall a b, In a x -> In b y -> exists v, f (fst a) (fst b) = Ok v) -> exists m, fast_convolve f x y = Ok m.
Proof. rewrite fast_convolve_is. apply conv_by_total. Qed.

(** ** The weight limit *)
Lemma prob_limit_id d : total d <= SUM_LIMIT -> prob_limit d = Ok d.
Proof.
  intro H. unfold prob_limit. rewrite sum_probs_total.
  destruct (Z.leb_spec (total d) SUM_LIMIT); [reflexivity | lia].
Qed.

Lemma normal_total_le c l : nonneg l -> total (normal c l) <= Z.max 1 (total l).
Proof.
  intro Hn. destruct (nothing_left c l) eqn:E.
  - rewrite normal_nothing by exact E. cbn. lia.
  - destruct (normal_mass c l E) as (g & Hg & HM). unfold total.
    rewrite (HM (fun _ => true) vresp_true).
    destruct (normal_canon c l Hn) as [(_ & _ & Hnn) _].
    pose proof (mass_nonneg (fun _ : pval => true) _ Hnn). nia.
Qed.

Lemma rv_conv_below c f x y m :
  cfg_trunc c = false -> nonneg x -> nonneg y -> total x * total y <= SUM_LIMIT ->
  fast_convolve f x y = Ok m -> rv_conv c f x y = Ok (rv_of (normal c m)).
Proof.
  intros Ht Hx Hy HL E. unfold rv_conv. rewrite E. cbn [bind].
  pose proof (fast_convolve_spec _ _ _ _ E) as R.
  pose proof (cr_nonneg _ _ _ _ R Hx Hy) as Hm.
  rewrite mk_dist_self by assumption. cbn [bind].
  rewrite prob_limit_id; [reflexivity|].
  pose proof (normal_total_le c m Hm) as K.
  assert (total m <= total x * total y).
  { unfold total at 1. rewrite (cr_mass _ _ _ _ R _ vresp_true).
    rewrite <- total_indep. apply mass_le_total. apply nonneg_indep; assumption. }
  assert (1 <= SUM_LIMIT) by (unfold SUM_LIMIT; lia). lia.
Qed.

Lemma rv_conv_inv c f x y r : rv_conv c f x y = Ok r -> exists m, fast_convolve f x y = Ok m.
Proof. unfold rv_conv. destruct (fast_convolve f x y); cbn; [eauto | discriminate]. Qed.

(** total mass of a successful convolution *)
Lemma conv_total f x y m : conv_result f x y m -> total m = total x * total y.
Proof.
  intro R. rewrite <- total_indep. unfold total at 1. rewrite (cr_mass _ _ _ _ R _ vresp_true).
  unfold total. apply mass_ext. intros [a b] w Hin. unfold okP, uncur. cbn.
  rewrite indep_all_pairs in Hin. apply in_map_iff in Hin as [[p q] [Eq Hin]].
  apply in_all_pairs in Hin as [Hp Hq]. inversion Eq; subst.
  destruct (cr_ok _ _ _ _ R p q Hp Hq) as [v Hv]. rewrite Hv. reflexivity.
Qed.

Lemma proper_something c l : nonneg l -> 0 < total l -> nothing_left c l = false.
Proof.
  intros Hn Ht. destruct (nothing_left c l) eqn:E; [|reflexivity].
  apply nothing_left_iff in E; [|exact Hn]. destruct E as [->|[_ Hz]]; [cbn in Ht; lia|].
  unfold total in Ht. rewrite mass_zero_weights in Ht by exact Hz. lia.
Qed.

Lemma normal_proper c l : proper l -> proper (normal c l).
Proof.
  intros [Hn Ht]. destruct (normal_canon c l Hn) as [(_ & _ & Hnn) _]. split; [exact Hnn|].
  destruct (normal_mass c l (proper_something c l Hn Ht)) as (g & Hg & HM).
  unfold total in *. rewrite (HM _ vresp_true) in Ht. nia.
Qed.

Lemma normal_Pr c l v : proper l -> (Pr (normal c l) v == Pr l v)%Q.
Proof.
  intros HP. pose proof HP as [Hn Ht]. pose proof (normal_proper c l HP) as [_ Ht'].
  destruct (normal_mass c l (proper_something c l Hn Ht)) as (g & Hg & HM).
  unfold Pr. apply frac_eq; try lia. unfold wt, total in *.
  rewrite (HM _ (vresp_veqb v)), (HM _ vresp_true). ring.
Qed.

Lemma normal_same_law c l : proper l -> same_law (normal c l) l.
Proof. intros H v. apply normal_Pr, H. Qed.

Lemma okP_yields f z ab : okP (uncur f) (veqb z) ab = yields (f (fst ab) (snd ab)) z.
Proof. reflexivity. Qed.

(** ** C07: the law of X op Y *)
Lemma rv_conv_law c f x y r :
  cfg_trunc c = false -> proper x -> proper y -> total x * total y <= SUM_LIMIT ->
  rv_conv c f x y = Ok r ->
  (forall z, (Pr (rv_dist r) z == PrP (fun ab => yields (f (fst ab) (snd ab)) z) (indep x y))%Q) /\
  canon (rv_dist r) /\ proper (rv_dist r) /\ rv_roll r = 1 /\ rv_src r = None.
Proof.
  intros Ht [Hx Tx] [Hy Ty] HL H.
  destruct (rv_conv_inv _ _ _ _ _ H) as [m E].
  rewrite (rv_conv_below c f x y m Ht Hx Hy HL E) in H. inversion H; subst r. clear H.
  pose proof (fast_convolve_spec _ _ _ _ E) as R.
  pose proof (cr_nonneg _ _ _ _ R Hx Hy) as Hm.
  pose proof (conv_total _ _ _ _ R) as TM.
  assert (Pm : proper m) by (split; [exact Hm | rewrite TM; nia]).
  cbn [rv_of rv_dist rv_roll rv_src].
  split; [|split; [apply normal_canon, Hm | split; [apply normal_proper, Pm | split; reflexivity]]].
  intro z. rewrite normal_Pr by exact Pm. unfold Pr, PrP.
  rewrite TM, total_indep. unfold wt. rewrite (cr_mass _ _ _ _ R _ (vresp_veqb z)). reflexivity.
Qed.

Lemma rv_conv_succeeds c f x y :
  cfg_trunc c = false -> nonneg x -> nonneg y -> total x * total y <= SUM_LIMIT ->
  ((exists r, rv_conv c f x y = Ok r) <->
   forall a b, In a (vals x) -> In b (vals y) -> exists v, f a b = Ok v).
Proof.
  intros Ht Hx Hy HL. split.
  - intros [r H] a b Ha Hb. destruct (rv_conv_inv _ _ _ _ _ H) as [m E].
    apply fast_convolve_spec in E. unfold vals in *.
    apply in_map_iff in Ha as (p & <- & Hp). apply in_map_iff in Hb as (q & <- & Hq).
    exact (cr_ok _ _ _ _ E p q Hp Hq).
  - intro H. destruct (fast_convolve_total f x y) as [m E].
    { intros a b Ha Hb. apply H; apply in_map; assumption. }
    eexists. eapply rv_conv_below; eauto.
Qed.

(** ** C08: pointwise maps *)
Lemma mapM_mass f (x : dist) vs : mapM f (vals x) = Ok vs ->
  (forall P, mass P (combine vs (probs x)) = mass (okP f P) x) /\
  (forall g, wsum g (combine vs (probs x)) = wsum (okF f g) x) /\
  (forall v, listed v (combine vs (probs x)) = existsb (fun a => okP f (veqb v) (fst a)) x) /\
  length vs = length (probs x) /\
  (forall a, In a x -> exists v, f (fst a) = Ok v).
Proof.
  revert vs. induction x as [|[a p] x IH]; intros vs H.
  - cbn in H. inversion H; subst. repeat split; try reflexivity. intros ? [].
  - cbn [vals map fst mapM] in H. destruct (f a) as [v|] eqn:E; cbn [bind] in H; [|discriminate].
    fold (vals x) in H. destruct (mapM f (vals x)) as [vs'|] eqn:F; cbn [bind] in H; [|discriminate].
    inversion H; subst. destruct (IH _ eq_refl) as (H1 & H2 & H3 & H4 & H5).
    split; [|split; [|split; [|split]]].
    + intro P. cbn [probs map snd combine mass]. fold (probs x). rewrite H1. unfold okP at 2. rewrite E. reflexivity.
    + intro g. cbn [probs map snd combine wsum]. fold (probs x). rewrite H2. unfold okF at 2. rewrite E. reflexivity.
    + intro w. cbn [probs map snd combine]. fold (probs x). cbn [listed existsb fst].
      fold (listed w (combine vs' (probs x))). rewrite H3. unfold okP at 2. rewrite E. reflexivity.
    + cbn. f_equal. exact H4.
    + intros b [<-|Hb]; [cbn; eauto | apply H5, Hb].
Qed.

Lemma mapM_total {A B} (f : A -> res B) l : (forall a, In a l -> exists v, f a = Ok v) -> exists l', mapM f l = Ok l'.
Proof.
  induction l as [|a l IH]; intro H; cbn; [eauto|].
  destruct (H a (or_introl eq_refl)) as [v ->]. cbn.
  destruct IH as [l' ->]; [intros; apply H; right; assumption|]. cbn. eauto.
Qed.

Lemma mapM_ok_in {A B} (f : A -> res B) l l' : mapM f l = Ok l' -> forall a, In a l -> exists v, f a = Ok v.
Proof.
  revert l'. induction l as [|x l IH]; cbn; intros l' H a Ha; [destruct Ha|].
  destruct (f x) eqn:E; cbn in H; [|discriminate].
  destruct (mapM f l) eqn:F; cbn in H; [|discriminate].
  destruct Ha as [<-|Ha]; [eauto | eapply IH; eauto].
Qed.

Lemma rv_map_eq c f x vs : cfg_trunc c = false -> nonneg x -> mapM f (vals x) = Ok vs ->
  rv_map c f x = Ok (rv_of (normal c (combine vs (probs x)))).
Proof.
  intros Ht Hx E. unfold rv_map, mk_rv. rewrite E. cbn [bind].
  destruct (mapM_mass f x vs E) as (_ & _ & _ & Hl & _).
  rewrite mk_dist_ok; [reflexivity | exact Ht | exact Hl |]. apply nonneg_probs, Hx.
Qed.

Lemma rv_map_law c f x r :
  cfg_trunc c = false -> proper x -> rv_map c f x = Ok r ->
  (forall z, (Pr (rv_dist r) z == PrP (fun a => yields (f a) z) x)%Q) /\
  canon (rv_dist r) /\ proper (rv_dist r) /\ rv_roll r = 1 /\ rv_src r = None.
Proof.
  intros Ht [Hx Tx] H.
  destruct (mapM f (vals x)) as [vs|] eqn:E; [|unfold rv_map in H; rewrite E in H; discriminate].
  rewrite (rv_map_eq c f x vs Ht Hx E) in H. inversion H; subst r. clear H.
  destruct (mapM_mass f x vs E) as (HM & _ & _ & Hl & Hok).
  set (l := combine vs (probs x)) in *.
  assert (Hn : nonneg l) by (apply nonneg_combine, nonneg_probs, Hx).
  assert (T : total l = total x).
  { unfold total. rewrite HM. apply mass_ext. intros a w Hin. unfold okP.
    destruct (Hok _ Hin) as [v Hv]. cbn in Hv. rewrite Hv. reflexivity. }
  assert (Pm : proper l) by (split; [exact Hn | rewrite T; exact Tx]).
  cbn [rv_of rv_dist rv_roll rv_src].
  split; [|split; [apply normal_canon, Hn | split; [apply normal_proper, Pm | split; reflexivity]]].
  intro z. rewrite normal_Pr by exact Pm. unfold Pr, PrP. rewrite T. unfold wt. rewrite HM. reflexivity.
Qed.

Lemma rv_map_succeeds c f x : cfg_trunc c = false -> nonneg x ->
  ((exists r, rv_map c f x = Ok r) <-> forall a, In a (vals x) -> exists v, f a = Ok v).
Proof.
  intros Ht Hx. split.
  - intros [r H] a Ha. unfold rv_map in H. destruct (mapM f (vals x)) as [vs|] eqn:E; [|discriminate].
    eapply mapM_ok_in; eauto.
  - intro H. destruct (mapM_total f (vals x) H) as [vs E]. eexists. eapply rv_map_eq; eauto.
Qed.
