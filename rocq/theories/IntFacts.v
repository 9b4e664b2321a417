(** Integer-valued laws and uniqueness of normal forms. *)
From Coq Require Import List ZArith QArith Bool Permutation Sorted Lia.
From Verif Require Import PyBase Num Val Sorting RVModel Spec CmpFacts SortFacts MassFacts NumFacts RVFacts ConstructFacts ConvFacts.
Import ListNotations.
Open Scope Z_scope.

(** ** Uniqueness of the normal form *)
Definition kept (c : cfg) (l : dist) (v : pval) : bool :=
  if cfg_skip0 c then 0 <? wt l v else listed v l.

Lemma wt_mem_pos l x : nonneg l -> In x l -> 0 < snd x -> 0 < wt l (fst x).
Proof.
  intros Hn Hx Hp. induction Hn as [|y l Hy Hl IH]; [destruct Hx|].
  assert (0 <= wt l (fst x)) by (apply mass_nonneg, Hl).
  unfold wt in *. destruct y as [a w]. cbn [mass snd] in *. destruct Hx as [<-|Hx].
  - cbn [fst snd] in *. rewrite veqb_refl. lia.
  - specialize (IH Hx). destruct (veqb (fst x) a); lia.
Qed.

Lemma nothing_left_kept c l : nonneg l -> (nothing_left c l = true <-> forall v, kept c l v = false).
Proof.
  intro Hn. rewrite nothing_left_iff by exact Hn. unfold kept. split.
  - intros [->|[Hs Hz]] v.
    + destruct (cfg_skip0 c); reflexivity.
    + rewrite Hs. unfold wt. rewrite mass_zero_weights by exact Hz. reflexivity.
  - intro H. destruct (cfg_skip0 c) eqn:Hs.
    + right. split; [reflexivity|]. apply Forall_forall. intros x Hx. specialize (H (fst x)).
      apply Z.ltb_ge in H. pose proof Hn as Hn'. unfold nonneg in Hn'. rewrite Forall_forall in Hn'. specialize (Hn' x Hx).
      destruct (Z.eq_dec (snd x) 0) as [E|E]; [exact E|].
      pose proof (wt_mem_pos l x Hn Hx ltac:(lia)). lia.
    + left. destruct l as [|x l]; [reflexivity|]. specialize (H (fst x)). cbn in H. rewrite veqb_refl in H. discriminate.
Qed.

Lemma normal_unique c l l' ka kb : nonneg l -> nonneg l' -> 0 < ka -> 0 < kb ->
  (forall v, ka * wt l v = kb * wt l' v) ->
  (cfg_skip0 c = false -> forall v, listed v l = listed v l') ->
  same_repr (normal c l) (normal c l').
Proof.
  intros Hn Hn' Ha Hb HW HL.
  assert (K : forall v, kept c l v = kept c l' v).
  { intro v. unfold kept. destruct (cfg_skip0 c); [|apply HL; reflexivity].
    specialize (HW v). destruct (Z.ltb_spec 0 (wt l v)), (Z.ltb_spec 0 (wt l' v)); try reflexivity; nia. }
  assert (E : nothing_left c l = nothing_left c l').
  { destruct (nothing_left c l) eqn:E, (nothing_left c l') eqn:E'; try reflexivity; exfalso.
    - rewrite nothing_left_kept in E by exact Hn.
      assert (nothing_left c l' = true) by (apply nothing_left_kept; [exact Hn' | intro; rewrite <- K; apply E]). congruence.
    - rewrite nothing_left_kept in E' by exact Hn'.
      assert (nothing_left c l = true) by (apply nothing_left_kept; [exact Hn | intro; rewrite K; apply E']). congruence. }
  destruct (nothing_left c l) eqn:E1; symmetry in E.
  - rewrite !normal_nothing by assumption. apply same_repr_refl.
  - destruct (normal_mass c l E1) as (g & Hg & HM). destruct (normal_mass c l' E) as (g' & Hg' & HM').
    destruct (canon_unique (normal c l) (normal c l') (ka * g) (kb * g')) as [F P].
    + apply normal_canon, Hn.
    + apply normal_canon, Hn'.
    + nia.
    + nia.
    + intro v. rewrite !normal_listed by assumption. apply K.
    + intro v. specialize (HW v). unfold wt in *. rewrite (HM _ (vresp_veqb v)), (HM' _ (vresp_veqb v)) in HW. nia.
    + split; [apply Forall2_map_fst, F | exact P].
Qed.

(** ** Integer values *)
Definition toI (v : pval) : Z := match v with VN n => ntrunc n | VS _ => 0 end.

Lemma ntrunc_congr a b : neqb a b = true -> ntrunc a = ntrunc b.
Proof.
  intro H. apply neqb_Q in H. eapply int_part_unique; [apply ntrunc_spec|].
  pose proof (ntrunc_spec b) as K. unfold int_part in *. rewrite !H. exact K.
Qed.

Lemma vrespf_toI h : vrespf (fun v => h (toI v)).
Proof.
  intros a b E. f_equal. destruct a as [x|s], b as [y|t]; cbn; try discriminate; [|reflexivity].
  apply ntrunc_congr, E.
Qed.

Lemma ntrunc_int z : ntrunc (NI z) = z.
Proof.
  unfold ntrunc, nceil, nfloor, dy_floor, shl. cbn [mant expo]. cbn [Z.ltb Z.compare].
  rewrite Z.pow_0_r, !Z.mul_1_r. destruct (z <? 0); lia.
Qed.

Lemma toI_int z : toI (vint z) = z.
Proof. apply ntrunc_int. Qed.

Lemma is_int_vint v : v_is_int v = true -> v = vint (toZ v).
Proof. destruct v as [[z|]|]; cbn; try discriminate. reflexivity. Qed.

Lemma toI_toZ v : v_is_int v = true -> toI v = toZ v.
Proof. intro H. rewrite (is_int_vint v H). rewrite toI_int. reflexivity. Qed.

Lemma int_in d v w : int_vals d -> In (v, w) d -> v_is_int v = true.
Proof. intros H Hin. unfold int_vals in H. rewrite Forall_forall in H. apply (H _ Hin). Qed.

(** prove that a member of an integer law is an integer *)
Ltac int_mem := eapply int_in; [|eassumption]; assumption.

Lemma wsum_toI h d : int_vals d -> wsum (fun v => h (toI v)) d = wsum (fun v => h (toZ v)) d.
Proof. intro H. apply wsum_ext. intros a w Hin. rewrite toI_toZ; [reflexivity | int_mem]. Qed.

Definition ind (b : bool) : Z := if b then 1 else 0.

Lemma veqb_vint_l k v : v_is_int v = true -> veqb (vint k) v = (toZ v =? k).
Proof. intro H. rewrite (is_int_vint v H) at 1. rewrite veqb_int. apply Z.eqb_sym. Qed.

Lemma wt_int d k : int_vals d -> wt d (vint k) = wsum (fun v => ind (toZ v =? k)) d.
Proof.
  intro H. unfold wt. rewrite mass_wsum. apply wsum_ext. intros a w Hin.
  rewrite veqb_vint_l by int_mem. reflexivity.
Qed.

Lemma listed_int d k : int_vals d -> listed (vint k) d = true <-> exists x, In x d /\ toZ (fst x) = k.
Proof.
  intro H. rewrite listed_iff. split; intros (x & Hx & E); exists x; split; auto.
  - rewrite veqb_vint_l in E by (destruct x; int_mem). apply Z.eqb_eq, E.
  - rewrite veqb_vint_l by (destruct x; int_mem). apply Z.eqb_eq, E.
Qed.

(** a value is an integer or met by no integer law *)
Lemma int_or_absent v : (exists k, veqb v (vint k) = true) \/
  (forall d, int_vals d -> listed v d = false /\ wt d v = 0).
Proof.
  destruct v as [n|s].
  - destruct (neqb n (NI (ntrunc n))) eqn:E; [left; exists (ntrunc n); exact E|].
    right. intros d H.
    assert (L : listed (VN n) d = false).
    { apply listed_false. intros [a w] Hx. cbn [fst]. rewrite (is_int_vint a) by int_mem.
      destruct (veqb (VN n) (vint (toZ a))) eqn:F; [|reflexivity]. exfalso.
      assert (G : ntrunc n = toZ a) by (rewrite (ntrunc_congr _ _ F); apply ntrunc_int).
      rewrite <- G in F. unfold veqb in F. unfold neqb in E. cbn in F. rewrite E in F. discriminate. }
    split; [exact L | apply listed_false_wt, L].
  - right. intros d H.
    assert (L : listed (VS s) d = false).
    { apply listed_false. intros [a w] Hx. cbn [fst]. rewrite (is_int_vint a) by int_mem. reflexivity. }
    split; [exact L | apply listed_false_wt, L].
Qed.

Lemma listed_congr v v' l : veqb v v' = true -> listed v l = listed v' l.
Proof. intro H. unfold listed. induction l as [|x l IH]; cbn; [reflexivity|]. rewrite IH, (veqb_congr_l _ _ _ H). reflexivity. Qed.

Lemma wt_int_ext l l' ka kb : int_vals l -> int_vals l' ->
  (forall k, ka * wt l (vint k) = kb * wt l' (vint k)) -> forall v, ka * wt l v = kb * wt l' v.
Proof.
  intros Hi Hi' H v. destruct (int_or_absent v) as [[k E]|A].
  - rewrite !(wt_congr _ _ _ E). apply H.
  - destruct (A l Hi) as [_ ->], (A l' Hi') as [_ ->]. lia.
Qed.

Lemma listed_int_ext l l' : int_vals l -> int_vals l' ->
  (forall k, listed (vint k) l = listed (vint k) l') -> forall v, listed v l = listed v l'.
Proof.
  intros Hi Hi' H v. destruct (int_or_absent v) as [[k E]|A].
  - rewrite !(listed_congr _ _ _ E). apply H.
  - destruct (A l Hi) as [-> _], (A l' Hi') as [-> _]. reflexivity.
Qed.

Lemma normal_int c l : int_vals l -> int_vals (normal c l).
Proof.
  intro H. destruct (nothing_left c l) eqn:N.
  - rewrite normal_nothing by exact N. repeat constructor.
  - apply Forall_forall. intros x Hx. pose proof (normal_vals_in c l x Hx N) as K.
    unfold vals in K. apply in_map_iff in K as (y & <- & Hy).
    unfold int_vals in H. rewrite Forall_forall in H. apply H, Hy.
Qed.

Lemma normal_unique_int c l l' ka kb : nonneg l -> nonneg l' -> int_vals l -> int_vals l' -> 0 < ka -> 0 < kb ->
  (forall k, ka * wt l (vint k) = kb * wt l' (vint k)) ->
  (cfg_skip0 c = false -> forall k, listed (vint k) l = listed (vint k) l') ->
  normal c l = normal c l'.
Proof.
  intros Hn Hn' Hi Hi' Ha Hb HW HL. apply same_repr_int_eq; try (apply normal_int; assumption).
  apply (normal_unique c l l' ka kb); auto.
  - apply wt_int_ext; assumption.
  - intros Hs. apply listed_int_ext; auto.
Qed.

(** ** Sums of integer laws *)
Lemma vop_add_int a b : v_is_int a = true -> v_is_int b = true -> vop OAdd a b = Ok (vint (toZ a + toZ b)).
Proof. intros Ha Hb. rewrite (is_int_vint a Ha), (is_int_vint b Hb). reflexivity. Qed.

Lemma in_indep {A B} (x : list (A * Z)) (y : list (B * Z)) a b w :
  In ((a, b), w) (indep x y) <-> exists p q, In (a, p) x /\ In (b, q) y /\ w = p * q.
Proof.
  unfold indep. rewrite in_flat_map. split.
  - intros ([a' p] & Ha & H). apply in_map_iff in H as ([b' q] & E & Hb). inversion E; subst. cbn in *. eauto 6.
  - intros (p & q & Ha & Hb & ->). exists (a, p). split; [exact Ha|]. apply in_map_iff. exists (b, q). auto.
Qed.

Record add_result (x y m : dist) : Prop := {
  ar_wsum : forall h, wsum (fun v => h (toZ v)) m = wsum (fun a => wsum (fun b => h (toZ a + toZ b)) y) x;
  ar_listed : forall k, listed (vint k) m = true <-> exists a b, In a x /\ In b y /\ toZ (fst a) + toZ (fst b) = k;
  ar_nonneg : nonneg x -> nonneg y -> nonneg m;
  ar_int : int_vals m
}.

(** all keys of the accumulated dict are results *)
Lemma rd_add_keys (Q : pval -> Prop) d k w : Q k -> Forall (fun x => Q (fst x)) d -> Forall (fun x => Q (fst x)) (rd_add d k w).
Proof.
  intros Hk. induction 1 as [|[k' w'] d H Hd IH]; cbn; [repeat constructor; exact Hk|].
  destruct (dict_same k' k); constructor; auto.
Qed.

Lemma conv_keys (Q : pval -> Prop) f x y m : fast_convolve f x y = Ok m ->
  (forall a b v, In a x -> In b y -> f (fst a) (fst b) = Ok v -> Q v) -> Forall (fun x => Q (fst x)) m.
Proof.
  unfold fast_convolve. intros H HQ.
  match type of H with context [foldM ?a ?b ?l] => destruct (foldM a b l) as [m0|] eqn:E end;
    cbn [bind] in H; [|discriminate].
  inversion H; subst m; clear H.
  apply (Permutation_Forall (isort_perm vp_leb m0)).
  assert (K : forall l m1 m2, (forall xy, In xy l -> In xy (all_pairs x y)) ->
     foldM (fun m xy => k <- f (fst (fst xy)) (fst (snd xy)) ;; Ok (rd_add m k (snd (fst xy) * snd (snd xy)))) m1 l = Ok m2 ->
     Forall (fun x => Q (fst x)) m1 -> Forall (fun x => Q (fst x)) m2).
  { induction l as [|[a b] l IH]; intros m1 m2 Hin HF H1; cbn [foldM] in HF.
    - inversion HF; subst. exact H1.
    - destruct (f (fst (fst (a, b))) (fst (snd (a, b)))) as [k|] eqn:Ek; cbn [bind] in HF; [|discriminate].
      eapply IH; [| exact HF |].
      + intros; apply Hin; right; assumption.
      + apply rd_add_keys; [|exact H1].
        pose proof (Hin (a, b) (or_introl eq_refl)) as Hab. apply in_all_pairs in Hab as [Ha Hb].
        eapply HQ; eauto. }
  eapply K; [ | exact E | constructor]. auto.
Qed.

Lemma add_spec x y m : int_vals x -> int_vals y -> fast_convolve (vop OAdd) x y = Ok m -> add_result x y m.
Proof.
  intros Hx Hy E. pose proof (fast_convolve_spec _ _ _ _ E) as R.
  assert (Hm : int_vals m).
  { eapply (conv_keys (fun v => v_is_int v = true)); [exact E|]. intros [a p] [b q] v Ha Hb Hv. cbn [fst] in Hv.
    rewrite vop_add_int in Hv by int_mem. inversion Hv. reflexivity. }
  constructor.
  - intro h. rewrite <- wsum_toI by exact Hm. rewrite (cr_wsum _ _ _ _ R _ (vrespf_toI h)).
    rewrite <- wsum_indep with (f := fun ab => h (toZ (fst ab) + toZ (snd ab))).
    apply wsum_ext. intros [a b] w Hin. apply in_indep in Hin as (p & q & Ha & Hb & _).
    unfold okF, uncur. cbn [fst snd].
    rewrite vop_add_int by int_mem. rewrite toI_int. reflexivity.
  - intro k. rewrite (cr_listed _ _ _ _ R).
    split; intros ([a p] & [b q] & Ha & Hb & H); exists (a, p), (b, q); (split; [exact Ha|split; [exact Hb|]]);
      cbn [fst] in *; unfold okP, uncur in *; cbn [fst snd] in *;
      rewrite vop_add_int in * by int_mem.
    + rewrite veqb_int in H. apply Z.eqb_eq in H. congruence.
    + rewrite veqb_int. apply Z.eqb_eq. congruence.
  - apply (cr_nonneg _ _ _ _ R).
  - exact Hm.
Qed.

Lemma add_total x y : int_vals x -> int_vals y -> exists m, fast_convolve (vop OAdd) x y = Ok m.
Proof.
  intros Hx Hy. apply fast_convolve_total. intros [a p] [b q] Ha Hb. cbn [fst].
  rewrite vop_add_int by int_mem. eauto.
Qed.

Lemma normal_wsum c l : int_vals l -> nothing_left c l = false ->
  exists g, 0 < g /\ forall h, wsum (fun v => h (toZ v)) l = g * wsum (fun v => h (toZ v)) (normal c l).
Proof.
  intros Hi N. destruct (normal_scale c l N) as (g & Hg & _ & HW). exists g. split; [exact Hg|].
  intro h'. rewrite <- !wsum_toI by (try apply normal_int; exact Hi). apply HW, vrespf_toI.
Qed.
