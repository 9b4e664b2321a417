(** Proofs of the properties of operators on dice. *)
From Coq Require Import List ZArith QArith Qabs Bool Permutation Sorted Lia Lqa.
From Verif Require Import PyBase Num Val Sorting RVModel Spec CmpFacts SortFacts MassFacts NumFacts RVFacts ConstructFacts ConvFacts IntFacts RoundFacts LimitFacts.
Import ListNotations.
Open Scope Z_scope.

(** ** C07 *)
Lemma normal_length c l : (length (normal c l) <= Nat.max 1 (length l))%nat.
Proof.
  destruct (nothing_left c l) eqn:E; [rewrite normal_nothing by exact E; apply Nat.le_max_l|].
  rewrite normal_something by exact E.
  assert (A : length (get_normalized (grouped c l)) = length (grouped c l)).
  { pose proof (f_equal (@length _) (get_normalized_vals (grouped c l))) as K. unfold vals in K. rewrite !map_length in K. exact K. }
  rewrite A. unfold grouped, get_new_zipped.
  assert (G : forall x l, (length (group_from x l) <= S (length l))%nat).
  { clear. intros x l. revert x. induction l as [|y l IH]; intro x; cbn; [lia|].
    destruct (veqb (fst x) (fst y)); [specialize (IH (fst y, snd y + snd x))|cbn; specialize (IH y)]; lia. }
  assert (G2 : (length (group (rev (get_zip l))) <= length l)%nat).
  { rewrite (Permutation_length (asc_perm l)). destruct (rev (get_zip l)); cbn; [lia|apply G]. }
  destruct (cfg_skip0 c); [|lia].
  assert (F : forall (f : pval * Z -> bool) l, (length (filter f l) <= length l)%nat).
  { clear. intros f l. induction l as [|x l IH]; cbn; [lia|]. destruct (f x); cbn; lia. }
  eapply Nat.le_trans; [apply F|]. lia.
Qed.

(** the result of an operator before rescaling *)
Lemma rv_conv_exact c f x y r :
  cfg_trunc c = false -> proper x -> proper y -> rv_conv c f x y = Ok r ->
  exists d,
    (forall z, (Pr d z == PrP (fun ab => yields (f (fst ab) (snd ab)) z) (indep x y))%Q) /\
    canon d /\ proper d /\ prob_limit d = Ok (rv_dist r) /\
    total d <= total x * total y /\ (length d <= length x * length y)%nat /\
    rv_roll r = 1 /\ rv_src r = None.
Proof.
  intros Ht [Hx Tx] [Hy Ty] H.
  destruct (rv_conv_inv _ _ _ _ _ H) as [m E].
  unfold rv_conv in H. rewrite E in H. cbn [bind] in H.
  pose proof (fast_convolve_spec _ _ _ _ E) as R.
  pose proof (cr_nonneg _ _ _ _ R Hx Hy) as Hm.
  pose proof (conv_total _ _ _ _ R) as TM.
  assert (Pm : proper m) by (split; [exact Hm | rewrite TM; nia]).
  rewrite mk_dist_self in H by assumption. cbn [bind] in H.
  destruct (prob_limit (normal c m)) as [d'|] eqn:L; cbn [bind] in H; [|discriminate].
  inversion H; subst r. exists (normal c m). cbn [rv_of rv_dist rv_roll rv_src].
  repeat split; auto.
  - intro z. rewrite normal_Pr by exact Pm. unfold Pr, PrP.
    rewrite TM, total_indep. unfold wt. rewrite (cr_mass _ _ _ _ R _ (vresp_veqb z)). reflexivity.
  - apply normal_canon, Hm.
  - apply normal_canon, Hm.
  - apply normal_canon, Hm.
  - apply normal_canon, Hm.
  - apply normal_canon, Hm.
  - apply normal_proper, Pm.
  - rewrite <- TM. pose proof (normal_total_le c m Hm) as K. destruct Pm as [_ Pm]. lia.
  - pose proof (normal_length c m) as K. pose proof (cr_length _ _ _ _ R) as K2.
    destruct x as [|a x]; [cbn in Tx; lia|]. destruct y as [|b y]; [cbn in Ty; lia|]. cbn [length] in *. lia.
Qed.

Lemma rv_conv_close c f x y r :
  cfg_trunc c = false -> proper x -> proper y ->
  Z.of_nat (length x) * Z.of_nat (length y) <= 10 ^ 10 ->
  rv_conv c f x y = Ok r ->
  forall z, (Qabs (Pr (rv_dist r) z - PrP (fun ab => yields (f (fst ab) (snd ab)) z) (indep x y)) <= 1 # 1000000000)%Q.
Proof.
  intros Ht Px Py HL H z. destruct (rv_conv_exact c f x y r Ht Px Py H) as (d & HP & _ & [Hn _] & L & _ & Hlen & _).
  rewrite <- HP. apply limit_error; auto. lia.
Qed.

(** the same for any key test of the accumulating dict *)
Lemma conv_any_dict c same f x y m : key_test same -> nonneg x -> nonneg y ->
  conv_by same f x y = Ok m ->
  exists m', fast_convolve f x y = Ok m' /\ same_repr (normal c m) (normal c m').
Proof.
  intros HS Hx Hy E. apply (conv_by_spec same) in E as R; [|exact HS].
  destruct (fast_convolve_total f x y) as [m' E'].
  { intros a b Ha Hb. apply (cr_ok _ _ _ _ R); assumption. }
  pose proof (fast_convolve_spec _ _ _ _ E') as R'.
  exists m'. split; [exact E'|]. apply (normal_unique c m m' 1 1); try lia.
  - apply (cr_nonneg _ _ _ _ R); assumption.
  - apply (cr_nonneg _ _ _ _ R'); assumption.
  - intro v. unfold wt. rewrite (cr_mass _ _ _ _ R), (cr_mass _ _ _ _ R') by apply vresp_veqb. reflexivity.
  - intros _ v. apply eq_true_iff_eq. rewrite (cr_listed _ _ _ _ R), (cr_listed _ _ _ _ R'). reflexivity.
Qed.

(** ** C09: comparisons *)
Definition rel_holds (op : binop) (a b : pval) : bool :=
  match op with
  | OEq => veqb a b | ONe => negb (veqb a b)
  | OLt => vltb a b | OLe => vleb a b
  | OGt => vltb b a | OGe => vleb b a
  | _ => false
  end.
Definition is_rel (op : binop) : bool :=
  match op with OEq | ONe | OLt | OLe | OGt | OGe => true | _ => false end.

Lemma vop_rel op a b : is_rel op = true -> vop op a b = Ok (vint (if rel_holds op a b then 1 else 0)).
Proof. destruct op; cbn; try discriminate; reflexivity. Qed.

Lemma PrP_ext {A} (P P' : A -> bool) l : (forall a w, In (a, w) l -> P a = P' a) -> (PrP P l == PrP P' l)%Q.
Proof. intro H. unfold PrP. rewrite (mass_ext P P' l H). reflexivity. Qed.

Lemma PrP_false {A} (P : A -> bool) l : (forall a w, In (a, w) l -> P a = false) -> (PrP P l == 0)%Q.
Proof. intro H. unfold PrP. rewrite mass_false by exact H. unfold Qdiv. change (inject_Z 0) with 0%Q. ring. Qed.

Lemma PrP_compl {A} (P : A -> bool) (l : list (A * Z)) : total l <> 0 -> (PrP P l + PrP (fun a => negb (P a)) l == 1)%Q.
Proof.
  intro H. unfold PrP. pose proof (mass_compl P l) as K.
  assert (N := inject_Z_nonzero _ H).
  setoid_replace (inject_Z (mass P l) / inject_Z (total l) + inject_Z (mass (fun a => negb (P a)) l) / inject_Z (total l))%Q
    with ((inject_Z (mass P l) + inject_Z (mass (fun a => negb (P a)) l)) / inject_Z (total l))%Q by (field; exact N).
  rewrite <- inject_Z_plus, K. field. exact N.
Qed.

Lemma proper_indep {A B} (x : list (A * Z)) (y : list (B * Z)) : proper x -> proper y -> proper (indep x y).
Proof. intros [H1 H2] [H3 H4]. split; [apply nonneg_indep; assumption | rewrite total_indep; nia]. Qed.

Lemma compare_indicator c op x y r :
  is_rel op = true -> cfg_trunc c = false -> proper x -> proper y -> total x * total y <= SUM_LIMIT ->
  rv_op c op x y = Ok r ->
  (Pr (rv_dist r) (vint 1) == PrP (fun ab => rel_holds op (fst ab) (snd ab)) (indep x y))%Q /\
  (Pr (rv_dist r) (vint 0) == PrP (fun ab => negb (rel_holds op (fst ab) (snd ab))) (indep x y))%Q /\
  (forall z, veqb z (vint 0) = false -> veqb z (vint 1) = false -> listed z (rv_dist r) = false).
Proof.
  intros Hop Ht Px Py HL H. destruct (rv_conv_law c (vop op) x y r Ht Px Py HL H) as (HP & _).
  split; [|split].
  - rewrite HP. apply PrP_ext. intros [a b] w _. cbn [fst snd]. rewrite vop_rel by exact Hop. cbn [yields].
    destruct (rel_holds op a b); reflexivity.
  - rewrite HP. apply PrP_ext. intros [a b] w _. cbn [fst snd]. rewrite vop_rel by exact Hop. cbn [yields].
    destruct (rel_holds op a b); reflexivity.
  - intros z H0 H1. destruct (rv_conv_inv _ _ _ _ _ H) as [m E].
    unfold rv_op in H. rewrite (rv_conv_below c (vop op) x y m Ht (proj1 Px) (proj1 Py) HL E) in H. inversion H; subst r. cbn [rv_of rv_dist].
    apply listed_false. intros e Hin.
    assert (K : Forall (fun e => veqb z (fst e) = false) m).
    { eapply (conv_keys (fun v => veqb z v = false)); [exact E|]. intros a b v _ _ Hv.
      rewrite vop_rel in Hv by exact Hop. inversion Hv. destruct (rel_holds op (fst a) (fst b)); assumption. }
    destruct (nothing_left c m) eqn:N.
    + rewrite normal_nothing in Hin by exact N. destruct Hin as [<-|[]]. exact H0.
    + pose proof (normal_vals_in c m e Hin N) as V. unfold vals in V. apply in_map_iff in V as (e' & <- & He').
      rewrite Forall_forall in K. apply K, He'.
Qed.

(** the relation that holds exactly when the other one does not *)
Definition complement (op : binop) : binop :=
  match op with
  | OEq => ONe | ONe => OEq | OLt => OGe | OGe => OLt | OGt => OLe | OLe => OGt | o => o
  end.

Lemma rel_complement op a b : is_rel op = true -> rel_holds (complement op) a b = negb (rel_holds op a b).
Proof.
  destruct op; cbn; try discriminate; intros _; try (rewrite negb_involutive; reflexivity); try reflexivity;
    unfold vltb, vleb; rewrite (lw_anti _ vcmp_lawful a b); destruct (vcmp a b); reflexivity.
Qed.

Lemma compare_complement c op x y r r' :
  is_rel op = true -> cfg_trunc c = false -> proper x -> proper y -> total x * total y <= SUM_LIMIT ->
  rv_op c op x y = Ok r -> rv_op c (complement op) x y = Ok r' ->
  (Pr (rv_dist r) (vint 1) == Pr (rv_dist r') (vint 0))%Q /\
  (Pr (rv_dist r) (vint 0) == Pr (rv_dist r') (vint 1))%Q /\
  (Pr (rv_dist r) (vint 1) + Pr (rv_dist r') (vint 1) == 1)%Q.
Proof.
  intros Hop Ht Px Py HL H H'.
  assert (Hop' : is_rel (complement op) = true) by (destruct op; try discriminate; reflexivity).
  destruct (compare_indicator c op x y r Hop Ht Px Py HL H) as (A1 & A0 & _).
  destruct (compare_indicator c _ x y r' Hop' Ht Px Py HL H') as (B1 & B0 & _).
  rewrite A1, A0, B1, B0.
  assert (E1 : (PrP (fun ab => rel_holds (complement op) (fst ab) (snd ab)) (indep x y) ==
                PrP (fun ab => negb (rel_holds op (fst ab) (snd ab))) (indep x y))%Q)
    by (apply PrP_ext; intros; apply rel_complement, Hop).
  split; [|split].
  - apply PrP_ext. intros. rewrite rel_complement by exact Hop. rewrite negb_involutive. reflexivity.
  - symmetry. exact E1.
  - rewrite E1. apply PrP_compl. destruct (proper_indep x y Px Py). lia.
Qed.

Lemma compare_trichotomy c x y lt eq gt :
  cfg_trunc c = false -> proper x -> proper y -> total x * total y <= SUM_LIMIT ->
  rv_op c OLt x y = Ok lt -> rv_op c OEq x y = Ok eq -> rv_op c OGt x y = Ok gt ->
  (Pr (rv_dist lt) (vint 1) + Pr (rv_dist eq) (vint 1) + Pr (rv_dist gt) (vint 1) == 1)%Q.
Proof.
  intros Ht Px Py HL H1 H2 H3.
  destruct (compare_indicator c OLt x y lt eq_refl Ht Px Py HL H1) as (A & _).
  destruct (compare_indicator c OEq x y eq eq_refl Ht Px Py HL H2) as (B & _).
  destruct (compare_indicator c OGt x y gt eq_refl Ht Px Py HL H3) as (C & _).
  rewrite A, B, C. clear A B C H1 H2 H3.
  destruct (proper_indep x y Px Py) as [_ Tp]. set (l := indep x y) in *. unfold PrP.
  assert (N := inject_Z_nonzero (total l) ltac:(lia)).
  assert (K : mass (fun ab => rel_holds OLt (fst ab) (snd ab)) l + mass (fun ab => rel_holds OEq (fst ab) (snd ab)) l
              + mass (fun ab => rel_holds OGt (fst ab) (snd ab)) l = total l).
  { clear. unfold total, rel_holds, vltb, veqb. induction l as [|[[a b] w] l IH]; [reflexivity|]. cbn [mass fst snd].
    rewrite (lw_anti _ vcmp_lawful a b). destruct (vcmp a b); cbn; lia. }
  apply (f_equal inject_Z) in K. rewrite !inject_Z_plus in K.
  set (t := inject_Z (total l)) in *. clearbody t. rewrite <- K in N |- *. field. exact N.
Qed.

Lemma compare_total c op x y : is_rel op = true -> cfg_trunc c = false -> nonneg x -> nonneg y ->
  total x * total y <= SUM_LIMIT -> exists r, rv_op c op x y = Ok r.
Proof.
  intros Hop Ht Hx Hy HL. apply rv_conv_succeeds; auto. intros a b _ _. rewrite vop_rel by exact Hop. eauto.
Qed.

(** ** C10: addition of integer dice *)
Lemma rv_conv_limit c f x y m : cfg_trunc c = false -> nonneg m -> fast_convolve f x y = Ok m ->
  rv_conv c f x y = (d <- prob_limit (normal c m) ;; Ok (rv_of d)).
Proof.
  intros Ht Hm E. unfold rv_conv. rewrite E. cbn [bind]. rewrite mk_dist_self by assumption. reflexivity.
Qed.

Lemma wsum_swap {A B} (f : A -> B -> Z) (x : list (A * Z)) (y : list (B * Z)) :
  wsum (fun a => wsum (fun b => f a b) y) x = wsum (fun b => wsum (fun a => f a b) x) y.
Proof.
  induction x as [|[a p] x IH]; cbn [wsum].
  - induction y as [|[b q] y IHy]; cbn [wsum]; [reflexivity|]. rewrite <- IHy. lia.
  - rewrite IH. clear IH.
    rewrite <- (Z.mul_comm p), <- wsum_cmul, <- wsum_plus. apply wsum_ext. intros b q _. lia.
Qed.

Lemma add_comm c x y : cfg_trunc c = false -> nonneg x -> nonneg y -> int_vals x -> int_vals y ->
  rv_op c OAdd x y = rv_op c OAdd y x.
Proof.
  intros Ht Hx Hy Ix Iy. destruct (add_total x y Ix Iy) as [m E]. destruct (add_total y x Iy Ix) as [m' E'].
  pose proof (add_spec x y m Ix Iy E) as R. pose proof (add_spec y x m' Iy Ix E') as R'.
  pose proof (ar_nonneg _ _ _ R Hx Hy). pose proof (ar_nonneg _ _ _ R' Hy Hx).
  unfold rv_op. rewrite (rv_conv_limit c _ x y m), (rv_conv_limit c _ y x m') by assumption.
  replace (normal c m') with (normal c m); [reflexivity|].
  apply (normal_unique_int c m m' 1 1); try lia; auto using (ar_int _ _ _ R), (ar_int _ _ _ R').
  - intro k. rewrite !wt_int by (apply R || apply R').
    rewrite (ar_wsum _ _ _ R (fun z => ind (z =? k))), (ar_wsum _ _ _ R' (fun z => ind (z =? k))), wsum_swap.
    f_equal. apply wsum_ext. intros b q _. apply wsum_ext. intros a p _. do 2 f_equal. lia.
  - intros _ k. apply eq_true_iff_eq. rewrite (ar_listed _ _ _ R), (ar_listed _ _ _ R').
    split; intros (a & b & Ha & Hb & Hs); exists b, a; repeat split; auto; lia.
Qed.

Lemma wsum_ind_pos (f : pval -> bool) (d : dist) : nonneg d -> 0 <= wsum (fun v => ind (f v)) d.
Proof. intro H. rewrite <- mass_wsum with (P := f). apply mass_nonneg, H. Qed.

(** one step: the sum of x and y where y is (proportional to) y0 *)
Lemma rv_add_below c x y : cfg_trunc c = false -> nonneg x -> nonneg y -> int_vals x -> int_vals y ->
  total x * total y <= SUM_LIMIT ->
  exists m, fast_convolve (vop OAdd) x y = Ok m /\ add_result x y m /\ rv_op c OAdd x y = Ok (rv_of (normal c m)).
Proof.
  intros Ht Hx Hy Ix Iy HL. destruct (add_total x y Ix Iy) as [m E].
  exists m. split; [exact E|]. split; [apply add_spec; assumption|]. apply rv_conv_below; assumption.
Qed.

(** A normal form stands for its argument: same functionals up to a factor,
    same listed values, except that an empty argument becomes the constant 0. *)
Definition stands_for (c : cfg) (d l : dist) : Prop :=
  exists g, 0 < g /\ (forall h, wsum (fun v => h (toZ v)) l = g * wsum (fun v => h (toZ v)) d) /\
  (cfg_skip0 c = false -> forall k, listed (vint k) d = listed (vint k) l).

Lemma normal_stands c l : nonneg l -> int_vals l -> nothing_left c l = false -> stands_for c (normal c l) l.
Proof.
  intros Hn Hi N. destruct (normal_wsum c l Hi N) as (g & Hg & HW). exists g. split; [exact Hg|]. split; [exact HW|].
  intros Hs k. rewrite normal_listed, Hs by assumption. reflexivity.
Qed.

Lemma add_assoc c x y z xy yz r r' :
  cfg_trunc c = false -> proper x -> proper y -> proper z -> int_vals x -> int_vals y -> int_vals z ->
  total x * total y * total z <= SUM_LIMIT ->
  rv_op c OAdd x y = Ok xy -> rv_op c OAdd (rv_dist xy) z = Ok r ->
  rv_op c OAdd y z = Ok yz -> rv_op c OAdd x (rv_dist yz) = Ok r' ->
  rv_dist r = rv_dist r'.
Proof.
  intros Ht [Hx Tx] [Hy Ty] [Hz Tz] Ix Iy Iz HL H1 H2 H3 H4.
  assert (LXY : total x * total y <= SUM_LIMIT) by nia.
  assert (LYZ : total y * total z <= SUM_LIMIT).
  { assert (0 < total y * total z) by nia. nia. }
  destruct (rv_add_below c x y Ht Hx Hy Ix Iy LXY) as (m1 & E1 & R1 & F1).
  rewrite F1 in H1. inversion H1; subst xy. clear H1. cbn [rv_of rv_dist] in *.
  destruct (rv_add_below c y z Ht Hy Hz Iy Iz LYZ) as (m2 & E2 & R2 & F2).
  rewrite F2 in H3. inversion H3; subst yz. clear H3. cbn [rv_of rv_dist] in *.
  assert (P1 : proper m1).
  { split; [apply (ar_nonneg _ _ _ R1); assumption|]. rewrite (conv_total _ _ _ _ (fast_convolve_spec _ _ _ _ E1)). nia. }
  assert (P2 : proper m2).
  { split; [apply (ar_nonneg _ _ _ R2); assumption|]. rewrite (conv_total _ _ _ _ (fast_convolve_spec _ _ _ _ E2)). nia. }
  assert (T1 : total m1 = total x * total y) by (apply (conv_total _ _ _ _ (fast_convolve_spec _ _ _ _ E1))).
  assert (T2 : total m2 = total y * total z) by (apply (conv_total _ _ _ _ (fast_convolve_spec _ _ _ _ E2))).
  pose proof (normal_proper c m1 P1) as [N1 NT1]. pose proof (normal_proper c m2 P2) as [N2 NT2].
  pose proof (normal_total_le c m1 (proj1 P1)) as B1. pose proof (normal_total_le c m2 (proj1 P2)) as B2.
  rewrite Z.max_r in B1 by (destruct P1; lia). rewrite Z.max_r in B2 by (destruct P2; lia).
  pose proof (normal_int c m1 (ar_int _ _ _ R1)) as I1. pose proof (normal_int c m2 (ar_int _ _ _ R2)) as I2.
  destruct (rv_add_below c (normal c m1) z Ht N1 Hz I1 Iz ltac:(nia)) as (m3 & E3 & R3 & F3).
  destruct (rv_add_below c x (normal c m2) Ht Hx N2 Ix I2 ltac:(nia)) as (m4 & E4 & R4 & F4).
  rewrite F3 in H2. inversion H2; subst r. rewrite F4 in H4. inversion H4; subst r'. cbn [rv_of rv_dist].
  destruct (normal_stands c m1 (proj1 P1) (ar_int _ _ _ R1) (proper_something c m1 (proj1 P1) (proj2 P1))) as (g1 & G1 & W1 & L1).
  destruct (normal_stands c m2 (proj1 P2) (ar_int _ _ _ R2) (proper_something c m2 (proj1 P2) (proj2 P2))) as (g2 & G2 & W2 & L2).
  apply (normal_unique_int c m3 m4 g1 g2); auto;
    try apply R3; try apply R4; auto.
  - intro k. rewrite !wt_int by (apply R3 || apply R4).
    rewrite (ar_wsum _ _ _ R3 (fun s => ind (s =? k))), (ar_wsum _ _ _ R4 (fun s => ind (s =? k))).
    rewrite <- (W1 (fun s => wsum (fun b => ind (s + toZ b =? k)) z)).
    rewrite (ar_wsum _ _ _ R1 (fun s => wsum (fun b => ind (s + toZ b =? k)) z)).
    rewrite <- wsum_cmul. apply wsum_ext. intros a p _. 
    rewrite <- (W2 (fun s => ind (toZ a + s =? k))). rewrite (ar_wsum _ _ _ R2 (fun s => ind (toZ a + s =? k))).
    apply wsum_ext. intros b q _. apply wsum_ext. intros d w _. do 2 f_equal. lia.
  - intros Hs k. apply eq_true_iff_eq. rewrite (ar_listed _ _ _ R3), (ar_listed _ _ _ R4).
    split.
    + intros (s & d & Hs' & Hd & Hk).
      assert (K : listed (vint (toZ (fst s))) (normal c m1) = true) by (apply listed_int; eauto).
      rewrite L1, (ar_listed _ _ _ R1) in K by exact Hs. destruct K as (a & b & Ha & Hb & Hab).
      assert (K2 : listed (vint (toZ (fst b) + toZ (fst d))) (normal c m2) = true).
      { rewrite L2 by exact Hs. apply (ar_listed _ _ _ R2). eauto. }
      apply listed_int in K2; [|exact I2]. destruct K2 as (t & Ht' & Et). exists a, t. repeat split; auto. lia.
    + intros (a & s & Ha & Hs' & Hk).
      assert (K : listed (vint (toZ (fst s))) (normal c m2) = true) by (apply listed_int; eauto).
      rewrite L2, (ar_listed _ _ _ R2) in K by exact Hs. destruct K as (b & d & Hb & Hd & Hbd).
      assert (K2 : listed (vint (toZ (fst a) + toZ (fst b))) (normal c m1) = true).
      { rewrite L1 by exact Hs. apply (ar_listed _ _ _ R1). eauto. }
      apply listed_int in K2; [|exact I1]. destruct K2 as (t & Ht' & Et). exists t, d. repeat split; auto. lia.
Qed.

(** dice whose weights sum to at most the limit are closed under the operations *)
Lemma rv_conv_closed c f x y : cfg_trunc c = false -> nonneg x -> nonneg y ->
  total x <= SUM_LIMIT -> total y <= SUM_LIMIT ->
  (forall a b, In a (vals x) -> In b (vals y) -> exists v, f a b = Ok v) ->
  exists r, rv_conv c f x y = Ok r /\ nonneg (rv_dist r) /\ total (rv_dist r) <= SUM_LIMIT.
Proof.
  intros Ht Nx Ny Tx Ty H.
  destruct (fast_convolve_total f x y) as [m Hm].
  { intros a b Ha Hb. apply H; now apply in_map. }
  pose proof (fast_convolve_spec f x y m Hm) as R.
  assert (Nm : nonneg m) by (apply (cr_nonneg _ _ _ _ R); auto).
  rewrite (rv_conv_limit c f x y m Ht Nm Hm).
  pose proof (normal_canon c m Nm) as [[_ [_ Cp]] _].
  destruct (prob_limit_bounded (normal c m) Cp) as (d' & E & Td & Nd & _).
  - pose proof (normal_total_le c m Nm) as L. rewrite (conv_total _ _ _ _ R) in L.
    pose proof (mass_nonneg (fun _ => true) x Nx). pose proof (mass_nonneg (fun _ => true) y Ny).
    fold (total x) in *. fold (total y) in *.
    assert (total x * total y <= SUM_LIMIT * SUM_LIMIT) by nia.
    assert (SUM_LIMIT * SUM_LIMIT <= 2 ^ 1000) by (vm_compute; discriminate).
    assert (1 <= 2 ^ 1000) by (vm_compute; discriminate). lia.
  - rewrite E. exists (rv_of d'). repeat split; auto.
Qed.
