(** Rolls of any number of dice: they never fail, and their probabilities stay
    within a small distance of the exact ones. *)
From Coq Require Import List ZArith QArith Qabs Bool Permutation Sorted Lia Lqa.
From Verif Require Import PyBase Num Val Sorting RVModel UtilModel Obj RollModel Spec CmpFacts SortFacts MassFacts NumFacts RVFacts ConstructFacts ConvFacts IntFacts RoundFacts LimitFacts OpFacts UnaryFacts RollFacts.
Import ListNotations.
Open Scope Z_scope.

(** ** Distance between probabilities *)
Lemma wsum_inj_qsum {A} (f : A -> Z) (l : list (A * Z)) : (inject_Z (wsum f l) == qsum (fun a => inject_Z (f a)) l)%Q.
Proof.
  induction l as [|[a w] l IH]; [reflexivity|]. cbn [wsum qsum].
  rewrite inject_Z_plus, inject_Z_mult, IH. ring.
Qed.

Lemma qsum_close {A} (f g : A -> Q) (l : list (A * Z)) e : nonneg l ->
  (forall a w, In (a, w) l -> Qabs (f a - g a) <= e)%Q ->
  (Qabs (qsum f l - qsum g l) <= inject_Z (total l) * e)%Q.
Proof.
  unfold total. induction l as [|[a w] l IH]; intros N H.
  - cbn. discriminate.
  - cbn [qsum mass]. inversion N as [|? ? Hw N']; subst. cbn in Hw.
    specialize (IH N' (fun a w Hi => H a w (or_intror Hi))).
    setoid_replace (inject_Z w * f a + qsum f l - (inject_Z w * g a + qsum g l))%Q
      with (inject_Z w * (f a - g a) + (qsum f l - qsum g l))%Q by ring.
    eapply Qle_trans; [apply Qabs_triangle|]. rewrite inject_Z_plus, Qmult_plus_distr_l.
    apply Qplus_le_compat; [|exact IH].
    rewrite Qabs_Qmult. assert (W : (0 <= inject_Z w)%Q) by (change 0%Q with (inject_Z 0); rewrite <- Zle_Qle; lia).
    rewrite (Qabs_pos (inject_Z w)) by exact W. rewrite !(Qmult_comm (inject_Z w)).
    apply Qmult_le_compat_r; [|exact W]. apply (H a w). left. reflexivity.
Qed.

Lemma average_close {A} (f g : A -> Q) (l : list (A * Z)) e : proper l ->
  (forall a w, In (a, w) l -> Qabs (f a - g a) <= e)%Q ->
  (Qabs (average f l - average g l) <= e)%Q.
Proof.
  intros [N T] H. pose proof (inj_pos _ T) as T'. unfold average.
  setoid_replace (qsum f l / inject_Z (total l) - qsum g l / inject_Z (total l))%Q
    with ((qsum f l - qsum g l) * / inject_Z (total l))%Q by (field; lra).
  rewrite Qabs_Qmult. rewrite (Qabs_pos (/ _)) by (apply Qlt_le_weak, Qinv_lt_0_compat, T').
  apply Qle_shift_div_r; [exact T'|]. rewrite Qmult_comm. apply qsum_close; auto.
Qed.

Lemma qsum_ext {A} (f g : A -> Q) (l : list (A * Z)) : (forall a w, In (a, w) l -> f a == g a)%Q -> (qsum f l == qsum g l)%Q.
Proof.
  induction l as [|[a w] l IH]; intros H; [reflexivity|]. cbn [qsum].
  rewrite IH by (intros; eapply H; right; eauto). rewrite (H a w) by (left; reflexivity). reflexivity.
Qed.

(** probability that the sum of two independent integer results is [k] *)
Definition sum_pr (x y : dist) (k : Z) : Q :=
  (inject_Z (wsum (fun a => wsum (fun b => ind (toZ a + toZ b =? k)) y) x) / inject_Z (total x * total y))%Q.

Lemma sum_pr_comm x y k : (sum_pr x y k == sum_pr y x k)%Q.
Proof.
  unfold sum_pr. rewrite (Z.mul_comm (total x)).
  rewrite (wsum_swap (fun a b => ind (toZ a + toZ b =? k)) x y).
  erewrite (wsum_ext _ _ y); [reflexivity|]. intros b w _. cbn beta. apply wsum_ext. intros a w' _.
  rewrite Z.add_comm. reflexivity.
Qed.

Lemma sum_pr_average x y k : int_vals y -> proper x -> proper y ->
  (sum_pr x y k == average (fun a => Pr y (vint (k - toZ a))) x)%Q.
Proof.
  intros Iy [_ Tx] [_ Ty]. pose proof (inj_pos _ Tx) as Tx'. pose proof (inj_pos _ Ty) as Ty'.
  unfold sum_pr, average. rewrite wsum_inj_qsum.
  assert (E : (qsum (fun a => inject_Z (wsum (fun b => ind (toZ a + toZ b =? k)) y)) x ==
               inject_Z (total y) * qsum (fun a => Pr y (vint (k - toZ a))) x)%Q).
  { clear Tx Tx'. induction x as [|[a w] x IH]; [cbn; ring|]. cbn [qsum]. rewrite IH. unfold Pr at 2.
    rewrite wt_int by exact Iy.
    rewrite (wsum_ext (fun v => ind (toZ v =? k - toZ a)) (fun b => ind (toZ a + toZ b =? k)) y); [field; lra|].
    intros v w' _. cbn beta. f_equal. destruct (Z.eqb_spec (toZ v) (k - toZ a)), (Z.eqb_spec (toZ a + toZ v) k); auto; lia. }
  rewrite E, inject_Z_mult. field. lra.
Qed.

Definition near (x l : dist) (e : Q) : Prop := forall k, (Qabs (Pr x (vint k) - Pr l (vint k)) <= e)%Q.

Lemma Qabs_tri a b c e f : (Qabs (a - b) <= e -> Qabs (b - c) <= f -> Qabs (a - c) <= e + f)%Q.
Proof.
  intros H1 H2. setoid_replace (a - c)%Q with ((a - b) + (b - c))%Q by ring.
  eapply Qle_trans; [apply Qabs_triangle|]. now apply Qplus_le_compat.
Qed.

Lemma sum_near x y l l' e e' k : int_vals x -> int_vals y -> int_vals l -> int_vals l' ->
  proper x -> proper y -> proper l -> proper l' ->
  near x l e -> near y l' e' -> (Qabs (sum_pr x y k - sum_pr l l' k) <= e + e')%Q.
Proof.
  intros Ix Iy Il Il' Px Py Pl Pl' H H'.
  rewrite Qplus_comm. apply Qabs_tri with (sum_pr x l' k).
  - rewrite !sum_pr_average by auto. apply average_close; auto.
  - rewrite (sum_pr_comm x l'), (sum_pr_comm l l'). rewrite !sum_pr_average by auto. apply average_close; auto.
Qed.

(** ** Totals of dice *)
Lemma pos_total_wsum n d h :
  wsum (fun v => h (toZ v)) (dice_total (Z.of_nat n) d) = wsum (fun t => h (tsum t)) (tuples n d).
Proof.
  rewrite dice_total_wsum, Zabs2Nat.id. destruct n as [|n]; [reflexivity|].
  apply wsum_ext. intros t w _. rewrite Z.sgn_pos by lia. now rewrite Z.mul_1_l.
Qed.

Lemma dice_total_sum a b d k : (Pr (dice_total (Z.of_nat (a + b)) d) (vint k) ==
  sum_pr (dice_total (Z.of_nat a) d) (dice_total (Z.of_nat b) d) k)%Q.
Proof.
  unfold Pr, sum_pr. rewrite wt_int by apply dice_total_int. rewrite !dice_total_total.
  rewrite !Z.abs_eq by lia.
  replace (total d ^ Z.of_nat (a + b)) with (total d ^ Z.of_nat a * total d ^ Z.of_nat b)
    by (rewrite Nat2Z.inj_add, Z.pow_add_r by lia; reflexivity).
  rewrite (pos_total_wsum (a + b) d (fun z => ind (z =? k))), wsum_tuples_add.
  rewrite (pos_total_wsum a d (fun z => wsum (fun b => ind (z + toZ b =? k)) (dice_total (Z.of_nat b) d))).
  erewrite wsum_ext; [reflexivity|]. intros s w _. cbn beta.
  rewrite (pos_total_wsum b d (fun z => ind (tsum s + z =? k))).
  apply wsum_ext. intros t w' _. now rewrite tsum_app.
Qed.

(** ** Sizes *)
Definition within (lo hi : Z) (d : dist) : Prop := Forall (fun x => lo <= toZ (fst x) <= hi) d.

Lemma strict_int_length d lo hi : strict d -> int_vals d -> within lo hi d -> d <> [] ->
  Z.of_nat (length d) <= hi - lo + 1.
Proof.
  revert lo. induction d as [|[v p] d IH]; intros lo S I W N; [congruence|].
  inversion S as [|? ? S' Sv]; subst. inversion I as [|? ? I1 I2]; subst. inversion W as [|? ? W1 W2]; subst. cbn [fst] in I1, W1.
  destruct d as [|y d]; [cbn [length]; change (Z.of_nat 1) with 1; lia|].
  assert (W' : within (lo + 1) hi (y :: d)).
  { apply Forall_forall. intros z Hz. pose proof (proj1 (Forall_forall _ _) Sv z Hz) as L.
    pose proof (proj1 (Forall_forall _ _) W2 z Hz) as L2. cbn beta in L2.
    assert (Iz : v_is_int (fst z) = true) by (apply (proj1 (Forall_forall _ _) I2 z Hz)).
    unfold vlt in L. cbn [fst] in L. rewrite (is_int_vint _ I1), (is_int_vint _ Iz) in L.
    unfold vint in L. cbn [vcmp] in L. rewrite ncmp_Q in L. cbn [numQ] in L. rewrite inject_Z_compare in L.
    change (toZ v < toZ (fst z)) in L. lia. }
  specialize (IH (lo + 1) S' I2 W' ltac:(discriminate)). cbn [length] in *. lia.
Qed.

Record approx (n : nat) (lo hi : Z) (d x : dist) (e : Q) : Prop := {
  ap_near : near x (dice_total (Z.of_nat n) d) e;
  ap_proper : proper x;
  ap_int : int_vals x;
  ap_total : total x <= SUM_LIMIT;
  ap_within : within (Z.of_nat n * lo) (Z.of_nat n * hi) x
}.

Lemma within_listed lo hi d : int_vals d -> within lo hi d <-> (forall k, listed (vint k) d = true -> lo <= k <= hi).
Proof.
  intros I. split.
  - intros W k H. apply listed_int in H as [x [H E]]; auto. rewrite <- E. apply (proj1 (Forall_forall _ _) W x H).
  - intros H. apply Forall_forall. intros x Hx. apply H. apply listed_int; auto. eauto.
Qed.

Lemma add_approx c a b lo hi d x y e e' : cfg_trunc c = false -> proper d ->
  approx a lo hi d x e -> approx b lo hi d y e' ->
  (Z.of_nat (a + b)) * (hi - lo) + 1 <= 10 ^ 10 ->
  exists r, rv_op c OAdd x y = Ok r /\ approx (a + b) lo hi d (rv_dist r) (e + e' + (1 # 1000000000)).
Proof.
  intros Ht Pd [N1 P1 I1 T1 W1] [N2 P2 I2 T2 W2] Hsize.
  destruct (add_total x y I1 I2) as [m Hm]. pose proof (add_spec x y m I1 I2 Hm) as A.
  assert (Nm : nonneg m) by (apply (ar_nonneg _ _ _ A); [apply P1|apply P2]).
  assert (Tm : total m = total x * total y).
  { rewrite total_wsum, (ar_wsum _ _ _ A (fun _ => 1)), (total_wsum x), (total_wsum y).
    rewrite (Z.mul_comm (wsum _ x)), <- wsum_cmul. apply wsum_ext. intros; lia. }
  assert (Pm : proper m) by (split; auto; rewrite Tm; destruct P1, P2; nia).
  unfold rv_op. rewrite (rv_conv_limit c _ x y m Ht Nm Hm).
  pose proof (normal_proper c m Pm) as Pn. pose proof (normal_int c m (ar_int _ _ _ A)) as In_.
  pose proof (normal_canon c m Nm) as [[Cn [Cs Cp]] _].
  assert (Wm : within (Z.of_nat (a + b) * lo) (Z.of_nat (a + b) * hi) (normal c m)).
  { apply within_listed; auto. intros k Hk.
    assert (Lm : listed (vint k) m = true).
    { rewrite normal_listed in Hk; auto; [|apply proper_something; apply Pm].
      destruct (cfg_skip0 c); [|exact Hk]. destruct (listed (vint k) m) eqn:E; auto. exfalso.
      apply Z.ltb_lt in Hk. rewrite wt_strict_notin in Hk; [lia|]. intros z Hz. now apply listed_false with (d := m). }
    apply (ar_listed _ _ _ A) in Lm as (u & v & Hu & Hv & E).
    pose proof (proj1 (Forall_forall _ _) W1 u Hu). pose proof (proj1 (Forall_forall _ _) W2 v Hv). cbn beta in *. lia. }
  pose proof (strict_int_length _ _ _ Cs In_ Wm Cn) as Len.
  assert (Len' : Z.of_nat (length (normal c m)) <= 10 ^ 10) by lia.
  destruct (prob_limit_bounded (normal c m) Cp) as (d' & E & Td & Nd & Vd & Pd').
  { pose proof (normal_total_le c m Nm). rewrite Tm in H.
    assert (total x * total y <= SUM_LIMIT * SUM_LIMIT) by (destruct P1, P2; nia).
    assert (SUM_LIMIT * SUM_LIMIT <= 2 ^ 1000) by (vm_compute; discriminate).
    assert (1 <= 2 ^ 1000) by (vm_compute; discriminate). lia. }
  specialize (Pd' (proj2 Pn) Len').
  rewrite E. cbn [bind]. exists (rv_of d'). split; [reflexivity|]. cbn [rv_dist rv_of].
  assert (Fst : forall P : pval -> Prop, Forall (fun x => P (fst x)) (normal c m) -> Forall (fun x => P (fst x)) d').
  { intros P H. apply (Forall_map fst) in H. apply (Forall_map fst). change (map fst d') with (vals d'). rewrite Vd. exact H. }
  constructor; auto.
  - intros k. rewrite Qplus_comm.
    apply Qabs_tri with (Pr (normal c m) (vint k)); [apply (limit_error _ _ _ Cp Len' E)|].
    rewrite dice_total_sum, (normal_Pr c m (vint k) Pm).
    setoid_replace (Pr m (vint k)) with (sum_pr x y k).
    + apply sum_near; auto; try apply dice_total_int; now apply dice_total_proper.
    + unfold Pr, sum_pr. rewrite Tm, wt_int by apply A. now rewrite (ar_wsum _ _ _ A (fun z => ind (z =? k))).
  - split; auto.
  - apply (Fst (fun v => v_is_int v = true)). exact In_.
  - apply (Fst (fun v => Z.of_nat (a + b) * lo <= toZ v <= Z.of_nat (a + b) * hi)). exact Wm.
Qed.

Lemma tuples_one_law d k : int_vals d -> (Pr d (vint k) == Pr (dice_total 1 d) (vint k))%Q.
Proof.
  intro I. unfold Pr. rewrite !wt_int by (auto; apply dice_total_int). rewrite dice_total_total.
  change (Z.abs 1) with 1. rewrite Z.pow_1_r.
  rewrite (pos_total_wsum 1 d (fun z => ind (z =? k)) : wsum _ (dice_total 1 d) = _).
  rewrite wsum_tuples_S. rewrite (wsum_ext (fun a => wsum (fun t => ind (tsum (a :: t) =? k)) (tuples 0 d)) (fun a => ind (toZ a =? k)) d); [reflexivity|].
  intros a w _. cbn [tuples wsum]. rewrite tsum_one. lia.
Qed.

Lemma near_weaken x l e e' : (e <= e')%Q -> near x l e -> near x l e'.
Proof. intros H N k. eapply Qle_trans; [apply N|exact H]. Qed.

Lemma approx_weaken n n' lo hi d x e e' : n = n' -> (e == e')%Q -> approx n lo hi d x e -> approx n' lo hi d x e'.
Proof. intros -> H [A B C D E]. constructor; auto. eapply near_weaken; [|exact A]. rewrite H. apply Qle_refl. Qed.

Definition roll_eps (p : positive) : Q := (inject_Z (Zpos p - 1) * (1 # 1000000000))%Q.

Lemma approx_one lo hi d : proper d -> int_vals d -> total d <= SUM_LIMIT -> within lo hi d -> approx 1 lo hi d d 0.
Proof.
  intros P I T W. constructor; auto.
  - intros k. rewrite tuples_one_law by auto. change (Z.of_nat 1) with 1.
    setoid_replace (Pr (dice_total 1 d) (vint k) - Pr (dice_total 1 d) (vint k))%Q with 0%Q by ring. discriminate.
  - now rewrite !Z.mul_1_l.
Qed.

Lemma roll_pure_approx c p d lo hi : cfg_trunc c = false -> proper (rv_dist d) -> int_vals (rv_dist d) ->
  total (rv_dist d) <= SUM_LIMIT -> within lo hi (rv_dist d) -> Zpos p * (hi - lo) + 1 <= 10 ^ 10 -> lo <= hi ->
  exists r, roll_pure c p d = Ok r /\ approx (Pos.to_nat p) lo hi (rv_dist d) (rv_dist r) (roll_eps p).
Proof.
  intros Ht Pd Id Td Wd Hs Hl. pose proof (approx_one lo hi _ Pd Id Td Wd) as A1.
  induction p as [p IH|p IH|]; cbn [roll_pure].
  - destruct IH as [r [E A]]; [nia|]. rewrite E. cbn [bind].
    destruct (add_approx c _ _ lo hi _ _ _ _ _ Ht Pd A A) as (r1 & E1 & B1); [nia|]. rewrite E1. cbn [bind].
    destruct (add_approx c _ _ lo hi _ _ _ _ _ Ht Pd B1 A1) as (r2 & E2 & B2); [nia|]. rewrite E2. cbn [bind].
    eexists. split; [reflexivity|]. cbn [rv_dist set_source]. eapply approx_weaken; [| |exact B2]; [lia|].
    unfold roll_eps. replace (Z.pos p~1 - 1) with ((Zpos p - 1) + (Zpos p - 1) + 2) by lia. rewrite !inject_Z_plus. ring.
  - destruct IH as [r [E A]]; [nia|]. rewrite E. cbn [bind].
    destruct (add_approx c _ _ lo hi _ _ _ _ _ Ht Pd A A) as (r1 & E1 & B1); [nia|]. rewrite E1. cbn [bind].
    eexists. split; [reflexivity|]. cbn [rv_dist set_source]. eapply approx_weaken; [| |exact B1]; [lia|].
    unfold roll_eps. replace (Z.pos p~0 - 1) with ((Zpos p - 1) + (Zpos p - 1) + 1) by lia. rewrite !inject_Z_plus. ring.
  - exists d. split; [reflexivity|]. eapply approx_weaken; [| |exact A1]; reflexivity.
Qed.

(** ** Any number of dice *)
Lemma dice_total_opp n d k : (Pr (dice_total (- n) d) (vint k) == Pr (dice_total n d) (vint (- k)))%Q.
Proof.
  unfold Pr. rewrite !dice_total_total, Z.abs_opp. rewrite !wt_int by apply dice_total_int.
  rewrite (dice_total_wsum (- n) d (fun z => ind (z =? k))), (dice_total_wsum n d (fun z => ind (z =? - k))).
  replace (Z.abs_nat (- n)) with (Z.abs_nat n) by lia.
  erewrite wsum_ext; [reflexivity|]. intros t w _. cbn beta. f_equal. rewrite Z.sgn_opp.
  destruct (Z.eqb_spec (- Z.sgn n * tsum t) k), (Z.eqb_spec (Z.sgn n * tsum t) (- k)); auto; lia.
Qed.

Lemma roll_int_pure_near c n d lo hi : cfg_trunc c = false -> proper (rv_dist d) -> int_vals (rv_dist d) ->
  total (rv_dist d) <= SUM_LIMIT -> within lo hi (rv_dist d) -> Z.abs n * (hi - lo) + 1 <= 10 ^ 10 ->
  exists r, roll_int_pure c n d = Ok r /\ proper (rv_dist r) /\ int_vals (rv_dist r) /\ total (rv_dist r) <= SUM_LIMIT /\
    near (rv_dist r) (dice_total n (rv_dist d)) (inject_Z (Z.abs n) * (1 # 1000000000)).
Proof.
  intros Ht Pd Id Td Wd Hs.
  assert (Hl : lo <= hi).
  { destruct (rv_dist d) as [|x l]; [destruct Pd as [_ T]; discriminate|]. inversion Wd; subst; lia. }
  assert (Eps : forall p, (roll_eps p <= inject_Z (Z.pos p) * (1 # 1000000000))%Q).
  { intro p. unfold roll_eps. apply Qmult_le_compat_r; [rewrite <- Zle_Qle; lia|discriminate]. }
  destruct n as [|p|p]; cbn [roll_int_pure].
  - rewrite from_const_int by auto. eexists. split; [reflexivity|]. cbn [rv_dist rv_of].
    split; [split; [repeat constructor; discriminate|reflexivity]|]. split; [repeat constructor|].
    split; [discriminate|]. intros k. change (dice_total 0 (rv_dist d)) with [(vint 0, 1)].
    unfold Qminus. rewrite Qplus_opp_r. discriminate.
  - destruct (roll_pure_approx c p d lo hi) as (r & E & [A1 A2 A3 A4 A5]); auto; try lia.
    exists r. repeat split; auto; try apply A2. rewrite positive_nat_Z in A1. eapply near_weaken; [apply Eps|exact A1].
  - destruct (roll_pure_approx c p d lo hi) as (r & E & [A1 A2 A3 A4 A5]); auto; try lia. rewrite E. cbn [bind].
    assert (Pi : proper (image (fun v => vint (- toZ v)) (rv_dist r))) by now apply proper_image.
    pose proof (neg_succeeds c (rv_dist r) Ht (proj1 A2) A3) as En.
    destruct (neg_law c (rv_dist r) _ Ht A2 A3 En) as [Ln Pn].
    rewrite En. eexists. split; [reflexivity|]. split; [cbn [rv_dist rv_of]; now apply normal_proper|]. split; [exact Ln|].
    split.
    + cbn [rv_dist rv_of]. pose proof (normal_total_le c _ (proj1 Pi)) as L. rewrite total_image in L.
      assert (1 <= SUM_LIMIT) by discriminate. lia.
    + intros k. rewrite Pn. change (Z.neg p) with (- Z.pos p). rewrite dice_total_opp, Z.abs_opp.
      rewrite positive_nat_Z in A1. eapply Qle_trans; [apply A1|]. apply Eps.
Qed.
