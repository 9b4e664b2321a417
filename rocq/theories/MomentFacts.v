(** Means and variances of sums, products and rolls. *)
From Coq Require Import String List ZArith QArith Qabs Bool Permutation Sorted Lia Lqa.
From Verif Require Import PyBase Num Val Sorting RVModel Obj RollModel RollSpec Spec CmpFacts SortFacts NumFacts MassFacts RVFacts ConstructFacts IntFacts LimitFacts OpFacts ConvFacts UnaryFacts MixFacts RollFacts RollObjFacts GwfFacts RoundFacts PrintSpec StdFacts.
Import ListNotations.
Open Scope Z_scope.

Definition sq (v : pval) : Z := toZ v * toZ v.

Lemma variance_wsum x : 0 < total x ->
  (variance x == inject_Z (wsum sq x) / inject_Z (total x) - expectation x * expectation x)%Q.
Proof. intros T. rewrite variance_squares, mean_square_wsum by exact T. reflexivity. Qed.

(** [a] stands for [b] up to a factor *)
Definition stands_up (a b : dist) : Prop :=
  exists g, 0 < g /\ forall h, wsum (fun v => h (toZ v)) b = g * wsum (fun v => h (toZ v)) a.

Lemma stands_moments a b : 0 < total b -> stands_up a b ->
  0 < total a /\ (expectation a == expectation b)%Q /\ (variance a == variance b)%Q.
Proof.
  intros T (g & G & H).
  assert (T1 : total b = g * total a) by (rewrite !total_wsum; exact (H (fun _ => 1))).
  assert (S1 : wsum toZ b = g * wsum toZ a) by exact (H (fun z => z)).
  assert (Q1 : wsum sq b = g * wsum sq a) by exact (H (fun z => z * z)).
  assert (TA : 0 < total a) by nia.
  assert (E : (expectation a == expectation b)%Q).
  { unfold expectation. apply frac_eq; [lia|lia|]. rewrite T1, S1. ring. }
  split; [exact TA|]. split; [exact E|]. rewrite !variance_wsum, E by assumption. apply Qplus_comp; [|reflexivity].
  apply frac_eq; [lia|lia|]. rewrite T1, Q1. ring.
Qed.

(** ** Operators with integer results *)
Definition int_op (op : binop) (f : Z -> Z -> Z) : Prop :=
  forall a b, v_is_int a = true -> v_is_int b = true -> vop op a b = Ok (vint (f (toZ a) (toZ b))).

Lemma int_add : int_op OAdd Z.add.
Proof. intros a b A B. rewrite (is_int_vint a A), (is_int_vint b B). reflexivity. Qed.
Lemma int_sub : int_op OSub Z.sub.
Proof. intros a b A B. rewrite (is_int_vint a A), (is_int_vint b B). reflexivity. Qed.
Lemma int_mul : int_op OMul Z.mul.
Proof. intros a b A B. rewrite (is_int_vint a A), (is_int_vint b B). reflexivity. Qed.

Definition outcomes (f : Z -> Z -> Z) (x y : dist) : dist :=
  image (fun ab => vint (f (toZ (fst ab)) (toZ (snd ab)))) (indep x y).

Lemma int_op_scaled c op f x y r : int_op op f -> cfg_trunc c = false -> proper x -> proper y -> int_vals x -> int_vals y ->
  total x * total y <= SUM_LIMIT -> rv_op c op x y = Ok r -> stands_up (rv_dist r) (outcomes f x y).
Proof.
  intros F Ht [Hx Tx] [Hy Ty] Ix Iy HL H.
  assert (MX : forall a p, In (a, p) x -> v_is_int a = true) by (intros a p I; exact (proj1 (Forall_forall _ _) Ix _ I)).
  assert (MY : forall a p, In (a, p) y -> v_is_int a = true) by (intros a p I; exact (proj1 (Forall_forall _ _) Iy _ I)).
  destruct (fast_convolve_total (vop op) x y) as [m E].
  { intros [a p] [b q] Ha Hb. cbn [fst]. rewrite F by eauto. eauto. }
  unfold rv_op in H. rewrite (rv_conv_below c (vop op) x y m Ht Hx Hy HL E) in H. injection H as <-. cbn [rv_of rv_dist].
  pose proof (fast_convolve_spec _ _ _ _ E) as R. pose proof (conv_total _ _ _ _ R) as TM.
  pose proof (cr_nonneg _ _ _ _ R Hx Hy) as Nm.
  assert (Im : int_vals m).
  { eapply (conv_keys (fun v => v_is_int v = true)); [exact E|]. intros [a p] [b q] v Ha Hb Hv. cbn [fst] in Hv.
    rewrite F in Hv by eauto. injection Hv as <-. reflexivity. }
  destruct (normal_wsum c m Im (proper_something c m Nm ltac:(rewrite TM; nia))) as (g & G & HW).
  exists g. split; [exact G|]. intro h. rewrite <- HW. unfold outcomes. rewrite wsum_image.
  rewrite <- (wsum_toI h m) by exact Im. rewrite (cr_wsum _ _ _ _ R _ (vrespf_toI h)).
  apply wsum_ext. intros [a b] w Hin. apply in_indep in Hin as (p & q & Ha & Hb & _).
  unfold okF, uncur. cbn [fst snd]. rewrite F by eauto. rewrite toI_int. reflexivity.
Qed.

Lemma outcomes_total f x y : total (outcomes f x y) = total x * total y.
Proof. unfold outcomes. now rewrite total_image, total_indep. Qed.
Lemma outcomes_wsum f x y h : wsum (fun v => h (toZ v)) (outcomes f x y) = wsum (fun a => wsum (fun b => h (f (toZ a) (toZ b))) y) x.
Proof. unfold outcomes. rewrite wsum_image, wsum_indep. reflexivity. Qed.

Lemma wsum_times {A B} (f : A -> Z) (g : B -> Z) x y : wsum (fun a => wsum (fun b => f a * g b) y) x = wsum f x * wsum g y.
Proof.
  rewrite (wsum_ext _ (fun a => wsum g y * f a)) by (intros; rewrite wsum_cmul; ring). rewrite wsum_cmul. ring.
Qed.

(** sums of a*p(x) + b*q(y) + ... over pairs *)
Lemma linear_sums s x y : wsum (fun a => wsum (fun b => toZ a + s * toZ b) y) x = wsum toZ x * total y + s * (total x * wsum toZ y).
Proof.
  rewrite (wsum_ext _ (fun a => total y * toZ a + s * wsum toZ y)).
  - rewrite wsum_plus, wsum_cmul, wsum_const. ring.
  - intros a w _. rewrite wsum_plus, wsum_const, wsum_cmul. ring.
Qed.
Lemma square_sums s x y : s * s = 1 ->
  wsum (fun a => wsum (fun b => (toZ a + s * toZ b) * (toZ a + s * toZ b)) y) x =
  wsum sq x * total y + 2 * s * (wsum toZ x * wsum toZ y) + total x * wsum sq y.
Proof.
  intros S.
  rewrite (wsum_ext _ (fun a => (total y * sq a + (2 * s * wsum toZ y) * toZ a) + wsum sq y)).
  - rewrite !wsum_plus, !wsum_cmul, wsum_const. ring.
  - intros a w _. rewrite (wsum_ext _ (fun b => (sq a + (2 * s * toZ a) * toZ b) + sq b)).
    + rewrite !wsum_plus, wsum_const, wsum_cmul. ring.
    + intros b v _. unfold sq. replace (toZ b * toZ b) with (s * s * (toZ b * toZ b)) by (rewrite S; ring). ring.
Qed.

Lemma plus_minus c op s x y r : op = OAdd /\ s = 1 \/ op = OSub /\ s = -1 ->
  cfg_trunc c = false -> proper x -> proper y -> int_vals x -> int_vals y ->
  total x * total y <= SUM_LIMIT -> rv_op c op x y = Ok r ->
  (expectation (rv_dist r) == expectation x + inject_Z s * expectation y)%Q /\
  (variance (rv_dist r) == variance x + variance y)%Q.
Proof.
  intros O Ht Px Py Ix Iy HL H.
  assert (SS : s * s = 1) by (destruct O as [[_ ->]|[_ ->]]; reflexivity).
  assert (F : int_op op (fun a b => a + s * b)).
  { destruct O as [[-> ->]|[-> ->]]; intros a b A B.
    - rewrite int_add by assumption. now rewrite Z.mul_1_l.
    - rewrite int_sub by assumption. do 2 f_equal; lia. }
  pose proof (int_op_scaled c op _ x y r F Ht Px Py Ix Iy HL H) as S.
  destruct Px as [_ Tx], Py as [_ Ty].
  assert (TO : 0 < total (outcomes (fun a b => a + s * b) x y)) by (rewrite outcomes_total; nia).
  destruct (stands_moments _ _ TO S) as (_ & E & V). rewrite E, V.
  rewrite !variance_wsum by (rewrite ?outcomes_total; nia).
  unfold expectation. rewrite outcomes_total.
  rewrite (outcomes_wsum _ x y (fun z => z)) by idtac.
  replace (wsum sq (outcomes (fun a b => a + s * b) x y)) with
    (wsum sq x * total y + 2 * s * (wsum toZ x * wsum toZ y) + total x * wsum sq y)
    by (rewrite <- (square_sums s x y SS); symmetry; exact (outcomes_wsum _ x y (fun z => z * z))).
  rewrite linear_sums. rewrite !inject_Z_plus, !inject_Z_mult.
  assert (NX : ~ (inject_Z (total x) == 0)%Q) by (apply inject_Z_nonzero; lia).
  assert (NY : ~ (inject_Z (total y) == 0)%Q) by (apply inject_Z_nonzero; lia).
  assert (SQ : (inject_Z s * inject_Z s == 1)%Q) by (rewrite <- inject_Z_mult, SS; reflexivity).
  change (inject_Z 2) with 2%Q.
  set (X := inject_Z (wsum toZ x)). set (Y := inject_Z (wsum toZ y)). set (A := inject_Z (wsum sq x)). set (B := inject_Z (wsum sq y)).
  set (t := inject_Z (total x)) in *. set (u := inject_Z (total y)) in *. set (z := inject_Z s) in *.
  split; [field; auto|].
  transitivity (A / t + B / u - X / t * (X / t) - (z * z) * (Y / u * (Y / u)))%Q; [field; auto|]. rewrite SQ. ring.
Qed.

Lemma product_mean c x y r :
  cfg_trunc c = false -> proper x -> proper y -> int_vals x -> int_vals y ->
  total x * total y <= SUM_LIMIT -> rv_op c OMul x y = Ok r ->
  (expectation (rv_dist r) == expectation x * expectation y)%Q.
Proof.
  intros Ht Px Py Ix Iy HL H. pose proof (int_op_scaled c OMul _ x y r int_mul Ht Px Py Ix Iy HL H) as S.
  destruct Px as [_ Tx], Py as [_ Ty].
  assert (TO : 0 < total (outcomes Z.mul x y)) by (rewrite outcomes_total; nia).
  destruct (stands_moments _ _ TO S) as (_ & E & _). rewrite E.
  unfold expectation. rewrite outcomes_total, (outcomes_wsum _ x y (fun z => z)), (wsum_times toZ toZ), !inject_Z_mult.
  field. split; apply inject_Z_nonzero; lia.
Qed.

(** ** Rolls *)
Lemma tuples_mean n (d : dist) : wsum tsum (tuples n d) * total d = Z.of_nat n * wsum toZ d * total d ^ Z.of_nat n.
Proof.
  induction n as [|n IH]; [reflexivity|].
  assert (E : wsum tsum (tuples (S n) d) = wsum toZ d * total d ^ Z.of_nat n + total d * wsum tsum (tuples n d)).
  { rewrite wsum_tuples_S. rewrite (wsum_ext _ (fun a => total d ^ Z.of_nat n * toZ a + wsum tsum (tuples n d))).
    - rewrite wsum_plus, wsum_cmul, wsum_const. ring.
    - intros a w _. change (fun t => tsum (a :: t)) with (fun t => toZ a + tsum t).
      rewrite wsum_plus, wsum_const, total_tuples. ring. }
  rewrite E. rewrite Nat2Z.inj_succ, Z.pow_succ_r by lia.
  replace ((wsum toZ d * total d ^ Z.of_nat n + total d * wsum tsum (tuples n d)) * total d) with
    (wsum toZ d * total d ^ Z.of_nat n * total d + total d * (wsum tsum (tuples n d) * total d)) by ring.
  rewrite IH. unfold Z.succ. ring.
Qed.

Lemma tuples_squares n (d : dist) :
  wsum (fun t => tsum t * tsum t) (tuples n d) * (total d * total d) =
  (Z.of_nat n * wsum sq d * total d + Z.of_nat n * (Z.of_nat n - 1) * (wsum toZ d * wsum toZ d)) * total d ^ Z.of_nat n.
Proof.
  induction n as [|n IH]; [reflexivity|].
  set (W1 := wsum tsum (tuples n d)). set (W2 := wsum (fun t => tsum t * tsum t) (tuples n d)) in *.
  assert (E : wsum (fun t => tsum t * tsum t) (tuples (S n) d) =
              wsum sq d * total d ^ Z.of_nat n + 2 * wsum toZ d * W1 + total d * W2).
  { rewrite wsum_tuples_S.
    rewrite (wsum_ext _ (fun a => (total d ^ Z.of_nat n * sq a + (2 * W1) * toZ a) + W2)).
    - rewrite !wsum_plus, !wsum_cmul, wsum_const. ring.
    - intros a w _. change (fun t => tsum (a :: t) * tsum (a :: t)) with (fun t => (toZ a + tsum t) * (toZ a + tsum t)).
      rewrite (wsum_ext _ (fun t => (sq a + (2 * toZ a) * tsum t) + tsum t * tsum t)) by (intros; unfold sq; ring).
      rewrite !wsum_plus, wsum_const, wsum_cmul, total_tuples. fold W1 W2. ring. }
  rewrite E. rewrite Nat2Z.inj_succ, Z.pow_succ_r by lia.
  transitivity (wsum sq d * total d ^ Z.of_nat n * (total d * total d) + 2 * wsum toZ d * total d * (W1 * total d) + total d * (W2 * (total d * total d))); [ring|].
  rewrite IH. unfold W1. rewrite tuples_mean. unfold Z.succ. ring.
Qed.

Lemma dice_total_moments n d : 0 < total d ->
  (expectation (dice_total n d) == inject_Z n * expectation d)%Q /\
  (variance (dice_total n d) == inject_Z (Z.abs n) * variance d)%Q.
Proof.
  intros T. set (k := Z.abs_nat n). assert (K : Z.of_nat k = Z.abs n) by (unfold k; lia).
  assert (TT : total (dice_total n d) = total d ^ Z.of_nat k) by (rewrite dice_total_total, K; reflexivity).
  assert (TP : 0 < total d ^ Z.of_nat k) by (apply Z.pow_pos_nonneg; lia).
  assert (E : (expectation (dice_total n d) == inject_Z n * expectation d)%Q).
  { unfold expectation. rewrite TT. pose proof (dice_total_wsum n d (fun z => z)) as W. cbv beta in W. fold k in W.
    change (wsum (fun v => toZ v) (dice_total n d)) with (wsum toZ (dice_total n d)) in W. rewrite W, wsum_cmul.
    pose proof (tuples_mean k d) as M. change (wsum (fun a => tsum a) (tuples k d)) with (wsum tsum (tuples k d)).
    apply (Qmult_inj_r _ _ (inject_Z (total d ^ Z.of_nat k) * inject_Z (total d))%Q).
    { intro Z0. apply (inject_Z_nonzero (total d ^ Z.of_nat k * total d)); [nia|]. now rewrite inject_Z_mult. }
    transitivity (inject_Z (Z.sgn n * (wsum tsum (tuples k d) * total d))).
    - rewrite !inject_Z_mult. field. apply inject_Z_nonzero; lia.
    - rewrite M. transitivity (inject_Z (n * wsum toZ d * total d ^ Z.of_nat k)).
      + apply inject_Z_injective. rewrite K. clear. destruct n as [|p|p]; cbn [Z.sgn Z.abs]; try ring. change (Z.neg p) with (- Z.pos p). ring.
      + rewrite !inject_Z_mult. field. apply inject_Z_nonzero; lia. }
  split; [exact E|]. rewrite !variance_wsum, E by (rewrite ?TT; lia). rewrite TT.
  assert (W : wsum sq (dice_total n d) = Z.sgn n * Z.sgn n * wsum (fun t => tsum t * tsum t) (tuples k d)).
  { rewrite <- wsum_cmul. etransitivity; [exact (dice_total_wsum n d (fun z => z * z))|]. apply wsum_ext. intros. ring. }
  rewrite W. pose proof (tuples_squares k d) as M.
  assert (W' : (inject_Z (Z.sgn n * Z.sgn n * wsum (fun t => tsum t * tsum t)%Z (tuples k d)) / inject_Z (total d ^ Z.of_nat k) ==
    (inject_Z (Z.abs n) * inject_Z (wsum sq d) * inject_Z (total d) + inject_Z (n * n - Z.abs n) * (inject_Z (wsum toZ d) * inject_Z (wsum toZ d)))
      / (inject_Z (total d) * inject_Z (total d)))%Q).
  { rewrite <- !inject_Z_mult, <- inject_Z_plus. apply frac_eq; [lia|nia|].
    transitivity (Z.sgn n * Z.sgn n * (wsum (fun t => tsum t * tsum t) (tuples k d) * (total d * total d))); [ring|].
    rewrite M, K. clear. destruct n as [|p|p]; cbn [Z.sgn Z.abs]; try ring. change (Z.neg p) with (- Z.pos p). ring. }
  rewrite W'. unfold expectation.
  assert (NT : ~ (inject_Z (total d) == 0)%Q) by (apply inject_Z_nonzero; lia).
  unfold Z.sub. rewrite inject_Z_plus, inject_Z_opp, inject_Z_mult. field. exact NT.
Qed.

Lemma roll_moments c calls n x : Forall int_call calls -> cfg_trunc c = false ->
  proper (rv_dist x) -> int_vals (rv_dist x) -> total (rv_dist x) ^ Z.abs n <= SUM_LIMIT ->
  exists r, roll_after c calls (oint n) (Some (ORV x)) = Ok (ORV r) /\
    (expectation (rv_dist r) == inject_Z n * expectation (rv_dist x))%Q /\
    (variance (rv_dist r) == inject_Z (Z.abs n) * variance (rv_dist x))%Q.
Proof.
  intros H Ht P I L. destruct (roll_int_pure_law c n x Ht P I L) as (r & E & R).
  exists r. rewrite roll_rv_fresh, E by auto. split; [reflexivity|].
  destruct (rl_stands _ _ _ _ R) as (g & G & W & _).
  destruct (stands_moments (rv_dist r) (dice_total n (rv_dist x))) as (_ & E1 & V1).
  { apply dice_total_proper. exact P. }
  { exists g. split; [exact G|exact W]. }
  rewrite E1, V1. apply dice_total_moments. apply P.
Qed.

(** ** Numbers beside dice *)
Lemma image_scaled c (g : Z -> Z) x : proper x -> int_vals x ->
  stands_up (normal c (image (fun v => vint (g (toZ v))) x)) (image (fun v => vint (g (toZ v))) x).
Proof.
  intros P I. pose proof (proper_image (fun v => vint (g (toZ v))) x P) as [N T].
  exact (normal_wsum c _ (image_int g x) (proper_something c _ N T)).
Qed.

Lemma affine_moments c a b x r : proper x -> int_vals x -> r = rv_of (normal c (image (fun v => vint (toZ v * a + b)) x)) ->
  (variance (rv_dist r) == inject_Z (a * a) * variance x)%Q.
Proof.
  intros P I ->. cbn [rv_of rv_dist]. destruct P as [N T].
  assert (TO : 0 < total (image (fun v => vint (toZ v * a + b)) x)) by (rewrite total_image; exact T).
  destruct (stands_moments _ _ TO (image_scaled c (fun z => z * a + b) x (conj N T) I)) as (_ & _ & V).
  rewrite V. rewrite !variance_wsum by (rewrite ?total_image; exact T).
  unfold expectation. rewrite total_image, !wsum_image.
  assert (E : wsum (fun v => toZ (vint (toZ v * a + b))) x = a * wsum toZ x + b * total x).
  { rewrite (wsum_ext _ (fun v => a * toZ v + b)) by (intros; unfold vint; cbn [toZ]; ring). rewrite wsum_plus, wsum_cmul, wsum_const. reflexivity. }
  assert (F : wsum (fun v => sq (vint (toZ v * a + b))) x = a * a * wsum sq x + 2 * a * b * wsum toZ x + b * b * total x).
  { rewrite (wsum_ext _ (fun v => (a * a * sq v + (2 * a * b) * toZ v) + b * b)) by (intros; unfold sq, vint; cbn [toZ]; ring).
    rewrite !wsum_plus, !wsum_cmul, wsum_const. ring. }
  rewrite E, F, !inject_Z_plus, !inject_Z_mult. change (inject_Z 2) with 2%Q. field. apply inject_Z_nonzero. lia.
Qed.

Lemma constant_variances c k x r : cfg_trunc c = false -> proper x -> int_vals x ->
  (rv_op_const c OMul x (vint k) = Ok r -> (variance (rv_dist r) == inject_Z (k * k) * variance x)%Q) /\
  (rv_op_const c OAdd x (vint k) = Ok r -> (variance (rv_dist r) == variance x)%Q) /\
  (rv_neg c x = Ok r -> (variance (rv_dist r) == variance x)%Q).
Proof.
  intros Ht P I. split; [|split]; intro H.
  - unfold rv_op_const in H. rewrite (rv_map_int c _ (fun z => z * k + 0) x Ht (proj1 P) I) in H.
    + injection H as <-. now apply (affine_moments c k 0).
    + intros v V. rewrite vop_scal_int by exact V. do 2 f_equal; lia.
  - unfold rv_op_const in H. rewrite (rv_map_int c _ (fun z => z * 1 + k) x Ht (proj1 P) I) in H.
    + injection H as <-. rewrite (affine_moments c 1 k x) by auto. change (inject_Z (1 * 1)) with 1%Q. ring.
    + intros v V. rewrite vop_shift_int by exact V. do 2 f_equal; lia.
  - rewrite neg_succeeds in H by (auto; apply P). injection H as <-.
    rewrite (affine_moments c (-1) 0 x); [change (inject_Z (-1 * -1)) with 1%Q; ring|exact P|exact I|].
    f_equal. f_equal. unfold image. apply map_ext. intros [v w]. cbn [fst snd]. do 2 f_equal; f_equal; lia.
Qed.

(** ** A random number of dice *)
Lemma wsum_scaled h PROD wd : wsum h (scaled PROD wd) = fst wd * (PROD / total (snd wd)) * wsum h (snd wd).
Proof.
  unfold scaled. set (q := PROD / total (snd wd)). clearbody q.
  induction (snd wd) as [|[v p] d IH]; cbn [map wsum fst snd]; [lia|]. rewrite IH. ring.
Qed.

Fixpoint mix_sum (h : pval -> Z) (cs : list (Z * dist)) : Q :=
  match cs with
  | [] => 0
  | (w, d) :: cs' => inject_Z w * (inject_Z (wsum h d) / inject_Z (total d)) + mix_sum h cs'
  end.

Lemma wsum_mixture h PROD cs : (forall wd, In wd cs -> (total (snd wd) | PROD)) -> Forall good cs ->
  (inject_Z (wsum h (concat (map (scaled PROD) cs))) == inject_Z PROD * mix_sum h cs)%Q.
Proof.
  induction cs as [|[w d] cs IH]; intros HD HG; [cbn; ring|].
  cbn [map concat mix_sum]. rewrite wsum_app, inject_Z_plus, IH; [|intros; apply HD; right; assumption|inversion HG; assumption].
  inversion HG as [|? ? (G1 & G2 & G3) _]; subst. cbn [fst snd] in *. rewrite wsum_scaled. cbn [fst snd].
  destruct (HD (w, d) (or_introl eq_refl)) as [q Eq]. cbn [snd] in Eq. subst PROD.
  rewrite Z.div_mul by lia. rewrite !inject_Z_mult. field. apply inject_Z_nonzero. lia.
Qed.

Lemma mix_list_moments c cs : Forall good cs -> Forall (fun wd => int_vals (snd wd)) cs -> 0 < wtotal cs ->
  (expectation (normal c (mix_list cs)) == mix_sum toZ cs / inject_Z (wtotal cs))%Q /\
  (variance (normal c (mix_list cs)) == mix_sum sq cs / inject_Z (wtotal cs)
     - (mix_sum toZ cs / inject_Z (wtotal cs)) * (mix_sum toZ cs / inject_Z (wtotal cs)))%Q.
Proof.
  intros G I W. destruct (mix_list_spec cs G) as (_ & T & P). destruct (P W) as [[N TP] _].
  assert (IM : int_vals (mix_list cs)).
  { unfold int_vals, mix_list, scaled. apply Forall_concat. apply Forall_map. eapply Forall_impl; [|exact I].
    intros wd H. apply Forall_map. eapply Forall_impl; [|exact H]. auto. }
  pose proof (denominators_pos cs G) as D.
  destruct (stands_moments _ _ TP (normal_wsum c _ IM (proper_something c _ N TP))) as (_ & E & V).
  assert (S : forall h, (inject_Z (wsum h (mix_list cs)) / inject_Z (total (mix_list cs)) == mix_sum h cs / inject_Z (wtotal cs))%Q).
  { intro h. rewrite T. unfold mix_list. rewrite wsum_mixture; auto using denominators_divide. rewrite inject_Z_mult. field.
    split; apply inject_Z_nonzero; lia. }
  rewrite E, V, variance_wsum by exact TP. unfold expectation. rewrite !S. split; reflexivity.
Qed.

Lemma mix_sum_dies c D N dies h (f : Z -> Q) : proper D ->
  (forall n x, roll_law c n D x -> (inject_Z (wsum h x) / inject_Z (total x) == f n)%Q) ->
  Forall2 (fun n r => roll_law c n D (rv_dist r)) (map toZ (vals N)) dies ->
  (mix_sum h (combine (probs N) (map rv_dist dies)) == qsum (fun n => f (toZ n)) N)%Q.
Proof.
  intros P F. revert dies. induction N as [|[n w] N IH]; intros dies H; inversion H as [|? ? ? ? L H']; subst; [reflexivity|].
  cbn [probs map combine mix_sum qsum snd]. fold (probs N). rewrite (IH _ H'). rewrite (F _ _ L). reflexivity.
Qed.

Lemma roll_law_moments c n D x : proper D -> roll_law c n D x ->
  (inject_Z (wsum toZ x) / inject_Z (total x) == inject_Z n * expectation D)%Q /\
  (inject_Z (wsum sq x) / inject_Z (total x) == inject_Z (Z.abs n) * variance D + inject_Z n * inject_Z n * (expectation D * expectation D))%Q.
Proof.
  intros P R. destruct (rl_stands _ _ _ _ R) as (g & G & W & _).
  destruct (stands_moments x (dice_total n D)) as (T & E & V).
  { apply dice_total_proper. exact P. }
  { exists g. split; [exact G|exact W]. }
  destruct (dice_total_moments n D (proj2 P)) as [E1 V1]. rewrite E1 in E. rewrite V1 in V.
  split; [exact E|]. rewrite variance_wsum, E in V by exact T.
  assert (A : forall a b q : Q, (a - q == b -> a == b + q)%Q) by (intros a b q H; rewrite <- H; ring).
  rewrite (A _ _ _ V). ring.
Qed.

Lemma random_count_moments c (N d : rv) : cfg_trunc c = false -> proper (rv_dist d) -> int_vals (rv_dist d) ->
  proper (rv_dist N) -> int_vals (rv_dist N) ->
  total (rv_dist d) ^ count_total (rv_dist N) * total (rv_dist N) <= SUM_LIMIT ->
  exists r, roll_count_pure c (CRV N) d = Ok r /\
    (expectation (rv_dist r) == expectation (rv_dist N) * expectation (rv_dist d))%Q /\
    (variance (rv_dist r) == average (fun n => inject_Z (Z.abs (toZ n))) (rv_dist N) * variance (rv_dist d)
       + variance (rv_dist N) * (expectation (rv_dist d) * expectation (rv_dist d)))%Q.
Proof.
  intros Ht Pd Id PN IN Hl. set (D := rv_dist d) in *. set (M := rv_dist N) in *.
  assert (T : 1 <= total D) by (destruct Pd; lia).
  assert (TN : 1 <= total M) by (destruct PN; lia).
  assert (NNs : Forall (fun z => 0 <= z) (map (fun v => Z.abs (toZ v)) (vals M))).
  { apply Forall_forall. intros z Hz. apply in_map_iff in Hz as [y [Ey _]]. lia. }
  assert (C0 : 0 <= count_total M) by now apply sumZ_nonneg.
  assert (B : total D ^ count_total M <= SUM_LIMIT).
  { assert (0 < total D ^ count_total M) by (apply Z.pow_pos_nonneg; lia). nia. }
  cbn [roll_count_pure]. fold M. rewrite int_of_vals by auto.
  destruct (mapM_law c d (map toZ (vals M)) Ht Pd Id) as [dies [E L]].
  { intros n Hn. eapply Z.le_trans; [|exact B]. apply pow_le_sum; auto. split; [lia|].
    apply sumZ_member; auto. rewrite <- map_map with (f := toZ) (g := Z.abs). now apply in_map. }
  rewrite E. cbn [bind]. fold D in L.
  assert (Len : length (probs M) = length dies).
  { assert (LL : length (map toZ (vals M)) = length dies) by (clear -L; induction L; cbn; congruence).
    clear -LL. rewrite map_length in LL. unfold vals, probs in *. rewrite map_length in LL |- *. auto. }
  assert (G : Forall good (components (map MxRV dies) (probs M))).
  { rewrite components_rvs. eapply good_dies; [|exact L]. apply nonneg_probs, PN. }
  assert (W : wtotal (components (map MxRV dies) (probs M)) = total M).
  { rewrite components_rvs. now apply wtotal_combine. }
  assert (Dn : 0 < denominators (components (map MxRV dies) (probs M)) <= total D ^ count_total M).
  { rewrite components_rvs. unfold count_total. rewrite <- map_map with (f := toZ) (g := Z.abs).
    eapply dies_denominators; eauto. }
  rewrite from_rvs_is; [|exact Ht|now rewrite map_length|exact G].
  assert (IC : Forall (fun wd => int_vals (snd wd)) (components (map MxRV dies) (probs M))).
  { rewrite components_rvs. apply Forall_forall. intros [w x] J. apply in_combine_r in J. apply in_map_iff in J as (q & <- & J). cbn [snd].
    clear -L J. induction L as [|n q' ns ds R L IH]; [contradiction J|]. destruct J as [->|J]; [apply R|now apply IH]. }
  set (cs := components (map MxRV dies) (probs M)) in *.
  assert (LIM : prob_limit (normal c (mix_list cs)) = Ok (normal c (mix_list cs))).
  { apply prob_limit_id. destruct (mix_list_spec cs G) as (Nn & TT & _). pose proof (normal_total_le c _ Nn) as K.
    rewrite TT, W in K. assert (LL : denominators cs * total M <= SUM_LIMIT) by nia.
    assert (0 < denominators cs * total M) by nia. lia. }
  assert (NE : cs <> []) by (intro X; rewrite X in W; cbn in W; lia).
  destruct (mix_list_moments c cs G IC ltac:(lia)) as [E1 V1].
  assert (S1 : (mix_sum toZ cs == qsum (fun n => inject_Z (toZ n) * expectation D) M)%Q).
  { unfold cs. rewrite components_rvs.
    exact (mix_sum_dies c D M dies toZ (fun n => inject_Z n * expectation D)%Q Pd (fun n x R => proj1 (roll_law_moments c n D x Pd R)) L). }
  assert (S2 : (mix_sum sq cs == qsum (fun n => inject_Z (Z.abs (toZ n)) * variance D + inject_Z (toZ n) * inject_Z (toZ n) * (expectation D * expectation D)) M)%Q).
  { unfold cs. rewrite components_rvs.
    exact (mix_sum_dies c D M dies sq (fun n => inject_Z (Z.abs n) * variance D + inject_Z n * inject_Z n * (expectation D * expectation D))%Q Pd
             (fun n x R => proj2 (roll_law_moments c n D x Pd R)) L). }
  assert (Q1 : forall k : Q, (qsum (fun n => inject_Z (toZ n) * k) M == k * qsum (fun n => inject_Z (toZ n)) M)%Q).
  { intro k. clear. induction M as [|[v w] l IH]; cbn [qsum]; [ring|]. rewrite IH. ring. }
  assert (Q2 : forall j k : Q, (qsum (fun n => inject_Z (Z.abs (toZ n)) * j + inject_Z (toZ n) * inject_Z (toZ n) * k) M
     == j * qsum (fun n => inject_Z (Z.abs (toZ n))) M + k * qsum (fun n => inject_Z (toZ n) * inject_Z (toZ n)) M)%Q).
  { intros j k. clear. induction M as [|[v w] l IH]; cbn [qsum]; [ring|]. rewrite IH. ring. }
  rewrite Q1 in S1. rewrite Q2 in S2. rewrite W, S1 in E1. rewrite W, S1, S2 in V1.
  assert (NZ : ~ (inject_Z (total M) == 0)%Q) by (apply inject_Z_nonzero; lia).
  destruct cs as [|c0 cs']; [congruence|]. rewrite LIM. cbn [bind].
  eexists. split; [reflexivity|]. cbn [set_source rv_dist rv_of].
  rewrite E1, V1, (variance_squares M) by (apply PN). rewrite !(expectation_average M). unfold mean_square, average.
  split; field; exact NZ.
Qed.

Lemma roll_random_moments c calls (N x : rv) : Forall int_call calls -> cfg_trunc c = false ->
  proper (rv_dist x) -> int_vals (rv_dist x) -> proper (rv_dist N) -> int_vals (rv_dist N) ->
  total (rv_dist x) ^ sumZ (map (fun v => Z.abs (toZ v)) (vals (rv_dist N))) * total (rv_dist N) <= SUM_LIMIT ->
  exists r, roll_after c calls (ORV N) (Some (ORV x)) = Ok (ORV r) /\
    (expectation (rv_dist r) == expectation (rv_dist N) * expectation (rv_dist x))%Q /\
    (variance (rv_dist r) == average (fun n => inject_Z (Z.abs (toZ n))) (rv_dist N) * variance (rv_dist x)
       + variance (rv_dist N) * (expectation (rv_dist x) * expectation (rv_dist x)))%Q.
Proof.
  intros H Ht P I PN IN L. destruct (random_count_moments c N x Ht P I PN IN L) as (r & E & R).
  exists r. rewrite roll_count_fresh, E by auto. split; [reflexivity|exact R].
Qed.

Lemma roll_mean c calls n x : Forall int_call calls -> cfg_trunc c = false ->
  proper (rv_dist x) -> int_vals (rv_dist x) -> total (rv_dist x) ^ Z.abs n <= SUM_LIMIT ->
  exists r, roll_after c calls (oint n) (Some (ORV x)) = Ok (ORV r) /\ rv_mean (rv_dist r) <> Ok None /\
    forall m, rv_mean (rv_dist r) = Ok (Some m) -> nearest_double (inject_Z n * expectation (rv_dist x)) (numQ m).
Proof.
  intros H Ht P I L. destruct (roll_int_pure_law c n x Ht P I L) as (r & E & R).
  destruct (roll_moments c calls n x H Ht P I L) as (r' & E1 & M & _).
  rewrite roll_rv_fresh, E in * by auto. cbn in E1. injection E1 as <-.
  exists r. split; [reflexivity|]. destruct (mean_correct (rv_dist r) (rl_int _ _ _ _ R) (proj1 (rl_proper _ _ _ _ R))) as (M1 & M2 & _).
  split.
  - intros X. apply M1 in X. pose proof (mass_zero_weights (fun _ => true) _ X) as Z0. pose proof (proj2 (rl_proper _ _ _ _ R)) as T. unfold total in T. lia.
  - intros m X. destruct (M2 m X) as [_ N]. exact (nearest_comp _ _ _ _ M (Qeq_refl _) N).
Qed.
