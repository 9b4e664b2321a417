(** The standard deviation. *)
From Coq Require Import String List ZArith QArith Qabs Bool Lia Lqa.
From Verif Require Import PyBase Num Val RVModel OutModel UtilModel Obj PrintModel Spec PrintSpec NumFacts RVFacts
  ConstructFacts IntFacts RoundFacts ConvFacts OpFacts UnaryFacts MassFacts MixFacts OutFacts RollErrFacts.
Import ListNotations.
Open Scope Z_scope.

(** ** Square roots *)

Lemma Qabs_bounds a b : (Qabs a <= b)%Q <-> (- b <= a /\ a <= b)%Q.
Proof. apply Qabs_Qle_condition. Qed.

Lemma square_close u s y : (0 < u)%Q -> (u <= 1 # 16)%Q -> (0 <= y)%Q -> (Qabs (s - y) <= y * u)%Q ->
  (Qabs (s * s - y * y) <= y * y * ((33 # 16) * u))%Q.
Proof.
  intros U1 U2 Y H. rewrite Qabs_bounds in H |- *. destruct H as [H1 H2].
  assert (A : (0 <= y * u)%Q) by nra.
  assert (B : (y * (1 - u) <= s)%Q) by nra. assert (C : (s <= y * (1 + u))%Q) by nra.
  assert (B0 : (0 <= y * (1 - u))%Q) by nra.
  assert (S1 : (y * (1 - u) * (y * (1 - u)) <= s * s)%Q) by nra.
  assert (S2 : (s * s <= y * (1 + u) * (y * (1 + u)))%Q) by nra.
  assert (YY : (0 <= y * y)%Q) by nra. assert (UU : (u * u <= (1 # 16) * u)%Q) by nra.
  assert (V : (y * y * (u * u) <= y * y * ((1 # 16) * u))%Q) by nra.
  split; nra.
Qed.

Lemma p2_sq k : (p2 k * p2 k == p2 (2 * k))%Q.
Proof. rewrite <- p2_add. replace (k + k) with (2 * k) by lia. reflexivity. Qed.

Lemma sqrt_spec m e : 0 < m -> (p2 (-1100) <= inject_Z m * p2 e)%Q -> (inject_Z m * p2 e <= p2 1100)%Q ->
  exists s, fsqrt m e = Ok s /\ is_int s = false /\ (0 <= numQ s)%Q /\
    (Qabs (numQ s * numQ s - inject_Z m * p2 e) <= inject_Z m * p2 e * p2 (-51))%Q.
Proof.
  intros M L H. unfold fsqrt.
  set (s0 := Z.max 0 (109 - Z.log2 m)). set (s := if Z.even (e - s0) then s0 else s0 + 1).
  set (n := shl m s). set (k := (e - s) / 2). set (r := Z.sqrt n).
  assert (S0 : 0 <= s0) by (unfold s0; lia).
  assert (S : s0 <= s <= s0 + 1) by (unfold s; destruct (Z.even (e - s0)); lia).
  assert (Ev : e - s = 2 * k).
  { unfold k. assert (E : Z.even (e - s) = true).
    { unfold s. destruct (Z.even (e - s0)) eqn:E; [exact E|]. replace (e - (s0 + 1)) with (Z.pred (e - s0)) by lia.
      rewrite Z.even_pred, <- Z.negb_even, E. reflexivity. }
    apply Zeven_bool_iff in E. now apply Zeven_div2 in E; rewrite Z.div2_div in E. }
  assert (X : (inject_Z m * p2 e == inject_Z n * p2 (2 * k))%Q).
  { unfold n. rewrite shl_Q by lia. rewrite <- Ev. replace e with (s + (e - s)) at 1 by lia. rewrite p2_add. ring. }
  assert (N : 2 ^ 109 <= n).
  { unfold n, shl. pose proof (Z.log2_spec m M) as [G _].
    assert (109 <= Z.log2 m + s) by (unfold s0 in *; lia). pose proof (Z.log2_nonneg m).
    apply Z.le_trans with (2 ^ (Z.log2 m + s)); [apply Z.pow_le_mono_r; lia|]. rewrite Z.pow_add_r by lia.
    apply Z.mul_le_mono_nonneg_r; [apply Z.pow_nonneg; lia|exact G]. }
  pose proof (Z.sqrt_spec n ltac:(lia)) as R. cbv zeta in R. fold r in R. destruct R as [R1 R2].
  assert (R0 : 2 ^ 54 <= r).
  { unfold r. change (2 ^ 54) with (Z.sqrt (2 ^ 108)). apply Z.sqrt_le_mono. lia. }
  (* the number that is rounded *)
  assert (Y : exists a b, (if r * r =? n then fround_dy r k Unmodelled else fround_dy (2 * r + 1) (k - 1) Unmodelled) = fround_dy a b Unmodelled /\
    (0 < inject_Z a * p2 b)%Q /\
    (Qabs (inject_Z a * p2 b * (inject_Z a * p2 b) - inject_Z n * p2 (2 * k)) <= inject_Z n * p2 (2 * k) * p2 (-53))%Q).
  { destruct (Z.eqb_spec (r * r) n) as [E|E].
    - exists r, k. split; [reflexivity|]. split; [apply Qmult_lt_0_compat; [|apply p2_pos]; change 0%Q with (inject_Z 0); rewrite <- Zlt_Qlt; lia|].
      assert (Z0 : (inject_Z r * p2 k * (inject_Z r * p2 k) - inject_Z n * p2 (2 * k) == 0)%Q).
      { rewrite <- E, inject_Z_mult, <- p2_sq. ring. }
      rewrite Z0. cbn [Qabs]. change (Qabs 0) with 0%Q.
      apply Qmult_le_0_compat; [apply Qmult_le_0_compat|]; try (apply Qlt_le_weak, p2_pos).
      change 0%Q with (inject_Z 0). rewrite <- Zle_Qle. lia.
    - exists (2 * r + 1), (k - 1). split; [reflexivity|]. split; [apply Qmult_lt_0_compat; [|apply p2_pos]; change 0%Q with (inject_Z 0); rewrite <- Zlt_Qlt; lia|].
      assert (K : (p2 (k - 1) * p2 (k - 1) == p2 (2 * k) * (1 # 4))%Q).
      { rewrite p2_sq. replace (2 * (k - 1)) with (2 * k + -2) by lia. rewrite p2_add. reflexivity. }
      assert (D : (inject_Z (2 * r + 1) * p2 (k - 1) * (inject_Z (2 * r + 1) * p2 (k - 1)) - inject_Z n * p2 (2 * k)
                   == p2 (2 * k) * ((1 # 4) * inject_Z ((2 * r + 1) * (2 * r + 1) - 4 * n)))%Q).
      { transitivity (inject_Z (2 * r + 1) * inject_Z (2 * r + 1) * (p2 (k - 1) * p2 (k - 1)) - inject_Z n * p2 (2 * k))%Q; [ring|].
        rewrite K. replace ((2 * r + 1) * (2 * r + 1) - 4 * n) with ((2 * r + 1) * (2 * r + 1) + - (4 * n)) by ring. rewrite (inject_Z_plus ((2 * r + 1) * (2 * r + 1)) (- (4 * n))), inject_Z_opp, !inject_Z_mult. ring. }
      rewrite D, Qabs_Qmult, (Qabs_pos (p2 (2 * k))) by (apply Qlt_le_weak, p2_pos).
      rewrite Qabs_Qmult. change (Qabs (1 # 4)) with (1 # 4)%Q. change (Qabs (inject_Z ((2 * r + 1) * (2 * r + 1) - 4 * n))) with (inject_Z (Z.abs ((2 * r + 1) * (2 * r + 1) - 4 * n))).
      assert (Zb : Z.abs ((2 * r + 1) * (2 * r + 1) - 4 * n) * 2 ^ 53 <= 4 * n).
      { apply Z.le_trans with (4 * r * 2 ^ 53); [|nia]. apply Z.mul_le_mono_nonneg_r; [lia|]. nia. }
      rewrite Zle_Qle, !inject_Z_mult in Zb. rewrite <- (p2_Z 53) in Zb by lia.
      change (inject_Z 4) with 4%Q in Zb.
      assert (T : (p2 53 * p2 (-53) == 1)%Q) by (apply (p2_opp 53)).
      set (w := inject_Z (Z.abs ((2 * r + 1) * (2 * r + 1) - 4 * n))) in *.
      assert (W : (w <= 4 * inject_Z n * p2 (-53))%Q).
      { setoid_replace w with (w * p2 53 * p2 (-53))%Q by (rewrite <- Qmult_assoc, T; ring).
        apply Qmult_le_compat_r; [exact Zb|apply Qlt_le_weak, p2_pos]. }
      setoid_replace (inject_Z n * p2 (2 * k) * p2 (-53))%Q with (p2 (2 * k) * ((1 # 4) * (4 * inject_Z n * p2 (-53))))%Q by ring.
      pose proof (p2_pos (2 * k)) as P0. nra. }
  destruct Y as [a [b [-> [Y0 Y]]]]. rewrite <- X in Y.
  set (x := (inject_Z m * p2 e)%Q) in *. set (y := (inject_Z a * p2 b)%Q) in *.
  assert (U : (p2 (-53) <= 1 # 16)%Q) by (vm_compute; discriminate).
  assert (U0 : (0 < p2 (-53))%Q) by apply p2_pos.
  assert (X0 : (0 < x)%Q) by (pose proof (p2_pos (-1100)); lra).
  rewrite Qabs_bounds in Y. destruct Y as [Y1 Y2].
  assert (Yl : (p2 (-560) <= y)%Q).
  { destruct (Qlt_le_dec y (p2 (-560))) as [G|G]; [exfalso|exact G].
    assert (y * y < p2 (-560) * p2 (-560))%Q by (pose proof (p2_pos (-560)); nra).
    assert (p2 (-560) * p2 (-560) <= p2 (-1100) * (1 # 2))%Q by (vm_compute; discriminate). nra. }
  assert (Yh : (y <= p2 560)%Q).
  { destruct (Qlt_le_dec (p2 560) y) as [G|G]; [exfalso|exact G].
    assert (p2 560 * p2 560 < y * y)%Q by (pose proof (p2_pos 560); nra).
    assert (p2 1100 * 2 <= p2 560 * p2 560)%Q by (vm_compute; discriminate). nra. }
  pose proof (fround_dy_cases a b Unmodelled) as C. fold y in C. destruct (fround_dy a b Unmodelled) as [t|err].
  - destruct C as [C I]. exists t. split; [reflexivity|]. split; [exact I|].
    assert (Q1 : (Qabs (numQ t - y) <= y * p2 (-53))%Q).
    { apply nearest_rel; [| |exact C].
      - apply Qle_trans with (p2 (-560)); [apply p2_le; lia|exact Yl].
      - apply Qle_trans with (p2 560); [exact Yh|apply p2_le; lia]. }
    pose proof (square_close _ _ _ U0 U (Qlt_le_weak _ _ Y0) Q1) as Q2. split.
    + rewrite Qabs_bounds in Q1. nra.
    + rewrite Qabs_bounds in Q2 |- *. destruct Q2 as [Q2 Q3].
      assert (E4 : (p2 (-51) == 4 * p2 (-53))%Q) by (vm_compute; reflexivity). rewrite E4.
      set (u := p2 (-53)) in *.
      assert (y * y * ((33 # 16) * u) <= x * (1 + u) * ((33 # 16) * u))%Q by nra.
      assert (x * (u * u) <= x * ((1 # 16) * u))%Q by nra.
      split; nra.
  - exfalso. destruct C as [_ C]. apply (no_overflow y (p2 560)) in C; [exact C| |].
    + exists 1, 560. split; [reflexivity|split; [lia|]]. rewrite numQ_p2. ring.
    + rewrite Qabs_pos by lra. exact Yh.
Qed.

(** ** The variance *)

Lemma square_nonneg z : (0 <= z * z)%Q.
Proof. destruct (Qlt_le_dec z 0); nra. Qed.

Lemma qsum_nonneg {A} (f : A -> Q) (l : list (A * Z)) : nonneg l -> (forall a w, In (a, w) l -> (0 <= f a)%Q) -> (0 <= qsum f l)%Q.
Proof.
  intros N F. induction N as [|[a w] l W N IH]; cbn [qsum]; [lra|]. cbn [snd] in W.
  assert (0 <= inject_Z w)%Q by (change 0%Q with (inject_Z 0); now rewrite <- Zle_Qle).
  pose proof (F a w (or_introl eq_refl)). specialize (IH (fun a w I => F a w (or_intror I))). nra.
Qed.

Lemma qsum_quadratic (l : list (pval * Z)) m :
  (qsum (fun v => (inject_Z (toZ v) - m) * (inject_Z (toZ v) - m)) l ==
   qsum (fun v => inject_Z (toZ v) * inject_Z (toZ v)) l - 2 * m * qsum (fun v => inject_Z (toZ v)) l
   + m * m * inject_Z (total l))%Q.
Proof.
  unfold total. induction l as [|[v w] l IH]; cbn [qsum mass].
  - change (inject_Z 0) with 0%Q. ring.
  - rewrite IH, inject_Z_plus. ring.
Qed.

Lemma expectation_average x : (expectation x == average (fun v => inject_Z (toZ v)) x)%Q.
Proof. unfold expectation, average. now rewrite wsum_inj_qsum. Qed.

Lemma total_Q {A} (x : list (A * Z)) : 0 < total x -> (0 < inject_Z (total x))%Q.
Proof. intros T. change 0%Q with (inject_Z 0). now rewrite <- Zlt_Qlt. Qed.

Lemma variance_squares x : 0 < total x -> (variance x == mean_square x - expectation x * expectation x)%Q.
Proof.
  intros T. apply total_Q in T. unfold variance, mean_square, average. rewrite qsum_quadratic.
  assert (E : (qsum (fun v => inject_Z (toZ v)) x == expectation x * inject_Z (total x))%Q).
  { rewrite expectation_average. unfold average. field. lra. }
  rewrite E. field. lra.
Qed.

Lemma variance_nonneg x : proper x -> (0 <= variance x)%Q.
Proof.
  intros [N T]. apply total_Q in T. unfold variance, average. apply Qle_shift_div_l; [exact T|].
  rewrite Qmult_0_l. apply qsum_nonneg; [exact N|]. intros a w _. apply square_nonneg.
Qed.

Lemma mean_square_wsum x : (mean_square x == inject_Z (wsum (fun v => (toZ v * toZ v)%Z) x) / inject_Z (total x))%Q.
Proof.
  unfold mean_square, average. rewrite wsum_inj_qsum.
  rewrite (RollErrFacts.qsum_ext (fun a => inject_Z (toZ a * toZ a)) (fun v => (inject_Z (toZ v) * inject_Z (toZ v))%Q)); [reflexivity|].
  intros a w _. now rewrite inject_Z_mult.
Qed.

(** ** Errors *)

Lemma std_error u t e2 e A B q D S : (0 < u)%Q -> (u <= 1 # 64)%Q ->
  (e * e <= e2)%Q -> (0 <= t)%Q -> (t <= e2 * u)%Q ->
  (Qabs (A - e2) <= e2 * u)%Q -> (Qabs (B - e) <= Qabs e * u)%Q -> (Qabs (q - B * B) <= B * B * (2 * u))%Q ->
  (Qabs (D - (A - q)) <= Qabs (A - q) * u + t)%Q ->
  ((0 <= D)%Q -> (Qabs (S - D) <= D * (4 * u))%Q) -> ((D < 0)%Q -> (S == 0)%Q) ->
  (Qabs (S - (e2 - e * e)) <= e2 * (32 * u))%Q.
Proof.
  intros U0 U1 J T0 T HA HB Hq HD HS HS0.
  pose proof (square_nonneg e) as E0. assert (E2 : (0 <= e2)%Q) by lra.
  assert (HB' : (Qabs (B * B - e * e) <= e * e * ((33 # 16) * u))%Q).
  { assert (Ee : (Qabs e * Qabs e == e * e)%Q).
    { rewrite <- Qabs_Qmult. apply Qabs_pos, E0. }
    destruct (Qlt_le_dec e 0) as [G|G].
    - assert (X : (Qabs (- B - - e) <= - e * u)%Q).
      { rewrite (Qabs_neg e) in HB by lra. setoid_replace (- B - - e)%Q with (- (B - e))%Q by ring. now rewrite Qabs_opp. }
      assert (Y : (u <= 1 # 16)%Q) by lra.
      pose proof (square_close u (- B) (- e) U0 Y ltac:(lra) X) as Z.
      setoid_replace (B * B - e * e)%Q with (- B * - B - - e * - e)%Q by ring.
      setoid_replace (e * e * ((33 # 16) * u))%Q with (- e * - e * ((33 # 16) * u))%Q by ring. exact Z.
    - rewrite (Qabs_pos e) in HB by lra. apply square_close; lra. }
  assert (EU : (e * e * u <= e2 * u)%Q) by nra.
  assert (UU : (u * u <= (1 # 64) * u)%Q) by nra.
  assert (EUU : (e2 * (u * u) <= e2 * ((1 # 64) * u))%Q) by nra.
  rewrite Qabs_bounds in HB', Hq, HA. destruct HA as [A1 A2], HB' as [B1 B2], Hq as [Q1 Q2].
  assert (BB : (B * B <= e2 * (1 + (33 # 16) * u))%Q) by nra.
  assert (BU : (B * B * (2 * u) <= e2 * (3 * u))%Q) by nra.
  assert (X : (Qabs (A - q - (e2 - e * e)) <= e2 * (7 * u))%Q) by (rewrite Qabs_bounds; split; nra).
  assert (V0 : (0 <= e2 - e * e)%Q) by lra.
  assert (Y : (Qabs (A - q) <= e2 * 2)%Q).
  { rewrite Qabs_bounds in X |- *. assert (e2 * (7 * u) <= e2)%Q by nra. split; lra. }
  assert (DV : (Qabs (D - (e2 - e * e)) <= e2 * (10 * u))%Q).
  { assert (Qabs (A - q) * u <= e2 * 2 * u)%Q by nra. rewrite Qabs_bounds in X, HD |- *. split; lra. }
  rewrite Qabs_bounds in DV. destruct DV as [D1 D2]. rewrite Qabs_bounds.
  destruct (Qlt_le_dec D 0) as [G|G].
  - rewrite (HS0 G). split; lra.
  - specialize (HS G). rewrite Qabs_bounds in HS. destruct HS as [S1 S2].
    assert (D <= e2 * 2)%Q by (assert (e2 * (10 * u) <= e2)%Q by nra; lra).
    assert (D * (4 * u) <= e2 * (8 * u))%Q by nra. split; lra.
Qed.

(** ** The library's computation *)

Lemma nearest_sym x r : nearest_double x r -> nearest_double (- x) (- r).
Proof.
  intros [D N]. split; [now apply is_double_opp|]. intros f F. specialize (N (- f)%Q (is_double_opp _ F)).
  setoid_replace (- r - - x)%Q with (- (r - x))%Q by ring. setoid_replace (f - - x)%Q with (- (- f - x))%Q by ring.
  now rewrite !Qabs_opp.
Qed.

Lemma near_rel x r : nearest_double x r -> (x == 0 \/ p2 (-1022) <= Qabs x)%Q -> (Qabs x <= p2 1022)%Q ->
  (Qabs (r - x) <= Qabs x * p2 (-53))%Q.
Proof.
  intros N [Z|L] H.
  - assert (R : (r == 0)%Q) by (rewrite <- Z; apply nearest_exact; [exact N|]; apply (is_double_comp 0); [now symmetry|apply zero_double]).
    rewrite R, Z. vm_compute. discriminate.
  - destruct (Qlt_le_dec x 0) as [G|G].
    + rewrite (Qabs_neg x) in * by lra. setoid_replace (r - x)%Q with (- (- r - - x))%Q by ring. rewrite Qabs_opp.
      apply nearest_rel; [exact L|exact H|]. now apply nearest_sym.
    + rewrite (Qabs_pos x) in * by lra. now apply nearest_rel.
Qed.

Lemma near_abs x r : nearest_double x r -> (Qabs x <= p2 1022)%Q ->
  (Qabs (r - x) <= Qabs x * p2 (-53) + p2 (-1022))%Q.
Proof.
  intros N H. pose proof (Qabs_nonneg x) as A. pose proof (p2_pos (-53)) as P. pose proof (p2_pos (-1022)) as P'.
  destruct (Qlt_le_dec (Qabs x) (p2 (-1022))) as [G|G].
  - destruct N as [_ N]. specialize (N 0%Q zero_double). setoid_replace (0 - x)%Q with (- x)%Q in N by ring.
    rewrite Qabs_opp in N. nra.
  - pose proof (near_rel x r N (or_intror G) H). lra.
Qed.

Lemma big_double : is_double (p2 1000).
Proof. exists (2 ^ 50), 950. split; [reflexivity|split; [lia|]]. vm_compute. reflexivity. Qed.

Lemma mean_ok y : proper y -> int_vals y -> (Qabs (expectation y) <= p2 1000)%Q ->
  exists m, rv_mean y = Ok (Some m) /\ is_int m = false /\ nearest_double (expectation y) (numQ m).
Proof.
  intros [N T] I B. destruct (mean_correct y I N) as [M1 [M2 M3]]. destruct (rv_mean y) as [[m|]|err].
  - exists m. split; [reflexivity|]. now apply M2.
  - exfalso. assert (W : Forall (fun e => snd e = 0) y) by now apply M1. unfold total in T. rewrite (mass_zero_weights _ y W) in T. lia.
  - exfalso. destruct (M3 err eq_refl) as [_ O]. apply (no_overflow _ (p2 1000)) in O; [exact O| |exact B].
    exact big_double.
Qed.

Lemma fraction_size a T : 0 < T <= 2 ^ 400 -> (inject_Z a / inject_Z T == 0 \/ p2 (-400) <= Qabs (inject_Z a / inject_Z T))%Q.
Proof.
  intros [T0 T1]. assert (TQ : (0 < inject_Z T)%Q) by (change 0%Q with (inject_Z 0); now rewrite <- Zlt_Qlt).
  destruct (Z.eq_dec a 0) as [->|A]; [left; field; lra|right].
  unfold Qdiv. rewrite Qabs_Qmult, (Qabs_pos (/ inject_Z T)) by (apply Qlt_le_weak, Qinv_lt_0_compat, TQ).
  apply Qle_shift_div_l; [exact TQ|].
  apply Qle_trans with (p2 (-400) * inject_Z (2 ^ 400))%Q.
  - apply Qmult_le_l; [apply p2_pos|]. now rewrite <- Zle_Qle.
  - rewrite <- p2_Z by lia. rewrite Qmult_comm, (p2_opp 400).
    change (Qabs (inject_Z a)) with (inject_Z (Z.abs a)). change 1%Q with (inject_Z 1). rewrite <- Zle_Qle. lia.
Qed.

Lemma average_bound (f : pval -> Z) (x : dist) B : proper x -> (forall e, In e x -> Z.abs (f (fst e)) <= B) ->
  (Qabs (inject_Z (wsum f x) / inject_Z (total x)) <= inject_Z B)%Q.
Proof.
  intros [N T] F. pose proof (total_Q _ T) as TQ.
  assert (W : Z.abs (wsum f x) <= B * total x).
  { clear T TQ. unfold total. induction N as [|[v w] l W N IH]; cbn [wsum mass]; [lia|]. cbn [snd] in W.
    pose proof (F _ (or_introl eq_refl)) as F0. cbn [fst] in F0. specialize (IH (fun e I => F e (or_intror I))).
    nia. }
  unfold Qdiv. rewrite Qabs_Qmult, (Qabs_pos (/ inject_Z (total x))) by (apply Qlt_le_weak, Qinv_lt_0_compat, TQ).
  apply Qle_shift_div_r; [exact TQ|]. change (Qabs (inject_Z (wsum f x))) with (inject_Z (Z.abs (wsum f x))).
  rewrite <- inject_Z_mult, <- Zle_Qle. exact W.
Qed.

Lemma float_form a : is_int a = false -> a = NF (mant a) (expo a).
Proof. destruct a; [discriminate|reflexivity]. Qed.

Lemma sub_floats a b : is_int a = false -> is_int b = false -> (Qabs (numQ a - numQ b) <= p2 1000)%Q ->
  exists d, nsub a b = Ok d /\ is_int d = false /\ nearest_double (numQ a - numQ b) (numQ d).
Proof.
  intros A B H. rewrite (float_form a A), (float_form b B) in *. cbn [nsub lift2 to_float bind mant expo].
  pose proof (fadd_cases (mant a) (expo a) (- mant b) (expo b) (numQ (NF (mant a) (expo a)) - numQ (NF (mant b) (expo b)))%Q) as C.
  destruct (fadd (mant a) (expo a) (- mant b) (expo b)) as [d|err].
  - exists d. split; [reflexivity|]. destruct C as [C1 C2]; [|split; assumption].
    rewrite !numQ_p2, inject_Z_opp. ring.
  - exfalso. apply (no_overflow (numQ (NF (mant a) (expo a)) - numQ (NF (mant b) (expo b)))%Q (p2 1000)); [|exact H|].
    + exact big_double.
    + apply C. rewrite !numQ_p2, inject_Z_opp. ring.
Qed.

Lemma sqrt_zero e : fsqrt 0 e = Ok (NF 0 0).
Proof.
  unfold fsqrt. cbn [Z.log2]. set (s := if Z.even _ then _ else _). unfold shl. rewrite Z.mul_0_l. cbn [Z.sqrt Z.mul Z.eqb].
  unfold fround_dy, shl. rewrite Z.mul_0_l. destruct (_ <? 0); [|reflexivity].
  unfold fround. destruct (_ <? 0); reflexivity.
Qed.

Lemma double_small d : is_double d -> (0 < d)%Q -> (p2 (-1074) <= d)%Q.
Proof.
  intros [m [e [_ [E X]]]] P. rewrite X, numQ_p2 in *.
  assert (M : 0 < m).
  { apply Znot_ge_lt. intros G. assert (inject_Z m <= 0)%Q by (change 0%Q with (inject_Z 0); rewrite <- Zle_Qle; lia).
    pose proof (p2_pos e). nra. }
  assert (M' : (1 <= inject_Z m)%Q) by (change 1%Q with (inject_Z 1); rewrite <- Zle_Qle; lia).
  pose proof (p2_le (-1074) e ltac:(lia)). pose proof (p2_pos e). nra.
Qed.

Lemma mean_square_bound x : proper x -> (forall e, In e x -> Z.abs (toZ (fst e)) <= 2 ^ 400) -> (mean_square x <= p2 800)%Q.
Proof.
  intros P V. rewrite mean_square_wsum, p2_Z by lia.
  eapply Qle_trans; [apply Qle_Qabs|]. apply average_bound; [exact P|]. intros e Ie. specialize (V e Ie).
  rewrite Z.abs_mul. change (2 ^ 800) with (2 ^ 400 * 2 ^ 400). nia.
Qed.

Theorem std_close c square x : cfg_trunc c = false -> good_square square -> proper x -> int_vals x ->
  total x <= 2 ^ 400 -> (forall e, In e x -> Z.abs (toZ (fst e)) <= 2 ^ 400) ->
  exists s, rv_std c square x = Ok (Some s) /\ (s = NI 0 \/ is_int s = false) /\ (0 <= numQ s)%Q /\
    (Qabs (numQ s * numQ s - variance x) <= mean_square x * p2 (-48))%Q.
Proof.
  intros Ht Sq P I T V. pose proof (proj2 P) as T0. unfold rv_std. rewrite sum_probs_total.
  destruct (Z.eqb_spec (total x) 0) as [Z0|_]; [lia|].
  unfold rv_op_const. rewrite (rv_map_int c _ (fun z => z ^ 2) x Ht (proj1 P) I) by (intros v Hv; rewrite (is_int_vint v Hv); reflexivity).
  cbn [bind rv_of rv_dist]. set (x2 := normal c (image (fun v => vint (toZ v ^ 2)) x)).
  assert (P2 : proper x2) by (apply normal_proper, proper_image, P).
  assert (I2 : int_vals x2) by (apply normal_int, (image_int (fun z => z ^ 2))).
  assert (E2 : (expectation x2 == mean_square x)%Q).
  { unfold x2. rewrite (mean_image c (fun z => z ^ 2) x P I), mean_square_wsum.
    rewrite (wsum_ext _ (fun v => toZ v * toZ v) x); [reflexivity|]. intros a w _. ring. }
  assert (W2 : (expectation x2 == inject_Z (wsum (fun v => (toZ v * toZ v)%Z) x) / inject_Z (total x))%Q)
    by (rewrite E2; apply mean_square_wsum).
  assert (B2 : (Qabs (expectation x2) <= p2 800)%Q).
  { rewrite W2, p2_Z by lia. apply average_bound; [exact P|]. intros e Ie. specialize (V e Ie). 
    rewrite Z.abs_mul. change (2 ^ 800) with (2 ^ 400 * 2 ^ 400). nia. }
  assert (B1 : (Qabs (expectation x) <= p2 400)%Q).
  { rewrite p2_Z by lia. unfold expectation. now apply average_bound. }
  destruct (mean_ok x2 P2 I2) as [A [EA [IA NA]]]; [apply Qle_trans with (p2 800); [exact B2|apply p2_le; lia]|].
  destruct (mean_ok x P I) as [B [EB [IB NB]]]; [apply Qle_trans with (p2 400); [exact B1|apply p2_le; lia]|].
  rewrite EA. cbn [bind]. rewrite EB. cbn [bind].
  assert (F2 : (expectation x2 == 0 \/ p2 (-400) <= Qabs (expectation x2))%Q) by (rewrite W2; apply fraction_size; lia).
  assert (F1 : (expectation x == 0 \/ p2 (-400) <= Qabs (expectation x))%Q) by (unfold expectation; apply fraction_size; lia).
  assert (L400 : (p2 (-1022) <= p2 (-400))%Q) by (apply p2_le; lia).
  pose proof (near_rel _ _ NA ltac:(destruct F2 as [?|?]; [now left|right; lra])
    ltac:(apply Qle_trans with (p2 800); [exact B2|apply p2_le; lia])) as RA.
  pose proof (near_rel _ _ NB ltac:(destruct F1 as [?|?]; [now left|right; lra])
    ltac:(apply Qle_trans with (p2 400); [exact B1|apply p2_le; lia])) as RB.
  assert (U : (p2 (-53) <= 1 # 64)%Q) by (vm_compute; discriminate). pose proof (p2_pos (-53)) as U0.
  (* the square of the mean *)
  destruct (Sq B IB) as [q [Eq [Iq [Dq Rq]]]].
  { assert (Qabs (numQ B) <= Qabs (expectation x) + Qabs (numQ B - expectation x))%Q.
    { setoid_replace (numQ B) with (expectation x + (numQ B - expectation x))%Q at 1 by ring. apply Qabs_triangle. }
    pose proof (Qabs_nonneg (expectation x)).
    assert (p2 400 * 2 <= p2 500)%Q by (vm_compute; discriminate). nra. }
  { destruct F1 as [F1|F1]; [left|right].
    - rewrite F1 in RB. change (Qabs 0 * p2 (-53))%Q with (0 * p2 (-53))%Q in RB. rewrite Qmult_0_l in RB.
      rewrite Qabs_bounds in RB. lra.
    - assert (Qabs (expectation x) <= Qabs (numQ B) + Qabs (numQ B - expectation x))%Q.
      { rewrite (Qabs_Qminus (numQ B)). setoid_replace (expectation x) with (numQ B + (expectation x - numQ B))%Q at 1 by ring. apply Qabs_triangle. }
      pose proof (Qabs_nonneg (expectation x)).
      assert (p2 (-500) <= p2 (-400) * (1 # 2))%Q by (vm_compute; discriminate). nra. }
  rewrite (float_form B IB), <- (float_form B IB), Eq. cbn [bind].
  set (e := expectation x) in *. set (e2 := expectation x2) in *.
  assert (J : (e * e <= e2)%Q).
  { pose proof (variance_nonneg x P) as VN. rewrite (variance_squares x T0), <- E2 in VN. fold e in VN. lra. }
  pose proof (square_nonneg e) as EE.
  rewrite (Qabs_pos e2) in RA by lra. rewrite (Qabs_pos e2) in B2 by lra.
  assert (Bn : (numQ B * numQ B <= e2 * 2)%Q).
  { assert (X : (Qabs (numQ B) * Qabs (numQ B) == numQ B * numQ B)%Q) by (rewrite <- Qabs_Qmult; apply Qabs_pos, square_nonneg).
    assert (X' : (Qabs e * Qabs e == e * e)%Q) by (rewrite <- Qabs_Qmult; apply Qabs_pos, square_nonneg).
    assert (Y : (Qabs (numQ B) <= Qabs e + Qabs e * p2 (-53))%Q).
    { setoid_replace (numQ B) with (e + (numQ B - e))%Q at 1 by ring. eapply Qle_trans; [apply Qabs_triangle|]. lra. }
    pose proof (Qabs_nonneg e). pose proof (Qabs_nonneg (numQ B)).
    assert (Z : (Qabs (numQ B) <= Qabs e * (65 # 64))%Q) by nra.
    assert (Qabs (numQ B) * Qabs (numQ B) <= Qabs e * (65 # 64) * (Qabs e * (65 # 64)))%Q by nra. nra. }
  pose proof (square_nonneg (numQ B)) as BB.
  assert (U52 : (p2 (-52) == 2 * p2 (-53))%Q) by (vm_compute; reflexivity). rewrite U52 in Rq.
  assert (S9 : (Qabs (numQ A - numQ q) <= p2 1000)%Q).
  { rewrite Qabs_bounds in RA, Rq |- *. assert (p2 800 * 16 <= p2 1000)%Q by (vm_compute; discriminate).
    assert (e2 * p2 (-53) <= e2)%Q by nra. assert (numQ B * numQ B * (2 * p2 (-53)) <= e2)%Q by nra. split; lra. }
  destruct (sub_floats A q IA Iq S9) as [D [ED [ID ND]]]. rewrite ED. cbn [bind].
  assert (ABS : (Qabs (numQ A - numQ q) <= p2 1022)%Q) by (eapply Qle_trans; [exact S9|apply p2_le; lia]).
  (* the result *)
  assert (R : exists s, (if nleb (NI 0) D then v <- to_float D;; s <- fsqrt (mant v) (expo v);; Ok (Some s) else Ok (Some (NI 0))) = Ok (Some s) /\
     (s = NI 0 \/ is_int s = false) /\ (0 <= numQ s)%Q /\ ((0 <= numQ D)%Q -> (Qabs (numQ s * numQ s - numQ D) <= numQ D * (4 * p2 (-53)))%Q) /\
     ((numQ D < 0)%Q -> (numQ s * numQ s == 0)%Q)).
  { assert (Cm : nleb (NI 0) D = true <-> (0 <= numQ D)%Q) by apply (nleb_Q (NI 0) D).
    destruct (nleb (NI 0) D) eqn:G.
    - apply proj1 in Cm. specialize (Cm eq_refl). rewrite (float_form D ID). cbn [to_float bind mant expo].
      rewrite (float_form D ID), numQ_p2 in Cm.
      pose proof (p2_pos (expo D)) as Pe.
      destruct (Z.eq_dec (mant D) 0) as [M|M].
      + rewrite M, sqrt_zero. exists (NF 0 0). split; [reflexivity|]. split; [now right|]. split; [vm_compute; discriminate|].
        assert (N0 : (numQ (NF 0 (expo D)) == 0)%Q) by (rewrite numQ_p2; ring).
        split; intros H; rewrite N0 in *; [vm_compute; discriminate|reflexivity].
      + assert (M0 : 0 < mant D).
        { apply Znot_ge_lt. intros Ge. assert (inject_Z (mant D) < 0)%Q by (change 0%Q with (inject_Z 0); rewrite <- Zlt_Qlt; lia). nra. }
        assert (Dp : (0 < numQ D)%Q).
        { rewrite (float_form D ID), numQ_p2. apply Qmult_lt_0_compat; [|exact Pe].
          change 0%Q with (inject_Z 0). now rewrite <- Zlt_Qlt. }
        destruct (sqrt_spec (mant D) (expo D) M0) as [s [Es [Is [S0 S1]]]].
        * rewrite <- numQ_p2, <- (float_form D ID). apply Qle_trans with (p2 (-1074)); [apply p2_le; lia|].
          apply double_small; [apply ND|exact Dp].
        * rewrite <- numQ_p2, <- (float_form D ID). pose proof (double_bound (numQ D) (proj1 ND)) as DB.
          rewrite Qabs_pos in DB by lra. eapply Qle_trans; [exact DB|]. rewrite p2_Z by lia. rewrite <- Zle_Qle. vm_compute. discriminate.
        * rewrite Es. cbn [bind]. exists s. split; [reflexivity|]. split; [now right|]. split; [exact S0|]. rewrite <- numQ_p2 in S1.
          assert (U51 : (p2 (-51) == 4 * p2 (-53))%Q) by (vm_compute; reflexivity). rewrite U51 in S1.
          split; [intros _; exact S1|]. intros H. rewrite <- (float_form D ID) in H. lra.
    - exists (NI 0). split; [reflexivity|]. split; [now left|]. split; [vm_compute; discriminate|].
      split; [intros H; apply Cm in H; discriminate|intros _; reflexivity]. }
  destruct R as [s [Es [Ks [S0 [S1 S2]]]]]. exists s. split; [exact Es|]. split; [exact Ks|]. split; [exact S0|].
  rewrite (variance_squares x T0), <- E2. fold e.
  assert (U48 : (p2 (-48) == 32 * p2 (-53))%Q) by (vm_compute; reflexivity). rewrite U48.
  destruct F2 as [F2|F2].
  - apply (std_error (p2 (-53)) 0 e2 e (numQ A) (numQ B) (numQ q) (numQ D)); try assumption; try lra.
    + rewrite F2. lra.
    + assert (A0 : (numQ A == 0)%Q) by (rewrite Qabs_bounds in RA; rewrite F2 in RA; lra).
      assert (Q0 : (numQ q == 0)%Q) by (rewrite Qabs_bounds in Rq; rewrite F2 in Bn; nra).
      assert (X0 : (numQ A - numQ q == 0)%Q) by lra.
      pose proof (near_rel _ _ ND (or_introl X0) ABS). lra.
  - apply (std_error (p2 (-53)) (p2 (-1022)) e2 e (numQ A) (numQ B) (numQ q) (numQ D)); try assumption; try lra.
    + rewrite (Qabs_pos e2) in F2 by lra. assert (p2 (-1022) <= p2 (-400) * p2 (-53))%Q by (vm_compute; discriminate). nra.
    + apply near_abs; assumption.
Qed.

(** ** A good squaring *)

Definition exact_square (a : num) : res num := fmul (mant a) (expo a) (mant a) (expo a).

Lemma exact_square_good : good_square exact_square.
Proof.
  intros y I B L. rewrite (float_form y I) in B, L |- *. unfold exact_square. cbn [mant expo]. set (m := mant y) in *. set (e := expo y) in *.
  assert (X : (numQ (NF m e) * numQ (NF m e) == inject_Z m * p2 e * (inject_Z m * p2 e))%Q) by (rewrite !numQ_p2; ring).
  pose proof (fmul_cases m e m e _ X) as C. set (q := numQ (NF m e)) in *. pose proof (Qabs_nonneg q) as A0.
  assert (A : (Qabs (q * q) == q * q)%Q) by (apply Qabs_pos, square_nonneg).
  assert (A' : (q * q == Qabs q * Qabs q)%Q) by (rewrite <- Qabs_Qmult; now symmetry).
  assert (U : (Qabs (q * q) <= p2 1000)%Q).
  { rewrite A, A'. apply Qle_trans with (p2 500 * p2 500)%Q; [|vm_compute; discriminate].
    apply Qmult_le_compat_nonneg; split; assumption. }
  destruct (fmul m e m e) as [r|err]; [|exfalso; exact (no_overflow _ (p2 1000) big_double U C)].
  destruct C as [C J]. exists r. split; [reflexivity|]. split; [exact J|]. split; [apply C|].
  apply Qle_trans with (Qabs (q * q) * p2 (-53))%Q.
  - apply near_rel; [exact C| |apply Qle_trans with (p2 1000); [exact U|apply p2_le; lia]].
    destruct L as [L|L]; [left; rewrite L; ring|right]. rewrite A, A'.
    apply Qle_trans with (p2 (-500) * p2 (-500))%Q; [vm_compute; discriminate|]. pose proof (p2_pos (-500)).
    apply Qmult_le_compat_nonneg; split; lra.
  - rewrite A. pose proof (square_nonneg q). pose proof (p2_pos (-53)). apply Qmult_le_compat_nonneg; split; try lra. apply p2_le. lia.
Qed.
