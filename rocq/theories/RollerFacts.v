(** Which outcome roller returns for which random number. *)
From Coq Require Import List ZArith QArith Qabs Bool Lia Lqa.
From Verif Require Import PyBase Num Val RVModel Obj RollerModel Spec NumFacts MassFacts RVFacts RoundFacts.
Import ListNotations.
Open Scope Z_scope.

(** ** Rounding *)
Lemma minus_half c p : (c * (2 * p) - (2 * c - 1) * p == p)%Q.
Proof. ring. Qed.
Lemma times_half c p : (c * (2 * p) == (c * 2) * p)%Q.
Proof. ring. Qed.

Lemma double_below F : is_double F -> (1 <= F)%Q -> exists g, is_double g /\ (g < F)%Q /\ (F - g < F * p2 (-52))%Q.
Proof.
  intros (m & e & Hm & He & EF) H1.
  assert (EF' : (F == inject_Z m * p2 e)%Q) by (rewrite EF; apply numQ_p2).
  assert (P : 0 < m).
  { destruct (Z.lt_ge_cases 0 m) as [L|L]; [exact L|]. exfalso. apply (Zle_Qle m 0) in L || (rewrite Zle_Qle in L). pose proof (p2_pos e). change (inject_Z 0) with 0%Q in L. nra. }
  pose (k := Z.log2 m). assert (K : 2 ^ k <= m < 2 ^ (k + 1)) by (pose proof (Z.log2_spec m P) as S; unfold k; rewrite Z.add_1_r; exact S).
  assert (K0 : 0 <= k) by apply Z.log2_nonneg.
  assert (K1 : k <= 52). { destruct (Z.le_gt_cases k 52); [assumption|]. exfalso. assert (2 ^ 53 <= 2 ^ k) by (apply Z.pow_le_mono_r; lia). lia. }
  pose (j := 52 - k). pose (m' := m * 2 ^ j). pose (e' := e - j).
  assert (J : 0 <= j) by (unfold j; lia).
  assert (M : 2 ^ 52 <= m' < 2 ^ 53).
  { unfold m'. replace (2 ^ 52) with (2 ^ k * 2 ^ j) by (rewrite <- Z.pow_add_r by lia; f_equal; unfold j; lia).
    replace (2 ^ 53) with (2 ^ (k + 1) * 2 ^ j) by (rewrite <- Z.pow_add_r by lia; f_equal; unfold j; lia).
    assert (0 < 2 ^ j) by (apply Z.pow_pos_nonneg; lia). nia. }
  assert (EM : (F == inject_Z m' * p2 e')%Q).
  { rewrite EF'. unfold m', e'. rewrite inject_Z_mult, <- (p2_Z j J), <- Qmult_assoc, <- p2_add. replace (j + (e - j)) with e by lia. reflexivity. }
  assert (EK : 0 <= e + k).
  { destruct (Z.le_gt_cases 0 (e + k)); [assumption|]. exfalso.
    assert (B : (F < 1)%Q).
    { rewrite EF'. destruct K as [_ K]. rewrite Zlt_Qlt in K. rewrite <- (p2_Z (k + 1)) in K by lia.
      apply (Qlt_le_trans _ (p2 (k + 1) * p2 e)); [apply Qmult_lt_compat_r; [apply p2_pos|exact K]|].
      rewrite <- p2_add, <- p2_0. apply p2_le. lia. }
    lra. }
  pose proof (p2_pos e') as PE.
  destruct (Z.eq_dec m' (2 ^ 52)) as [EQ|NE].
  - exists (inject_Z (2 ^ 53 - 1) * p2 (e' - 1))%Q.
    assert (H2 : (p2 e' == 2 * p2 (e' - 1))%Q) by (rewrite <- p2_S; replace (e' - 1 + 1) with e' by lia; reflexivity).
    pose proof (p2_pos (e' - 1)) as PE1.
    split; [|split].
    + exists (2 ^ 53 - 1), (e' - 1). split; [rewrite Z.abs_eq; lia|]. split; [unfold e', j; lia|]. symmetry. apply numQ_p2.
    + rewrite EM, EQ, H2. setoid_replace (inject_Z (2 ^ 52) * (2 * p2 (e' - 1)))%Q with (inject_Z (2 ^ 53) * p2 (e' - 1))%Q.
      * apply Qmult_lt_compat_r; [exact PE1|reflexivity].
      * exact (times_half (inject_Z (2 ^ 52)) (p2 (e' - 1))).
    + rewrite EM, EQ, H2. rewrite <- (p2_Z 52) by lia.
      setoid_replace (p2 52 * (2 * p2 (e' - 1)) * p2 (-52))%Q with (2 * p2 (e' - 1) * (p2 52 * p2 (-52)))%Q by ring.
      change (-52) with (- (52)). rewrite p2_opp. rewrite (p2_Z 52) by lia.
      setoid_replace (inject_Z (2 ^ 52) * (2 * p2 (e' - 1)) - inject_Z (2 ^ 53 - 1) * p2 (e' - 1))%Q with (p2 (e' - 1)); [|exact (minus_half (inject_Z (2 ^ 52)) (p2 (e' - 1)))].
      lra.
  - exists (inject_Z (m' - 1) * p2 e')%Q. split; [|split].
    + exists (m' - 1), e'. split; [rewrite Z.abs_eq; lia|]. split; [unfold e', j; lia|]. symmetry. apply numQ_p2.
    + rewrite EM. apply Qmult_lt_compat_r; [exact PE|]. rewrite <- Zlt_Qlt. lia.
    + rewrite EM. setoid_replace (inject_Z m' * p2 e' - inject_Z (m' - 1) * p2 e')%Q with (p2 e').
      2: { unfold Z.sub. rewrite inject_Z_plus. change (inject_Z (-(1))) with (-(1))%Q. ring. }
      assert (L : (p2 52 < inject_Z m')%Q) by (rewrite (p2_Z 52) by lia; rewrite <- Zlt_Qlt; lia).
      setoid_replace (inject_Z m' * p2 e' * p2 (-52))%Q with (inject_Z m' * p2 (-52) * p2 e')%Q by ring.
      assert (1 < inject_Z m' * p2 (-52))%Q.
      { rewrite <- (p2_opp 52). apply Qmult_lt_compat_r; [apply p2_pos|exact L]. }
      nra.
Qed.

Lemma abs_le_cases a b : (Qabs a <= b -> - b <= a /\ a <= b)%Q.
Proof. apply Qabs_Qle_condition. Qed.

(** a random number below 1 times a double stays below it *)
Lemma product_below F r x : is_double F -> (1 <= F)%Q -> (0 <= r)%Q -> (r <= F - F * p2 (-53))%Q -> nearest_double r x -> (x < F)%Q.
Proof.
  intros DF H1 R0 R N. destruct (double_below F DF H1) as (g & Dg & Lg & Cg).
  destruct (Qlt_le_dec x F) as [L|L]; [exact L|]. exfalso.
  destruct N as [_ N]. specialize (N g Dg).
  assert (E : (p2 (-52) == 2 * p2 (-53))%Q) by (change (-52) with (-53 + 1); apply p2_S).
  rewrite E in Cg. pose proof (p2_pos (-53)) as PP.
  assert (rF : (r < F)%Q) by nra.
  rewrite (Qabs_pos (x - r)) in N by lra. revert N. apply Qabs_case; intros; nra.
Qed.

(** rounding keeps strict order weakly *)
Lemma nearest_mono r s x y : (r < s)%Q -> nearest_double r x -> nearest_double s y -> (x <= y)%Q.
Proof.
  intros L [Dx Nx] [Dy Ny]. destruct (Qlt_le_dec y x) as [G|G]; [|exact G]. exfalso.
  specialize (Nx y Dy). specialize (Ny x Dx). revert Nx Ny. repeat (apply Qabs_case; intro); lra.
Qed.

(** ** The float that is looked up *)
Definition M53 : Z := 2 ^ 53.

Lemma pow_double k : 0 <= k <= 971 -> is_double (inject_Z (2 ^ k)).
Proof. intro H. exists 1, k. split; [reflexivity|]. split; [lia|]. rewrite numQ_p2, <- (p2_Z k) by lia. ring. Qed.
Lemma big_double : is_double (inject_Z (2 ^ 1022)).
Proof. exists (2 ^ 51), 971. split; [reflexivity|]. split; [lia|]. rewrite numQ_p2, (p2_Z 971), <- inject_Z_mult, <- Z.pow_add_r by lia. reflexivity. Qed.

Lemma int_total T : 0 < T -> T <= 2 ^ 1022 ->
  exists F, nadd (NI T) (NF 0 0) = Ok F /\ is_int F = false /\ nearest_double (inject_Z T) (numQ F).
Proof.
  intros H0 H1. assert (PT : (0 < inject_Z T)%Q) by (apply inj_pos, H0).
  assert (E1 : (inject_Z T / inject_Z 1 == inject_Z T)%Q) by (unfold Qdiv; change (/ inject_Z 1)%Q with 1%Q; ring).
  assert (LT : (inject_Z T <= inject_Z (2 ^ 1022))%Q) by (rewrite <- Zle_Qle; exact H1).
  destruct (fround_ok T 1 OverflowErr (inject_Z (2 ^ 1022))) as (f & Ef & Nf & If); [lia|apply big_double| |].
  { rewrite E1, Qabs_pos by lra. exact LT. }
  unfold nadd, lift2. cbn [to_float]. rewrite Ef. cbn [bind].
  assert (Nf' : nearest_double (inject_Z T) (numQ f)) by (apply (nearest_comp _ _ _ _ E1 (Qeq_refl _) Nf)).
  assert (L2 : (numQ f <= inject_Z (2 ^ 1022))%Q) by (apply (nearest_le _ _ _ Nf' big_double), LT).
  assert (L0 : (0 <= numQ f)%Q) by (apply (nearest_ge _ _ _ Nf' zero_double); lra).
  pose proof (fadd_cases (mant f) (expo f) 0 0 (numQ f)) as C. cbn [mant expo].
  destruct (fadd (mant f) (expo f) 0 0) as [F|e].
  - destruct C as [C I]; [rewrite (num_val f) at 1; ring|]. exists F. split; [reflexivity|]. split; [exact I|].
    apply (nearest_comp _ _ _ _ (Qeq_refl _) (Qeq_sym _ _ (nearest_exact _ _ C (proj1 Nf'))) Nf').
  - exfalso. apply (no_overflow (numQ f) _ big_double); [|apply C; rewrite (num_val f) at 1; ring]. rewrite Qabs_pos by exact L0. exact L2.
Qed.

Definition ratio (k : Z) (F : Q) : Q := (inject_Z k * p2 (-53) * F)%Q.

Lemma product_ok T F k : 0 < T -> T <= 2 ^ 1022 -> is_int F = false -> nearest_double (inject_Z T) (numQ F) -> 0 <= k < M53 ->
  exists x, nmul (random_value k) F = Ok x /\ nearest_double (ratio k (numQ F)) (numQ x).
Proof.
  intros H0 H1 IF NF Hk. unfold nmul, lift2, random_value. cbn [to_float bind].
  destruct F as [z|m e]; [discriminate IF|]. cbn [to_float bind mant expo].
  assert (E : (ratio k (numQ (Num.NF m e)) == inject_Z k * p2 (-53) * (inject_Z m * p2 e))%Q) by (unfold ratio; rewrite numQ_p2; reflexivity).
  pose proof (fmul_cases k (-53) m e _ E) as C. destruct (fmul k (-53) m e) as [x|er]; [exists x; split; [reflexivity|apply C]|].
  exfalso. apply (no_overflow _ _ big_double) in C; [exact C|].
  assert (LT : (inject_Z T <= inject_Z (2 ^ 1022))%Q) by (rewrite <- Zle_Qle; exact H1).
  assert (PT : (0 < inject_Z T)%Q) by (apply inj_pos, H0).
  assert (L2 : (numQ (Num.NF m e) <= inject_Z (2 ^ 1022))%Q) by (apply (nearest_le _ _ _ NF big_double), LT).
  assert (L0 : (0 <= numQ (Num.NF m e))%Q) by (apply (nearest_ge _ _ _ NF zero_double); lra).
  assert (K0 : (0 <= inject_Z k)%Q) by (change 0%Q with (inject_Z 0); rewrite <- Zle_Qle; lia).
  assert (K1 : (inject_Z k * p2 (-53) <= 1)%Q).
  { assert (K : (inject_Z k <= p2 53)%Q) by (rewrite (p2_Z 53) by lia; rewrite <- Zle_Qle; unfold M53 in Hk; lia).
    rewrite <- (p2_opp 53). apply Qmult_le_compat_r; [exact K|]. apply Qlt_le_weak, p2_pos. }
  assert (K2 : (0 <= inject_Z k * p2 (-53))%Q) by (apply Qmult_le_0_compat; [exact K0|apply Qlt_le_weak, p2_pos]).
  unfold ratio. rewrite Qabs_pos by (apply Qmult_le_0_compat; assumption). nra.
Qed.

(** ** Counting the random numbers below a bound *)
Lemma threshold (P : Z -> bool) (M : Z) : 0 <= M -> (forall j k, 0 <= j <= k -> k < M -> P k = true -> P j = true) ->
  exists N, 0 <= N <= M /\ forall k, 0 <= k < M -> (P k = true <-> k < N).
Proof.
  intro H. revert H. apply (natlike_ind (fun M => (forall j k, 0 <= j <= k -> k < M -> P k = true -> P j = true) ->
    exists N, 0 <= N <= M /\ forall k, 0 <= k < M -> (P k = true <-> k < N))).
  - intros _. exists 0. split; [lia|]. intros k K. lia.
  - intros n Hn IH Hm. destruct IH as (N & HN & S); [intros j k J K; apply Hm; lia|].
    destruct (P n) eqn:E.
    + exists (n + 1). split; [lia|]. intros k K. split; [lia|]. intros _. apply (Hm k n); [lia|lia|exact E].
    + exists N. split; [lia|]. intros k K. destruct (Z.eq_dec k n) as [->|NE]; [|apply S; lia]. rewrite E. split; [discriminate|lia].
Qed.

Section Draw.
  Variables (T : Z) (F : num) (X : Z -> num).
  Hypotheses (HT : 0 < T) (HT' : T <= 2 ^ 1022) (HF : nearest_double (inject_Z T) (numQ F)).
  Hypothesis HX : forall k, 0 <= k < M53 -> nearest_double (ratio k (numQ F)) (numQ (X k)).

  Lemma T_pos : (0 < inject_Z T)%Q.
  Proof. apply inj_pos, HT. Qed.
  Lemma T_one : (1 <= inject_Z T)%Q.
  Proof. change 1%Q with (inject_Z 1). rewrite <- Zle_Qle. lia. Qed.
  Lemma one_is_double : is_double 1.
  Proof. exact (pow_double 0 ltac:(lia)). Qed.
  Lemma F_one : (1 <= numQ F)%Q.
  Proof. apply (nearest_ge _ _ _ HF one_is_double), T_one. Qed.
  Lemma F_big : (numQ F <= inject_Z (2 ^ 1022))%Q.
  Proof. apply (nearest_le _ _ _ HF big_double). rewrite <- Zle_Qle. exact HT'. Qed.
  Lemma k_nonneg k : 0 <= k -> (0 <= inject_Z k)%Q.
  Proof. intro H. change 0%Q with (inject_Z 0). rewrite <- Zle_Qle. exact H. Qed.

  Lemma X_nonneg k : 0 <= k < M53 -> (0 <= numQ (X k))%Q.
  Proof.
    intro H. apply (nearest_ge _ _ _ (HX k H) zero_double). unfold ratio. pose proof (k_nonneg k (proj1 H)). pose proof (p2_pos (-53)). pose proof F_one.
    apply Qmult_le_0_compat; [apply Qmult_le_0_compat; lra|lra].
  Qed.

  Lemma X_below k : 0 <= k < M53 -> (numQ (X k) < inject_Z T)%Q.
  Proof.
    intro H. pose proof F_one as F1. pose proof (p2_pos (-53)) as PP.
    assert (B : (numQ (X k) < numQ F)%Q).
    { apply (product_below _ (ratio k (numQ F))); [apply HF|exact F1| | |apply HX, H].
      - unfold ratio. pose proof (k_nonneg k (proj1 H)). apply Qmult_le_0_compat; [apply Qmult_le_0_compat; lra|lra].
      - assert (K : (inject_Z k <= p2 53 - 1)%Q).
        { rewrite (p2_Z 53) by lia. change (inject_Z (2 ^ 53) - 1)%Q with (inject_Z (2 ^ 53 - 1)). rewrite <- Zle_Qle. unfold M53 in H. lia. }
        assert (K' : (inject_Z k * p2 (-53) <= 1 - p2 (-53))%Q).
        { apply (Qle_trans _ ((p2 53 - 1) * p2 (-53))); [apply Qmult_le_compat_r; [exact K|lra]|]. setoid_replace ((p2 53 - 1) * p2 (-53))%Q with (p2 53 * p2 (-53) - p2 (-53))%Q by ring. pose proof (p2_opp 53) as PO. change (- (53)) with (-53) in PO. rewrite PO. lra. }
        unfold ratio. setoid_replace (numQ F - numQ F * p2 (-53))%Q with ((1 - p2 (-53)) * numQ F)%Q by ring.
        apply Qmult_le_compat_r; [exact K'|lra]. }
    destruct (Qlt_le_dec (numQ (X k)) (inject_Z T)) as [L|L]; [exact L|]. exfalso.
    destruct HF as [_ N]. specialize (N _ (proj1 (HX k H))). revert N. repeat (apply Qabs_case; intro); lra.
  Qed.

  Lemma X_mono j k : 0 <= j <= k -> k < M53 -> (numQ (X j) <= numQ (X k))%Q.
  Proof.
    intros J K. destruct (Z.eq_dec j k) as [->|NE]; [apply Qle_refl|].
    apply (nearest_mono (ratio j (numQ F)) (ratio k (numQ F))); [|apply HX; lia|apply HX; lia].
    pose proof F_one. unfold ratio. apply Qmult_lt_compat_r; [lra|]. apply Qmult_lt_compat_r; [apply p2_pos|]. rewrite <- Zlt_Qlt. lia.
  Qed.

  (** relative error of the product against the exact value *)
  Lemma X_error k : 0 <= k < M53 ->
    let e := p2 (-53) in let y := (inject_Z k * e * inject_Z T)%Q in
    (y * (1 - e) * (1 - e) <= numQ (X k))%Q /\ (numQ (X k) <= y * (1 + e) * (1 + e))%Q.
  Proof.
    intros H e y. pose proof (p2_pos (-53)) as PP. fold e in PP. pose proof T_pos as PT. pose proof F_one as F1.
    assert (E1 : (e <= 1)%Q) by (unfold e; rewrite <- p2_0; apply p2_le; lia).
    pose proof (k_nonneg k (proj1 H)) as K0.
    assert (RF : (Qabs (numQ F - inject_Z T) <= inject_Z T * e)%Q).
    { apply nearest_rel; [| |exact HF].
      - apply (Qle_trans _ 1); [rewrite <- p2_0; apply p2_le; lia|apply T_one].
      - rewrite (p2_Z 1022) by lia. rewrite <- Zle_Qle. exact HT'. }
    apply abs_le_cases in RF.
    assert (RX : (Qabs (numQ (X k) - ratio k (numQ F)) <= ratio k (numQ F) * e)%Q).
    { destruct (Z.eq_dec k 0) as [->|NZ].
      - assert (Z0 : (ratio 0 (numQ F) == 0)%Q) by (unfold ratio; change (inject_Z 0) with 0%Q; ring).
        assert (EX : (numQ (X 0) == 0)%Q).
        { rewrite (nearest_exact _ _ (HX 0 H)); [exact Z0|]. apply (is_double_comp _ _ (Qeq_sym _ _ Z0) zero_double). }
        rewrite EX, Z0. setoid_replace (0 - 0)%Q with 0%Q by ring. rewrite Qmult_0_l. apply Qle_refl.
      - assert (K1 : (1 <= inject_Z k)%Q) by (change 1%Q with (inject_Z 1); rewrite <- Zle_Qle; lia).
        apply nearest_rel; [| |apply HX, H].
        + apply (Qle_trans _ e); [unfold e; apply p2_le; lia|]. unfold ratio. fold e.
          setoid_replace e with (1 * e * 1)%Q at 1 by ring. apply (Qle_trans _ (inject_Z k * e * 1)); [apply Qmult_le_compat_r; [apply Qmult_le_compat_r; lra|lra]|].
          rewrite !(Qmult_comm (inject_Z k * e)). apply Qmult_le_compat_r; [exact F1|]. apply Qmult_le_0_compat; lra.
        + rewrite (p2_Z 1022) by lia. apply (Qle_trans _ (1 * numQ F)); [|rewrite Qmult_1_l; apply F_big]. unfold ratio. apply Qmult_le_compat_r; [|lra].
          assert (K : (inject_Z k <= p2 53)%Q) by (rewrite (p2_Z 53) by lia; rewrite <- Zle_Qle; unfold M53 in H; lia).
          rewrite <- (p2_opp 53). apply Qmult_le_compat_r; [exact K|]. apply Qlt_le_weak, p2_pos. }
    apply abs_le_cases in RX. unfold ratio in RX. fold e in RX. unfold y.
    assert (KE : (0 <= inject_Z k * e)%Q) by (apply Qmult_le_0_compat; lra).
    set (a := (inject_Z k * e)%Q) in *. set (f := numQ F) in *. set (t := inject_Z T) in *. set (x := numQ (X k)) in *.
    assert (B1 : (a * (t * (1 - e)) <= a * f)%Q) by (rewrite !(Qmult_comm a); apply Qmult_le_compat_r; lra).
    assert (B2 : (a * f <= a * (t * (1 + e)))%Q) by (rewrite !(Qmult_comm a); apply Qmult_le_compat_r; lra).
    split.
    - apply (Qle_trans _ (a * f * (1 - e))); [|lra]. setoid_replace (a * t * (1 - e) * (1 - e))%Q with (a * (t * (1 - e)) * (1 - e))%Q by ring. apply Qmult_le_compat_r; lra.
    - apply (Qle_trans _ (a * f * (1 + e))); [lra|]. setoid_replace (a * t * (1 + e) * (1 + e))%Q with (a * (t * (1 + e)) * (1 + e))%Q by ring. apply Qmult_le_compat_r; lra.
  Qed.

  (** how many random numbers lead below [C] *)
  Lemma count_below C : 0 <= C <= T ->
    exists N, 0 <= N <= M53 /\ (forall k, 0 <= k < M53 -> (nltb (X k) (NI C) = true <-> k < N)) /\
      (C = 0 -> N = 0) /\ (C = T -> N = M53) /\
      (inject_Z C / inject_Z T * inject_Z M53 - 2 <= inject_Z N)%Q /\ (inject_Z N <= inject_Z C / inject_Z T * inject_Z M53 + 3)%Q.
  Proof.
    intros HC.
    assert (LT : forall k, nltb (X k) (NI C) = true <-> (numQ (X k) < inject_Z C)%Q).
    { intro k. unfold nltb. rewrite ncmp_Q. cbn [numQ]. rewrite Qlt_alt. destruct (numQ (X k) ?= inject_Z C)%Q; split; congruence. }
    destruct (threshold (fun k => nltb (X k) (NI C)) M53) as (N & HN & S).
    { unfold M53. lia. }
    { intros j k J K. cbn beta. rewrite !LT. intro L. pose proof (X_mono j k J K). lra. }
    exists N. split; [exact HN|]. split; [exact S|].
    pose proof T_pos as PT. pose proof (p2_pos (-53)) as PP. pose proof T_one as T1.
    assert (PM : (0 < inject_Z M53)%Q) by reflexivity.
    assert (EM : (p2 (-53) * inject_Z M53 == 1)%Q) by (unfold M53; rewrite <- (p2_Z 53) by lia; rewrite Qmult_comm; apply (p2_opp 53)).
    assert (C0 : (0 <= inject_Z C)%Q) by (apply k_nonneg, HC).
    assert (CT : (inject_Z C <= inject_Z T)%Q) by (rewrite <- Zle_Qle; apply HC).
    set (e := p2 (-53)) in *. set (Y := (inject_Z C / inject_Z T)%Q) in *.
    assert (EY : (Y * inject_Z T == inject_Z C)%Q) by (unfold Y; field; lra).
    assert (Y0 : (0 <= Y)%Q) by (apply le_frac; [exact HT|]; lra).
    assert (Y1 : (Y <= 1)%Q) by (apply Qle_shift_div_r; [exact PT|]; lra).
    assert (E1 : (e <= 1 # 2)%Q) by (unfold e; apply (Qle_trans _ (p2 (-1))); [apply p2_le; lia|discriminate]).
    split; [|split; [|split]].
    - intros ->. destruct (Z.eq_dec N 0) as [E|NE]; [exact E|]. exfalso.
      assert (K : 0 <= 0 < M53) by (unfold M53; lia). pose proof (proj2 (S 0 K) ltac:(lia)) as L. cbn beta in L. apply LT in L.
      pose proof (X_nonneg 0 K) as NN. change (inject_Z 0) with 0%Q in L. lra.
    - intros ->. destruct (Z.eq_dec N M53) as [E|NE]; [exact E|]. exfalso.
      assert (K : 0 <= N < M53) by lia. pose proof (proj2 (LT N) (X_below N K)) as L. apply (S N K) in L. lia.
    - destruct (Z.eq_dec N M53) as [->|NE].
      { apply (Qle_trans _ (1 * inject_Z M53)); [|lra]. assert (Y * inject_Z M53 <= 1 * inject_Z M53)%Q by (apply Qmult_le_compat_r; [exact Y1|lra]). lra. }
      assert (K : 0 <= N < M53) by lia.
      assert (G : (inject_Z C <= numQ (X N))%Q).
      { destruct (Qlt_le_dec (numQ (X N)) (inject_Z C)) as [L|L]; [|exact L]. apply LT in L. apply (S N K) in L. lia. }
      destruct (X_error N K) as [_ U]. fold e in U. set (n := inject_Z N) in *. set (M := inject_Z M53) in *. set (t := inject_Z T) in *.
      assert (B : (Y * t <= n * e * t * (1 + e) * (1 + e))%Q) by lra.
      assert (B' : (Y <= n * e * (1 + e) * (1 + e))%Q).
      { apply (Qmult_le_r _ _ t PT). setoid_replace (n * e * (1 + e) * (1 + e) * t)%Q with (n * e * t * (1 + e) * (1 + e))%Q by ring. exact B. }
      assert (B2 : (Y * M <= n * (1 + e) * (1 + e))%Q).
      { setoid_replace (n * (1 + e) * (1 + e))%Q with (n * e * (1 + e) * (1 + e) * M)%Q; [apply Qmult_le_compat_r; [exact B'|lra]|].
        setoid_replace (n * e * (1 + e) * (1 + e) * M)%Q with (n * (1 + e) * (1 + e) * (e * M))%Q by ring. rewrite EM. ring. }
      (* Y*M*(1-2e) <= n *)
      assert (n0 : (0 <= n)%Q) by (apply k_nonneg; lia).
      assert (YM : (Y * M <= M)%Q) by (setoid_replace M with (1 * M)%Q at 2 by ring; apply Qmult_le_compat_r; lra).
      assert (YM0 : (0 <= Y * M)%Q) by (apply Qmult_le_0_compat; lra).
      assert (B3 : (Y * M * (1 - e) * (1 - e) <= n)%Q).
      { apply (Qle_trans _ (n * (1 + e) * (1 + e) * (1 - e) * (1 - e))).
        - apply Qmult_le_compat_r; [apply Qmult_le_compat_r; [exact B2|lra]|lra].
        - setoid_replace (n * (1 + e) * (1 + e) * (1 - e) * (1 - e))%Q with (n * ((1 - e * e) * (1 - e * e)))%Q by ring.
          setoid_replace n with (n * 1)%Q at 2 by ring. rewrite !(Qmult_comm n). apply Qmult_le_compat_r; [|exact n0].
          assert (0 <= e * e)%Q by nra. assert (e * e <= 1 # 2)%Q by nra. nra. }
      assert (B4 : (e * (Y * M) <= 1)%Q) by (rewrite <- EM, !(Qmult_comm e); apply Qmult_le_compat_r; lra).
      assert (0 <= e * e * (Y * M))%Q by (apply Qmult_le_0_compat; [nra|exact YM0]). lra.
    - destruct (Z.eq_dec N 0) as [->|NE].
      { change (inject_Z 0) with 0%Q. assert (0 <= Y * inject_Z M53)%Q by (apply Qmult_le_0_compat; lra). lra. }
      assert (K : 0 <= N - 1 < M53) by lia.
      assert (L : (numQ (X (N - 1)) < inject_Z C)%Q) by (apply LT, (S (N - 1) K); lia).
      destruct (X_error (N - 1) K) as [U _]. fold e in U.
      assert (EN : (inject_Z N == inject_Z (N - 1) + 1)%Q) by (replace N with (N - 1 + 1) at 1 by lia; rewrite inject_Z_plus; reflexivity).
      rewrite EN. assert (NM : (inject_Z (N - 1) <= inject_Z M53)%Q) by (rewrite <- Zle_Qle; lia).
      assert (n0 : (0 <= inject_Z (N - 1))%Q) by (apply k_nonneg; lia).
      set (n := inject_Z (N - 1)) in *. set (M := inject_Z M53) in *. set (t := inject_Z T) in *.
      assert (B : (n * e * (1 - e) * (1 - e) <= Y)%Q).
      { apply (Qmult_le_r _ _ t PT). setoid_replace (n * e * (1 - e) * (1 - e) * t)%Q with (n * e * t * (1 - e) * (1 - e))%Q by ring. lra. }
      assert (B2 : (n * (1 - e) * (1 - e) <= Y * M)%Q).
      { setoid_replace (n * (1 - e) * (1 - e))%Q with (n * e * (1 - e) * (1 - e) * M)%Q; [apply Qmult_le_compat_r; [exact B|lra]|].
        setoid_replace (n * e * (1 - e) * (1 - e) * M)%Q with (n * (1 - e) * (1 - e) * (e * M))%Q by ring. rewrite EM. ring. }
      assert (B4 : (e * n <= 1)%Q) by (rewrite <- EM, !(Qmult_comm e); apply Qmult_le_compat_r; lra).
      assert (0 <= e * e * n)%Q by (apply Qmult_le_0_compat; [nra|exact n0]). lra.
  Qed.
End Draw.

(** ** The search *)
Lemma accumulate_length l : forall s, length (accumulate_from s l) = length l.
Proof. induction l as [|w l IH]; intro s; [reflexivity|]. cbn [accumulate_from length]. rewrite IH. reflexivity. Qed.
Lemma accumulate_nth l : forall s i, (i < length l)%nat -> nth_error (accumulate_from s l) i = Some (s + zsum (firstn (S i) l)).
Proof.
  induction l as [|w l IH]; intros s i H; cbn [length] in H; [lia|]. destruct i as [|i].
  - cbn. f_equal. lia.
  - cbn [accumulate_from nth_error]. rewrite (IH (s + w) i) by lia. f_equal. change (firstn (S (S i)) (w :: l)) with (w :: firstn (S i) l). unfold zsum. cbn [fold_right]. lia.
Qed.
Lemma zsum_firstn_mono l i j : Forall (fun w => 0 <= w) l -> (i <= j)%nat -> zsum (firstn i l) <= zsum (firstn j l).
Proof.
  intros H. revert i j. induction H as [|w l Hw H IH]; intros i j L; [rewrite !firstn_nil; lia|].
  destruct i as [|i], j as [|j]; try lia; cbn [firstn].
  - unfold zsum at 1. cbn [fold_right]. specialize (IH O j ltac:(lia)). cbn [firstn] in IH. unfold zsum in *. cbn [fold_right] in *. lia.
  - specialize (IH i j ltac:(lia)). unfold zsum in *. cbn [fold_right]. lia.
Qed.
Lemma zsum_firstn_S l i w : nth_error l i = Some w -> zsum (firstn (S i) l) = zsum (firstn i l) + w.
Proof.
  revert i. induction l as [|v l IH]; intros [|i] E; try discriminate E.
  - injection E as ->. cbn. lia.
  - cbn [nth_error] in E. specialize (IH i E). change (firstn (S (S i)) (v :: l)) with (v :: firstn (S i) l). change (firstn (S i) (v :: l)) with (v :: firstn i l).
    unfold zsum in *. cbn [fold_right]. lia.
Qed.

Lemma bisect_spec a x i : forall fuel lo hi,
  (lo <= i <= hi)%nat -> (hi <= length a)%nat -> (hi - lo < fuel)%nat ->
  (forall j y, (j < i)%nat -> nth_error a j = Some y -> nltb x (NI y) = false) ->
  (forall j y, (i <= j < hi)%nat -> nth_error a j = Some y -> nltb x (NI y) = true) ->
  bisect_loop fuel a x lo hi = Ok i.
Proof.
  induction fuel as [|fuel IH]; intros lo hi H1 H2 H3 Hl Hh; [lia|]. cbn [bisect_loop].
  destruct (Nat.ltb_spec lo hi) as [L|L]; [|f_equal; lia].
  pose proof (Nat.div2_div (lo + hi)) as D. set (mid := Nat.div2 (lo + hi)) in *.
  assert (Hm : (lo <= mid < hi)%nat).
  { rewrite D. split; [apply Nat.div_le_lower_bound; lia|apply Nat.div_lt_upper_bound; lia]. }
  destruct (nth_error a mid) as [y|] eqn:E; [|apply nth_error_None in E; lia].
  destruct (Nat.lt_ge_cases mid i) as [M|M].
  - rewrite (Hl mid y M E). apply IH; try lia; assumption.
  - rewrite (Hh mid y) by (try lia; assumption). apply IH; try lia; [assumption|]. intros j z J. apply Hh. lia.
Qed.

Lemma nltb_int x a : nltb x (NI a) = true <-> (numQ x < inject_Z a)%Q.
Proof. unfold nltb. rewrite ncmp_Q. cbn [numQ]. rewrite Qlt_alt. destruct (numQ x ?= inject_Z a)%Q; split; congruence. Qed.
Lemma nltb_weaken x a b : a <= b -> nltb x (NI a) = true -> nltb x (NI b) = true.
Proof. intro L. rewrite !nltb_int. rewrite Zle_Qle in L. intro H. lra. Qed.

Lemma finite_choice (R : nat -> Z -> Prop) n : (forall i, (i < n)%nat -> exists z, R i z) -> exists f, forall i, (i < n)%nat -> R i (f i).
Proof.
  induction n as [|n IH]; intro H; [exists (fun _ => 0); intros; lia|].
  destruct IH as (f & Hf); [intros; apply H; lia|]. destruct (H n) as (z & Hz); [lia|].
  exists (fun i => if Nat.eqb i n then z else f i). intros i L. destruct (Nat.eqb_spec i n) as [->|]; [exact Hz|apply Hf; lia].
Qed.

Lemma total_zsum (d : dist) : total d = zsum (probs d).
Proof. unfold total, zsum, probs. induction d as [|[v p] d IH]; [reflexivity|]. cbn [mass map snd fold_right]. rewrite IH. reflexivity. Qed.

(** the outcome [i] of a die is drawn exactly by the random numbers from N i to N (i+1) - 1 *)
Lemma draw_intervals (d : dist) : nonneg d -> 0 < total d <= 2 ^ 1022 ->
  exists N : nat -> Z, N O = 0 /\ N (length d) = M53 /\
    forall i v w, nth_error d i = Some (v, w) ->
      N i <= N (S i) /\ (w = 0 -> N (S i) = N i) /\
      (Qabs (inject_Z (N (S i) - N i) / inject_Z M53 - inject_Z w / inject_Z (total d)) <= 5 / inject_Z M53)%Q /\
      (forall k, N i <= k < N (S i) -> draw d k = Ok v).
Proof.
  intros Hn [H0 H1]. set (T := total d) in *.
  destruct (int_total T H0 H1) as (F & EF & IF & NF).
  pose (X := fun k => match nmul (random_value k) F with Ok x => x | Err _ => NI 0 end).
  assert (HX : forall k, 0 <= k < M53 -> nmul (random_value k) F = Ok (X k) /\ nearest_double (ratio k (numQ F)) (numQ (X k))).
  { intros k K. unfold X. destruct (product_ok T F k H0 H1 IF NF K) as (x & E & Nx). rewrite E. auto. }
  assert (HX2 : forall k, 0 <= k < M53 -> nearest_double (ratio k (numQ F)) (numQ (X k))) by (intros k K; apply HX, K).
  pose (C := fun i => zsum (firstn i (probs d))).
  assert (NP : Forall (fun w => 0 <= w) (probs d)).
  { unfold probs. apply Forall_map. exact Hn. }
  assert (LP : length (probs d) = length d) by (unfold probs; apply map_length).
  assert (CT : C (length d) = T) by (unfold C; rewrite <- LP, firstn_all; symmetry; apply total_zsum).
  assert (CM : forall i j, (i <= j)%nat -> C i <= C j) by (intros i j L; apply zsum_firstn_mono; assumption).
  assert (CB : forall i, 0 <= C i <= T).
  { intro i. split; [apply (CM O i); lia|]. destruct (Nat.le_ge_cases i (length d)) as [L|L]; [rewrite <- CT; apply CM, L|].
    unfold C. rewrite firstn_all2 by lia. unfold T. rewrite total_zsum. lia. }
  destruct (finite_choice (fun i N => 0 <= N <= M53 /\ (forall k, 0 <= k < M53 -> (nltb (X k) (NI (C i)) = true <-> k < N)) /\
      (C i = 0 -> N = 0) /\ (C i = T -> N = M53) /\
      (inject_Z (C i) / inject_Z T * inject_Z M53 - 2 <= inject_Z N)%Q /\ (inject_Z N <= inject_Z (C i) / inject_Z T * inject_Z M53 + 3)%Q) (S (length d))) as (N & HN).
  { intros i _. apply (count_below T F X H0 H1 NF HX2 (C i) (CB i)). }
  exists N. split; [apply (HN O); [lia|reflexivity]|]. split; [apply (HN (length d)); [lia|exact CT]|].
  intros i v w E. assert (Li : (i < length d)%nat) by (apply nth_error_Some; congruence).
  destruct (HN i) as (B1 & S1 & _ & _ & L1 & U1); [lia|]. destruct (HN (S i)) as (B2 & S2 & _ & _ & L2 & U2); [lia|].
  assert (Ew : C (S i) = C i + w) by (apply zsum_firstn_S; unfold probs; rewrite nth_error_map, E; reflexivity).
  assert (LE : forall k, nltb (X k) (NI (C i)) = true -> nltb (X k) (NI (C (S i))) = true).
  { intro k. apply nltb_weaken, CM. lia. }
  split; [|split; [|split]].
  - destruct (Z.le_gt_cases (N i) (N (S i))) as [L|L]; [exact L|]. exfalso.
    assert (K : 0 <= N (S i) < M53) by lia. pose proof (proj2 (S1 _ K) L) as P. apply LE in P. apply (S2 _ K) in P. lia.
  - intros ->. rewrite Z.add_0_r in Ew. rewrite Ew in S2. destruct (Z.lt_trichotomy (N i) (N (S i))) as [L|[L|L]]; [|congruence|]; exfalso.
    + assert (K : 0 <= N i < M53) by lia. pose proof (proj2 (S2 _ K) L) as P. apply (S1 _ K) in P. lia.
    + assert (K : 0 <= N (S i) < M53) by lia. pose proof (proj2 (S1 _ K) L) as P. apply (S2 _ K) in P. lia.
  - assert (PM : (0 < inject_Z M53)%Q) by reflexivity. assert (PT : (0 < inject_Z T)%Q) by (apply inj_pos, H0).
    rewrite Ew, inject_Z_plus in L2, U2. set (m := inject_Z M53) in *. set (t := inject_Z T) in *. set (c := inject_Z (C i)) in *. set (q := inject_Z w) in *.
    assert (EN : (inject_Z (N (S i) - N i) == inject_Z (N (S i)) - inject_Z (N i))%Q) by (unfold Z.sub; rewrite inject_Z_plus, inject_Z_opp; reflexivity).
    assert (ED : ((c + q) / t * m == c / t * m + q / t * m)%Q) by (field; lra). rewrite ED in L2, U2.
    assert (EQ : (inject_Z (N (S i) - N i) / m - q / t == (inject_Z (N (S i)) - inject_Z (N i) - q / t * m) / m)%Q) by (rewrite EN; field; split; lra).
    rewrite EQ. apply Qabs_Qle_condition. split.
    + apply Qle_shift_div_l; [exact PM|]. setoid_replace (- (5 / m) * m)%Q with (-5)%Q by (field; lra). lra.
    + apply Qle_shift_div_r; [exact PM|]. setoid_replace (5 / m * m)%Q with 5%Q by (field; lra). lra.
  - intros k K. assert (K' : 0 <= k < M53) by lia. unfold draw, choose. cbv zeta. unfold accumulate. rewrite accumulate_length.
    assert (LV : length (vals d) = length d) by (unfold vals; apply map_length). rewrite LP, LV, Nat.eqb_refl. cbn [negb].
    rewrite accumulate_nth by lia. replace (S (length d - 1)) with (length d) by lia. rewrite Z.add_0_l. fold (C (length d)). rewrite CT, EF. cbn [bind].
    assert (FP : nleb F (Num.NF 0 0) = false).
    { unfold nleb. rewrite ncmp_Q. pose proof (F_one T F H0 NF) as F1. assert (Z0 : (numQ (Num.NF 0 0) == 0)%Q) by reflexivity.
      destruct (numQ F ?= numQ (Num.NF 0 0))%Q eqn:Q1; [apply Qeq_alt in Q1; lra|apply Qlt_alt in Q1; lra|reflexivity]. }
    rewrite FP, (proj1 (HX k K')). cbn [bind]. unfold bisect_right.
    rewrite (bisect_spec _ (X k) i); [cbn [bind]; unfold vals; rewrite nth_error_map, E; reflexivity|lia|rewrite accumulate_length, LP; lia|lia| |].
    + intros j y J EJ. rewrite accumulate_nth in EJ by lia. rewrite Z.add_0_l in EJ. fold (C (S j)) in EJ. assert (EY : C (S j) = y) by congruence. clear EJ. subst y.
      destruct (nltb (X k) (NI (C (S j)))) eqn:P; [|reflexivity]. exfalso.
      assert (P' : nltb (X k) (NI (C i)) = true).
      { apply (nltb_weaken _ (C (S j))); [apply CM; lia|exact P]. }
      apply (S1 k K') in P'. lia.
    + intros j y J EJ. rewrite accumulate_nth in EJ by lia. rewrite Z.add_0_l in EJ. fold (C (S j)) in EJ. assert (EY : C (S j) = y) by congruence. clear EJ. subst y.
      pose proof (proj2 (S2 k K') ltac:(lia)) as P. apply (nltb_weaken _ (C (S i))); [apply CM; lia|exact P].
Qed.

(** every random number draws an outcome of positive weight *)
Lemma draw_possible (d : dist) k : nonneg d -> 0 < total d <= 2 ^ 1022 -> 0 <= k < M53 ->
  exists v w, In (v, w) d /\ 0 < w /\ draw d k = Ok v.
Proof.
  intros Hn HT HK. destruct (draw_intervals d Hn HT) as (N & N0 & Nn & H).
  assert (G : forall n, (n <= length d)%nat -> k < N n -> exists i, (i < n)%nat /\ N i <= k < N (S i)).
  { induction n as [|n IH]; intros L B; [lia|]. destruct (Z.lt_ge_cases k (N n)) as [C|C]; [|exists n; lia].
    destruct IH as (i & I & J); [lia|exact C|]. exists i. split; [lia|exact J]. }
  destruct (G (length d)) as (i & Li & B); [lia|lia|].
  destruct (nth_error d i) as [[v w]|] eqn:E; [|apply nth_error_None in E; lia].
  destruct (H i v w E) as (_ & Z0 & _ & D). exists v, w. split; [apply (nth_error_In _ _ E)|]. split; [|apply D, B].
  pose proof (proj1 (Forall_forall _ _) Hn _ (nth_error_In _ _ E)) as P. cbn in P. destruct (Z.eq_dec w 0) as [->|]; [|lia]. specialize (Z0 eq_refl). lia.
Qed.

Lemma roller_possible c x count ks : nonneg (rv_dist x) -> 0 < total (rv_dist x) <= 2 ^ 1022 -> (forall i, 0 <= ks i < M53) ->
  exists l, roller c (ORV x) count ks = Ok l /\ length l = match count with None => 1%nat | Some n => Z.to_nat n end /\
    forall i v, nth_error l i = Some v -> draw (rv_dist x) (ks i) = Ok v /\ exists w, In (v, w) (rv_dist x) /\ 0 < w.
Proof.
  intros Hn HT HK. unfold roller. cbn [get_rv bind]. destruct count as [n|].
  - generalize (Z.to_nat n) as m. intro m.
    assert (G : forall m s, exists l, mapM (fun i => draw (rv_dist x) (ks i)) (seq s m) = Ok l /\ length l = m /\
      forall i v, nth_error l i = Some v -> draw (rv_dist x) (ks (s + i)%nat) = Ok v /\ exists w, In (v, w) (rv_dist x) /\ 0 < w).
    { clear m. induction m as [|m IH]; intro s; [exists []; repeat split; destruct i; discriminate|].
      destruct (draw_possible (rv_dist x) (ks s) Hn HT (HK s)) as (v & w & I & P & D). destruct (IH (S s)) as (l & E & L & H).
      exists (v :: l). cbn [seq mapM]. rewrite D. cbn [bind]. rewrite E. cbn [bind]. split; [reflexivity|]. split; [cbn; congruence|].
      intros [|i] u U; cbn [nth_error] in U; [injection U as <-; rewrite Nat.add_0_r; eauto|]. replace (s + S i)%nat with (S s + i)%nat by lia. apply H, U. }
    exact (G m O).
  - destruct (draw_possible (rv_dist x) (ks O) Hn HT (HK O)) as (v & w & I & P & D). rewrite D. exists [v]. split; [reflexivity|]. split; [reflexivity|].
    intros [|[|i]] u U; try discriminate U. injection U as <-. eauto.
Qed.

(** a die without a possible outcome *)
Lemma draw_zero d k : nonneg d -> total d = 0 -> draw d k = Err (match d with [] => IndexErr | _ => ValueErr end).
Proof.
  intros Hn HT. unfold draw, choose. cbv zeta. unfold accumulate. rewrite accumulate_length.
  assert (LP : length (probs d) = length d) by (unfold probs; apply map_length). assert (LV : length (vals d) = length d) by (unfold vals; apply map_length).
  rewrite LP, LV, Nat.eqb_refl. cbn [negb]. destruct d as [|e d]; [reflexivity|].
  rewrite accumulate_nth by (rewrite LP; cbn; lia). rewrite firstn_all2 by (rewrite LP; cbn; lia). rewrite Z.add_0_l, <- total_zsum, HT. reflexivity.
Qed.

(** {a..b} *)
Lemma myrange_spec a b l : myrange (OV (VN a)) (OV (VN b)) = Ok l ->
  (forall z, In z l <-> ntrunc a <= z <= ntrunc b) /\ (forall i j y z, (i < j)%nat -> nth_error l i = Some y -> nth_error l j = Some z -> y < z).
Proof.
  intro E. cbn in E. injection E as <-. split.
  - intro z. rewrite in_map_iff. split.
    + intros (i & <- & I). apply in_seq in I. lia.
    + intro H. exists (Z.to_nat (z - ntrunc a)). split; [lia|]. apply in_seq. lia.
  - intros i j y z L Ei Ej. rewrite nth_error_map in Ei, Ej.
    destruct (nth_error (seq 0 _) i) as [i'|] eqn:Si; [|discriminate Ei]. destruct (nth_error (seq 0 _) j) as [j'|] eqn:Sj; [|discriminate Ej].
    injection Ei as <-. injection Ej as <-.
    assert (Li : (i < Z.to_nat (ntrunc b + 1 - ntrunc a))%nat) by (rewrite <- (seq_length (Z.to_nat (ntrunc b + 1 - ntrunc a)) 0); apply nth_error_Some; congruence).
    assert (Lj : (j < Z.to_nat (ntrunc b + 1 - ntrunc a))%nat) by (rewrite <- (seq_length (Z.to_nat (ntrunc b + 1 - ntrunc a)) 0); apply nth_error_Some; congruence).
    apply (nth_error_nth _ _ O) in Si. apply (nth_error_nth _ _ O) in Sj. rewrite seq_nth in Si, Sj by assumption. lia.
Qed.
