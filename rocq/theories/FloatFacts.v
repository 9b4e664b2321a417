(** A double nearest to a number of hundredths is written as that number. *)
From Coq Require Import String List ZArith QArith Qabs Qpower Bool Lia Lqa.
From Verif Require Import PyBase Num Val RVModel UtilModel PrintModel Spec NumFacts RVFacts ConstructFacts RoundFacts UnaryFacts
  TieFacts StdFacts PrintSpec PrintFacts FloatSpec.
Import ListNotations.
Open Scope Z_scope.

(** ** Powers of ten *)

Definition p10 (k : Z) : Q := ((10 # 1) ^ k)%Q.
Lemma p10_add a b : (p10 (a + b) == p10 a * p10 b)%Q.
Proof. apply Qpower_plus. discriminate. Qed.
Lemma p10_pos k : (0 < p10 k)%Q.
Proof.
  assert (N : (0 <= p10 k)%Q) by (apply Qpower_pos; discriminate).
  assert (~ (p10 k == 0)%Q) by (apply Qpower_not_0; discriminate).
  lra.
Qed.
Lemma p10_Z k : 0 <= k -> (p10 k == inject_Z (10 ^ k))%Q.
Proof. intros K. symmetry. apply (Zpower_Qpower 10 k K). Qed.
Lemma p10_opp k : (p10 k * p10 (- k) == 1)%Q.
Proof. rewrite <- p10_add. replace (k + - k) with 0 by lia. reflexivity. Qed.
Lemma pow10_pos k : 0 <= k -> 0 < 10 ^ k.
Proof. intros. apply Z.pow_pos_nonneg; lia. Qed.

Lemma decQ_shift n j k : 0 <= j -> (decQ (n * 10 ^ j) k == decQ n (k + j))%Q.
Proof.
  intros J. unfold decQ. change ((10 # 1) ^ k)%Q with (p10 k). change ((10 # 1) ^ (k + j))%Q with (p10 (k + j)).
  rewrite p10_add, inject_Z_mult, <- p10_Z by exact J. ring.
Qed.
Lemma decQ_inj n n' k : (decQ n k == decQ n' k)%Q -> n = n'.
Proof.
  unfold decQ. change ((10 # 1) ^ k)%Q with (p10 k). intros E. pose proof (p10_pos k) as P.
  apply inject_Z_injective. apply (Qmult_inj_r _ _ (p10 k)); [lra|exact E].
Qed.

(** ** Decimals of at most 15 digits *)

Lemma apart n k n' k' : k <= k' -> ~ (decQ n k == decQ n' k')%Q -> (p10 k <= Qabs (decQ n' k' - decQ n k))%Q.
Proof.
  intros K Ne. replace k' with (k + (k' - k)) in Ne |- * by lia.
  rewrite <- (decQ_shift n' (k' - k) k) in Ne |- * by lia. set (m := n' * 10 ^ (k' - k)) in *. clearbody m.
  unfold decQ in *. change ((10 # 1) ^ k)%Q with (p10 k) in *. pose proof (p10_pos k) as P.
  assert (m <> n) by (intros ->; apply Ne; reflexivity).
  setoid_replace (inject_Z m * p10 k - inject_Z n * p10 k)%Q with (inject_Z (m - n) * p10 k)%Q
    by (unfold Z.sub; rewrite inject_Z_plus, inject_Z_opp; ring).
  rewrite Qabs_Qmult, (Qabs_pos (p10 k)) by lra.
  assert (1 <= Qabs (inject_Z (m - n)))%Q.
  { change (Qabs (inject_Z (m - n))) with (inject_Z (Z.abs (m - n))). change 1%Q with (inject_Z 1). rewrite <- Zle_Qle. lia. }
  nra.
Qed.

Lemma same_decimal x n k n' k' : 0 < n < 10 ^ 15 -> k <= k' ->
  (p2 (-1022) <= decQ n k)%Q -> (decQ n k <= p2 1022)%Q -> (p2 (-1022) <= decQ n' k')%Q -> (decQ n' k' <= p2 1022)%Q ->
  nearest_double (decQ n k) x -> nearest_double (decQ n' k') x -> (decQ n k == decQ n' k')%Q.
Proof.
  intros N K L U L' U' X X'. destruct (Qeq_dec (decQ n k) (decQ n' k')) as [E|Ne]; [exact E|exfalso].
  pose proof (nearest_rel _ _ L U X) as R. pose proof (nearest_rel _ _ L' U' X') as R'.
  pose proof (apart n k n' k' K Ne) as A. pose proof (p10_pos k) as P.
  assert (B : (decQ n k <= inject_Z (10 ^ 15) * p10 k)%Q).
  { unfold decQ. change ((10 # 1) ^ k)%Q with (p10 k). apply Qmult_le_r; [exact P|]. rewrite <- Zle_Qle. lia. }
  set (t := p10 k) in *. set (D := decQ n k) in *. set (D' := decQ n' k') in *. clearbody t D D'.
  clear L U L' U' X X' N K Ne.
  change (inject_Z (10 ^ 15)) with (1000000000000000 # 1) in B.
  change (p2 (-53)) with (1 # 9007199254740992) in *.
  rewrite Qabs_bounds in R, R'.
  assert (A' : (t <= D' - D \/ t <= D - D')%Q).
  { destruct (Qlt_le_dec (D' - D) 0) as [S|S]; [right; rewrite Qabs_neg in A by lra; lra|left; rewrite Qabs_pos in A by lra; exact A]. }
  destruct A' as [A'|A']; lra.
Qed.

(** the double that a decimal between 0.01 and 10^13 reads as keeps every decimal that
    reads as it away from the extremes *)
Lemma moderate x n k : (1 # 200 <= x)%Q -> (x <= inject_Z (10 ^ 14))%Q -> nearest_double (decQ n k) x ->
  (p2 (-1022) <= decQ n k)%Q /\ (decQ n k <= p2 1022)%Q.
Proof.
  intros L U X. split; apply Qnot_lt_le; intros C.
  - assert (D : is_double (p2 (-1022))) by (exists 1, (-1022); split; [reflexivity|split; [lia|rewrite numQ_p2; ring]]).
    pose proof (nearest_le _ _ _ X D ltac:(lra)) as H. assert (p2 (-1022) < 1 # 200)%Q by (vm_compute; reflexivity). lra.
  - assert (D : is_double (p2 1022)) by (exists (2 ^ 52), 970; split; [reflexivity|split; [lia|vm_compute; reflexivity]]).
    pose proof (nearest_ge _ _ _ X D ltac:(lra)) as H. assert (inject_Z (10 ^ 14) < p2 1022)%Q by (vm_compute; reflexivity). lra.
Qed.
Lemma same_decimals x n k n' k' : (1 # 200 <= x)%Q -> (x <= inject_Z (10 ^ 14))%Q -> 0 < n < 10 ^ 15 -> 0 < n' < 10 ^ 15 ->
  nearest_double (decQ n k) x -> nearest_double (decQ n' k') x -> (decQ n k == decQ n' k')%Q.
Proof.
  intros L U N N' X X'. destruct (moderate x n k L U X) as [A B]. destruct (moderate x n' k' L U X') as [A' B'].
  destruct (Z.le_ge_cases k k') as [K|K]; [now apply (same_decimal x)|symmetry; now apply (same_decimal x)].
Qed.

(** ** Without zeros at the end *)

Lemma stripped n : 0 < n -> exists m j, n = m * 10 ^ j /\ 0 <= j /\ 0 < m /\ m mod 10 <> 0.
Proof.
  intros N. assert (H : forall b, forall n, 0 < n < b -> exists m j, n = m * 10 ^ j /\ 0 <= j /\ 0 < m /\ m mod 10 <> 0).
  { intros b. destruct (Z.le_gt_cases 0 b) as [B|B]; [|intros; lia]. revert b B.
    apply (natlike_ind (fun b => forall n, 0 < n < b -> exists m j, n = m * 10 ^ j /\ 0 <= j /\ 0 < m /\ m mod 10 <> 0)); [intros; lia|].
    intros b B IH a A. destruct (Z.eq_dec (a mod 10) 0) as [E|E].
    - pose proof (Z.div_mod a 10 ltac:(lia)) as D. destruct (IH (a / 10) ltac:(lia)) as [m [j [Ea [J [M T]]]]].
      exists m, (j + 1). split; [rewrite Z.pow_add_r by lia; change (10 ^ 1) with 10; lia|]. split; [lia|]. now split.
    - exists a, 0. split; [change (10 ^ 0) with 1; lia|]. split; [lia|]. now split. }
  apply (H (n + 1)). lia.
Qed.
Lemma some_digits n : 0 < n -> exists d, has_digits n d.
Proof.
  intros N. assert (H : forall d, 0 <= d -> n < 10 ^ d -> exists d, has_digits n d).
  { apply (natlike_ind (fun d => n < 10 ^ d -> exists d, has_digits n d)); [change (10 ^ 0) with 1; lia|].
    intros d D IH L. destruct (Z.lt_ge_cases n (10 ^ d)) as [C|C]; [exact (IH C)|].
    exists (Z.succ d). split; [lia|]. replace (Z.succ d - 1) with d by lia. split; assumption. }
  apply (H n); [lia|]. apply Z.pow_gt_lin_r; lia.
Qed.
Lemma digits_le n d n' d' : has_digits n d -> has_digits n' d' -> n <= n' -> d <= d'.
Proof.
  intros [D [L U]] [D' [L' U']] N. destruct (Z.le_gt_cases d d') as [C|C]; [exact C|exfalso].
  assert (10 ^ d' <= 10 ^ (d - 1)) by (apply Z.pow_le_mono_r; lia). lia.
Qed.
Lemma digits_bound n d k : has_digits n d -> n < 10 ^ k -> 0 <= k -> d <= k.
Proof.
  intros [D [L U]] N K. destruct (Z.le_gt_cases d k) as [C|C]; [exact C|exfalso].
  assert (10 ^ k <= 10 ^ (d - 1)) by (apply Z.pow_le_mono_r; lia). lia.
Qed.
Lemma few_digits n d : has_digits n d -> d <= 15 -> 0 < n < 10 ^ 15.
Proof.
  intros [D [L U]] B. assert (0 < 10 ^ (d - 1)) by (apply pow10_pos; lia).
  assert (10 ^ d <= 10 ^ 15) by (apply Z.pow_le_mono_r; lia). lia.
Qed.

(** ** The shortest decimal *)

Lemma decQ_compare n k n' k' : (decQ n k == decQ n' k')%Q -> n mod 10 <> 0 -> k' <= k /\ n' = n * 10 ^ (k - k').
Proof.
  intros E M. destruct (Z.le_gt_cases k' k) as [K|K].
  - split; [exact K|]. apply (decQ_inj _ _ k'). rewrite decQ_shift by lia. replace (k' + (k - k')) with k by lia. now symmetry.
  - exfalso. apply M. assert (n = n' * 10 ^ (k' - k)) as ->.
    { apply (decQ_inj _ _ k). rewrite decQ_shift by lia. replace (k + (k' - k)) with k' by lia. exact E. }
    replace (k' - k) with (1 + (k' - k - 1)) by lia. rewrite Z.pow_add_r by lia. change (10 ^ 1) with 10.
    replace (n' * (10 * 10 ^ (k' - k - 1))) with (n' * 10 ^ (k' - k - 1) * 10) by ring. apply Z.mod_mul. lia.
Qed.

Lemma shortest_iff x n k d : (1 # 200 <= x)%Q -> (x <= inject_Z (10 ^ 14))%Q -> has_digits n d -> d <= 15 -> n mod 10 <> 0 ->
  reads_as (decQ n k) x -> forall n' k' d', shortest x n' k' d' <-> (n' = n /\ k' = k /\ d' = d).
Proof.
  intros L U D B M R n' k' d'. pose proof (few_digits n d D B) as N. split.
  - intros [D' R' Le _]. pose proof (Le n k d D R) as G. pose proof (few_digits n' d' D' ltac:(lia)) as N'.
    pose proof (same_decimals x n k n' k' L U N N' (proj1 R) (proj1 R')) as E.
    destruct (decQ_compare n k n' k' E M) as [K En]. destruct (Z.eq_dec k k') as [->|Ne].
    + replace (k' - k') with 0 in En by lia. change (10 ^ 0) with 1 in En. rewrite Z.mul_1_r in En. subst n'.
      split; [reflexivity|]. split; [reflexivity|]. pose proof (digits_le _ _ _ _ D D' ltac:(lia)). lia.
    + exfalso. destruct D as [D1 [D2 D3]], D' as [D1' [D2' D3']].
      assert (10 ^ 1 <= 10 ^ (k - k')) by (apply Z.pow_le_mono_r; lia). change (10 ^ 1) with 10 in *.
      assert (10 ^ d' <= 10 ^ d) by (apply Z.pow_le_mono_r; lia).
      assert (10 ^ d = 10 * 10 ^ (d - 1)) by (replace d with (1 + (d - 1)) at 1 by lia; rewrite Z.pow_add_r by lia; reflexivity).
      nia.
  - intros (-> & -> & ->). split; [exact D|exact R| |].
    + intros n' k' d' D' R'. destruct (Z.le_gt_cases d d') as [C|C]; [exact C|exfalso].
      pose proof (few_digits n' d' D' ltac:(lia)) as N'.
      pose proof (same_decimals x n k n' k' L U N N' (proj1 R) (proj1 R')) as E.
      destruct (decQ_compare n k n' k' E M) as [K En].
      assert (n <= n') by (pose proof (pow10_pos (k - k') ltac:(lia)); nia).
      pose proof (digits_le _ _ _ _ D D' ltac:(lia)). lia.
    + intros n' k' D' R'. pose proof (few_digits n' d D' ltac:(lia)) as N'.
      pose proof (same_decimals x n k n' k' L U N N' (proj1 R) (proj1 R')) as E. rewrite E. apply Qle_refl.
Qed.

(** ** The text *)

Lemma two_digits r : 0 <= r < 100 -> padded 2 r = (str_of_Z (r / 10) ++ str_of_Z (r mod 10))%string.
Proof.
  intros R. assert (F : forallb (fun r => String.eqb (padded 2 r) (str_of_Z (r / 10) ++ str_of_Z (r mod 10))) (map Z.of_nat (seq 0 100)) = true)
    by (vm_compute; reflexivity).
  rewrite forallb_forall in F. apply String.eqb_eq, F, in_map_iff. exists (Z.to_nat r). split; [lia|]. apply in_seq. lia.
Qed.
Lemma one_digit r : 0 <= r < 10 -> padded 1 r = str_of_Z r.
Proof.
  intros R. assert (F : forallb (fun r => String.eqb (padded 1 r) (str_of_Z r)) (map Z.of_nat (seq 0 10)) = true) by (vm_compute; reflexivity).
  rewrite forallb_forall in F. apply String.eqb_eq, F, in_map_iff. exists (Z.to_nat r). split; [lia|]. apply in_seq. lia.
Qed.

Lemma text_assoc (a b c : string) : ((a ++ b) ++ c)%string = (a ++ b ++ c)%string.
Proof. induction a as [|ch a IH]; [reflexivity|]. cbn [append]. now rewrite IH. Qed.
Lemma text_nil (s : string) : (s ++ "")%string = s.
Proof. induction s as [|a s IH]; [reflexivity|]. cbn [append]. now rewrite IH. Qed.
Lemma positional_hundredths n m j : n = m * 10 ^ j -> 0 <= j -> 0 < m -> m mod 10 <> 0 ->
  positional m (j - 2) = hundredths_text n.
Proof.
  intros En J M T. unfold positional, hundredths_text. destruct (Z.leb_spec 0 (j - 2)) as [C|C].
  - assert (E : n = m * 10 ^ (j - 2) * 100).
    { rewrite En. replace j with ((j - 2) + 2) at 1 by lia. rewrite Z.pow_add_r by lia. change (10 ^ 2) with 100. ring. }
    rewrite E, Z.div_mul, Z.mod_mul by lia.
    replace (m * 10 ^ (j - 2) * 100) with (m * 10 ^ (j - 2) * 10 * 10) by ring. rewrite Z.mod_mul by lia. reflexivity.
  - assert (j = 0 \/ j = 1) as [->| ->] by lia.
    + change (10 ^ 0) with 1 in En. rewrite Z.mul_1_r in En. subst n. change (- (0 - 2)) with 2. change (10 ^ 2) with 100.
      rewrite two_digits by (apply Z.mod_pos_bound; lia).
      destruct (Z.eqb_spec (m mod 10) 0) as [Z0|_]; [lia|].
      replace (m mod 100 mod 10) with (m mod 10); [reflexivity|].
      rewrite (Z.mod_eq m 100) by lia. replace (m - 100 * (m / 100)) with (m + (- 10 * (m / 100)) * 10) by ring. now rewrite Z_mod_plus_full.
    + change (10 ^ 1) with 10 in En. change (- (1 - 2)) with 1. change (10 ^ 1) with 10.
      rewrite one_digit by (apply Z.mod_pos_bound; lia).
      subst n. rewrite (Z.mod_mul m 10) by lia. change (0 =? 0) with true. cbv iota.
      replace (m * 10 / 100) with (m / 10) by (change 100 with (10 * 10); rewrite <- Z.div_div, Z.div_mul by lia; reflexivity).
      replace (m * 10 mod 100 / 10) with (m mod 10); [now rewrite text_nil|].
      change 100 with (10 * 10). rewrite Z.mul_comm, Z.mul_mod_distr_l, Z.mul_comm, Z.div_mul by lia. reflexivity.
Qed.

Lemma reads_comp x y r s : (x == y)%Q -> (r == s)%Q -> reads_as x r -> reads_as y s.
Proof. intros E F [A B]. split; [exact (nearest_comp _ _ _ _ E F A)|exact (ties_comp _ _ _ _ E F B)]. Qed.
Lemma nearest_neg x r : nearest_double x r -> nearest_double (- x) (- r).
Proof.
  intros [D N]. split; [now apply is_double_opp|]. intros f F.
  setoid_replace (- r - - x)%Q with (- (r - x))%Q by ring. setoid_replace (f - - x)%Q with (- ((- f) - x))%Q by ring.
  rewrite !Qabs_opp. apply N. now apply is_double_opp.
Qed.
Lemma reads_abs x r : reads_as x r -> (0 <= x /\ 0 <= r \/ x <= 0 /\ r <= 0)%Q -> reads_as (Qabs x) (Qabs r).
Proof.
  intros [A B] [[X R]|[X R]].
  - apply (reads_comp x _ r _); [now rewrite Qabs_pos|now rewrite Qabs_pos|now split].
  - apply (reads_comp (- x) _ (- r) _); [now rewrite Qabs_neg|now rewrite Qabs_neg|].
    split; [now apply nearest_neg|now apply ties_opp].
Qed.
Lemma nearest_sign x r : nearest_double x r -> (0 <= x /\ 0 <= r \/ x <= 0 /\ r <= 0)%Q.
Proof.
  intros N. destruct (Qlt_le_dec x 0) as [X|X].
  - right. split; [lra|]. apply (nearest_le _ _ _ N zero_double). lra.
  - left. split; [lra|]. apply (nearest_ge _ _ _ N zero_double). lra.
Qed.

Theorem hundredths_written neg x n : reads_as (inject_Z n / 100) x -> Z.abs n < 10 ^ 15 ->
  forall s, float_text neg x s <-> s = (minus neg ++ hundredths_text (Z.abs n))%string.
Proof.
  intros R B s. destruct (Z.eq_dec n 0) as [->|Nz].
  - assert (X0 : (x == 0)%Q).
    { pose proof (nearest_exact _ _ (proj1 R)) as E. setoid_rewrite E; [reflexivity|]. apply (is_double_comp 0); [reflexivity|apply zero_double]. }
    split.
    + intros [_|n k d C _]; [reflexivity|now destruct C].
    + intros ->. now apply float_zero.
  - assert (RA : reads_as (decQ (Z.abs n) (-2)) (Qabs x)).
    { apply (reads_comp (Qabs (inject_Z n / 100)) _ (Qabs x) _); [|reflexivity|apply reads_abs; [exact R|apply nearest_sign, R]].
      unfold decQ. change ((10 # 1) ^ -2)%Q with (/ 100)%Q. unfold Qdiv. rewrite Qabs_Qmult. reflexivity. }
    destruct (stripped (Z.abs n) ltac:(lia)) as [m [j [En [J [M T]]]]]. destruct (some_digits m M) as [d D].
    assert (Pj : 0 < 10 ^ j) by now apply pow10_pos.
    assert (Bm : m < 10 ^ 15) by nia. pose proof (digits_bound m d 15 D Bm ltac:(lia)) as D15.
    assert (RM : reads_as (decQ m (j - 2)) (Qabs x)).
    { apply (reads_comp (decQ (Z.abs n) (-2)) _ (Qabs x) _); [|reflexivity|exact RA].
      rewrite En, decQ_shift by lia. now replace (-2 + j) with (j - 2) by lia. }
    assert (Dn : (1 # 100 <= decQ (Z.abs n) (-2) /\ decQ (Z.abs n) (-2) <= inject_Z (10 ^ 13))%Q).
    { unfold decQ. change ((10 # 1) ^ -2)%Q with (1 # 100)%Q.
      assert (1 <= inject_Z (Z.abs n))%Q by (change 1%Q with (inject_Z 1); rewrite <- Zle_Qle; lia).
      assert (inject_Z (Z.abs n) <= inject_Z (10 ^ 15))%Q by (rewrite <- Zle_Qle; lia).
      change (inject_Z (10 ^ 15)) with (1000000000000000 # 1) in *. change (inject_Z (10 ^ 13)) with (10000000000000 # 1). lra. }
    assert (L : (1 # 200 <= Qabs x)%Q).
    { apply Qle_trans with (p2 (-7)); [vm_compute; discriminate|].
      apply (nearest_ge _ _ _ (proj1 RA)); [exists 1, (-7); split; [reflexivity|split; [lia|vm_compute; reflexivity]]|].
      apply Qle_trans with (1 # 100); [vm_compute; discriminate|apply Dn]. }
    assert (U : (Qabs x <= inject_Z (10 ^ 14))%Q).
    { apply Qle_trans with (inject_Z (10 ^ 13)); [|vm_compute; discriminate].
      apply (nearest_le _ _ _ (proj1 RA)); [|apply Dn]. exists (10 ^ 13), 0. split; [reflexivity|split; [lia|vm_compute; reflexivity]]. }
    assert (X0 : ~ (x == 0)%Q) by (intros E; rewrite E in L; vm_compute in L; now apply L).
    pose proof (shortest_iff (Qabs x) m (j - 2) d L U D D15 T RM) as Sh.
    assert (Range : (-4 <? d + (j - 2)) && (d + (j - 2) <=? 16) = true).
    { apply andb_true_intro. split; [apply Z.ltb_lt|apply Z.leb_le]; destruct D as [D1 [D2 D3]]; [lia|].
      apply Znot_gt_le. intros G. assert (10 ^ 15 <= 10 ^ (d - 1 + j)) by (apply Z.pow_le_mono_r; lia).
      rewrite Z.pow_add_r in H by lia. nia. }
    split.
    + intros [C|n' k' d' _ S]; [now destruct X0|]. apply Sh in S. destruct S as (-> & -> & ->). rewrite Range.
      now rewrite (positional_hundredths (Z.abs n) m j).
    + intros ->. rewrite <- (positional_hundredths (Z.abs n) m j En J M T).
      pose proof (float_other neg x m (j - 2) d X0 (proj2 (Sh m (j - 2) d) (conj eq_refl (conj eq_refl eq_refl)))) as F.
      rewrite Range in F. exact F.
Qed.

(** ** The first line of a report *)

Theorem python_writes ftext : writes_floats ftext -> writes_hundredths ftext.
Proof.
  intros W neg r n J R B. pose proof (hundredths_written neg (numQ r) n R B) as H.
  apply H, W; [exact J|]. exists (minus neg ++ hundredths_text (Z.abs n))%string. now apply H.
Qed.

(** such a function *)
Definition float_str (neg : bool) (a : num) : string := (minus neg ++ hundredths_text (Z.abs (hundredths (mant a) (expo a))))%string.
Theorem float_str_writes : writes_hundredths float_str.
Proof.
  intros neg a n J [N _] B. unfold float_str. f_equal. f_equal. f_equal.
  pose proof (hundredths_spec (mant a) (expo a)) as H. rewrite <- (float_form a J) in H.
  assert (C : (Qabs (numQ a - inject_Z n / 100) <= 1 # 300)%Q).
  { assert (Pos : forall x r : Q, nearest_double x r -> (0 < x)%Q -> (1 # 100 <= x)%Q -> (x <= inject_Z (10 ^ 13))%Q -> (Qabs (r - x) <= 1 # 300)%Q).
    { intros x r X P L U. eapply Qle_trans; [apply (nearest_rel x r)|].
      - apply Qle_trans with (1 # 100); [vm_compute; discriminate|exact L].
      - apply Qle_trans with (inject_Z (10 ^ 13)); [exact U|vm_compute; discriminate].
      - exact X.
      - change (p2 (-53)) with (1 # 9007199254740992). change (inject_Z (10 ^ 13)) with (10000000000000 # 1) in U. lra. }
    assert (E : (inject_Z n / 100 == inject_Z n * (1 # 100))%Q) by reflexivity. 
    assert (Up : (inject_Z n <= inject_Z (10 ^ 15) /\ inject_Z (- 10 ^ 15) <= inject_Z n)%Q) by (split; rewrite <- Zle_Qle; lia).
    change (inject_Z (10 ^ 15)) with (1000000000000000 # 1) in Up. change (inject_Z (- 10 ^ 15)) with (- 1000000000000000 # 1) in Up.
    destruct (Z.lt_trichotomy n 0) as [G|[->|G]].
    - assert (inject_Z n <= inject_Z (-1))%Q by (rewrite <- Zle_Qle; lia). change (inject_Z (-1)) with (- 1 # 1) in *.
      setoid_replace (numQ a - inject_Z n / 100)%Q with (- (- numQ a - - (inject_Z n / 100)))%Q by ring. rewrite Qabs_opp.
      change (inject_Z (10 ^ 13)) with (10000000000000 # 1) in Pos.
      apply Pos; [now apply nearest_neg|rewrite E; lra|rewrite E; lra|rewrite E; lra].
    - assert (Z0 : (numQ a == inject_Z 0 / 100)%Q) by (apply nearest_exact; [exact N|apply (is_double_comp 0); [reflexivity|apply zero_double]]).
      rewrite Z0. vm_compute. discriminate.
    - assert (inject_Z 1 <= inject_Z n)%Q by (rewrite <- Zle_Qle; lia). change (inject_Z 1) with (1 # 1) in *.
      change (inject_Z (10 ^ 13)) with (10000000000000 # 1) in Pos.
      apply Pos; [exact N|rewrite E; lra|rewrite E; lra|rewrite E; lra]. }
  set (h := hundredths (mant a) (expo a)) in *. clearbody h.
  assert (Eh : (inject_Z h / 100 == inject_Z h * (1 # 100))%Q) by reflexivity. rewrite Eh in H.
  assert (En : (inject_Z n / 100 == inject_Z n * (1 # 100))%Q) by reflexivity. rewrite En in C. rewrite Qabs_bounds in H, C.
  assert (L : (inject_Z (h - n) < inject_Z 1)%Q) by (unfold Z.sub; rewrite inject_Z_plus, inject_Z_opp; change (inject_Z 1) with (1 # 1); lra).
  assert (U : (inject_Z (n - h) < inject_Z 1)%Q) by (unfold Z.sub; rewrite inject_Z_plus, inject_Z_opp; change (inject_Z 1) with (1 # 1); lra).
  rewrite <- Zlt_Qlt in L, U. lia.
Qed.

Lemma small_hundredths n x : (Qabs (inject_Z n / 100 - x) <= 1 # 200)%Q -> (Qabs x <= inject_Z (2 * 10 ^ 12))%Q -> Z.abs n < 10 ^ 15.
Proof.
  intros H B. change (inject_Z (2 * 10 ^ 12)) with (2000000000000 # 1) in B. rewrite Qabs_bounds in H, B.
  assert (E : (inject_Z n / 100 == inject_Z n * (1 # 100))%Q) by reflexivity. rewrite E in H. clear E.
  assert (L : (inject_Z (- (10 ^ 15)) < inject_Z n)%Q) by (change (inject_Z (- (10 ^ 15))) with (- 1000000000000000 # 1); lra).
  assert (U : (inject_Z n < inject_Z (10 ^ 15))%Q) by (change (inject_Z (10 ^ 15)) with (1000000000000000 # 1); lra).
  rewrite <- Zlt_Qlt in L, U. lia.
Qed.

Theorem summary_text c ftext square x : cfg_trunc c = false -> good_square square -> writes_hundredths ftext -> proper x -> int_vals x ->
  total x <= 2 ^ 400 -> (forall e, In e x -> Z.abs (toZ (fst e)) <= 10 ^ 12) ->
  exists m n s k t, summary c ftext square x = Ok (minus (negb (Qle_bool 0 m)) ++ hundredths_text (Z.abs n) ++ " ± " ++ t)%string /\
    nearest_double (expectation x) m /\ (Qabs (inject_Z n / 100 - m) <= 1 # 200)%Q /\
    (0 <= s)%Q /\ (Qabs (s * s - variance x) <= mean_square x * p2 (-48))%Q /\ (Qabs (inject_Z k / 100 - s) <= 1 # 200)%Q /\
    (t = hundredths_text k \/ (t = "0"%string /\ (s == 0)%Q)).
Proof.
  intros Ht Sq W P I T V.
  assert (V' : forall e, In e x -> Z.abs (toZ (fst e)) <= 2 ^ 400).
  { intros e Ie. apply Z.le_trans with (10 ^ 12); [exact (V e Ie)|]. vm_compute. discriminate. }
  destruct (summary_ok c ftext square x Ht Sq P I T V') as [m [m' [neg [s [s' [t [Es [Jm [Kt [_ [Nm [[n [Hn [Nn Tn]]] [Ng [Rs Hs]]]]]]]]]]]]]].
  destruct (std_close c square x Ht Sq P I T V') as [s2 [Rs2 [_ [S0 S1]]]].
  rewrite Rs in Rs2. injection Rs2 as <-. destruct Hs as [k [Hk [Nk Tk]]].
  assert (D12 : is_double (inject_Z (10 ^ 12))).
  { exists (10 ^ 12), 0. split; [reflexivity|]. split; [lia|]. vm_compute. reflexivity. }
  assert (B1 : (Qabs (expectation x) <= inject_Z (10 ^ 12))%Q) by (unfold expectation; now apply average_bound).
  assert (Bm : (Qabs (numQ m) <= inject_Z (2 * 10 ^ 12))%Q).
  { apply Qle_trans with (inject_Z (10 ^ 12)); [|vm_compute; discriminate]. rewrite Qabs_bounds in B1 |- *. split.
    - apply (nearest_ge _ _ _ Nm); [now apply is_double_opp|apply B1].
    - apply (nearest_le _ _ _ Nm D12). apply B1. }
  assert (Bs : (Qabs (numQ s) <= inject_Z (2 * 10 ^ 12))%Q).
  { rewrite Qabs_pos by exact S0. apply Qnot_lt_le. intros G.
    assert (M : (mean_square x <= inject_Z (10 ^ 12 * 10 ^ 12))%Q).
    { rewrite mean_square_wsum. eapply Qle_trans; [apply Qle_Qabs|]. apply average_bound; [exact P|]. intros e Ie. specialize (V e Ie).
      rewrite Z.abs_mul. apply Z.mul_le_mono_nonneg; lia. }
    pose proof (variance_squares x (proj2 P)) as VS. pose proof (square_nonneg (expectation x)) as E0. pose proof (variance_nonneg x P) as V0.
    change (p2 (-48)) with (1 # 281474976710656) in S1. rewrite Qabs_bounds in S1. rewrite inject_Z_mult in M. rewrite inject_Z_mult in G.
    set (a := inject_Z (10 ^ 12)) in *. assert (A0 : (0 < a)%Q) by reflexivity. clearbody a.
    change (inject_Z 2) with (2 # 1) in G. set (u := numQ s) in *. clearbody u.
    assert (Sq4 : ((2 # 1) * a * ((2 # 1) * a) < u * u)%Q) by nra.
    set (w := (u * u)%Q) in *. clearbody w. set (b := (a * a)%Q) in *.
    assert (Eb : ((2 # 1) * a * ((2 # 1) * a) == (4 # 1) * b)%Q) by (unfold b; ring). rewrite Eb in Sq4.
    assert (B0 : (0 < b)%Q) by (unfold b; nra). clearbody b. lra. }
  pose proof (small_hundredths _ _ Hn Bm) as Cn. pose proof (small_hundredths _ _ Hk Bs) as Ck.
  rewrite (W neg m' n Jm (conj Nn Tn) Cn) in Es.
  exists (numQ m), n, (numQ s), (Z.abs k), t. split; [|split; [exact Nm|split; [exact Hn|split; [exact S0|split; [exact S1|]]]]].
  - rewrite Es. f_equal. assert (neg = negb (Qle_bool 0 (numQ m))) as ->.
    { destruct (Qle_bool 0 (numQ m)) eqn:Q0.
      - apply Qle_bool_iff in Q0. destruct neg; [|reflexivity]. exfalso. destruct Ng as [Ng _]. specialize (Ng eq_refl). lra.
      - cbn [negb]. apply Ng. apply Qnot_le_lt. intros C. apply Qle_bool_iff in C. congruence. }
    now rewrite text_assoc.
  - assert (K0 : 0 <= k).
    { rewrite Qabs_bounds in Hk. assert (E : (inject_Z k / 100 == inject_Z k * (1 # 100))%Q) by reflexivity. rewrite E in Hk. clear E.
      apply Znot_gt_le. intros G. assert (inject_Z k <= inject_Z (-1))%Q by (rewrite <- Zle_Qle; lia).
      change (inject_Z (-1)) with (- 1 # 1) in *. lra. }
    rewrite Z.abs_eq by exact K0. split; [exact Hk|]. destruct Kt as [[-> Js]|[-> Z0]].
    + left. rewrite (W false s' k Js (conj Nk Tk) Ck). now rewrite Z.abs_eq.
    + right. split; [reflexivity|].
      rewrite (proj1 Z0). reflexivity.
Qed.
