(** The number model against the rational numbers. *)
From Coq Require Import List ZArith QArith Bool Lia Lqa.
From Verif Require Import PyBase Num Val Spec CmpFacts.
Import ListNotations.
Open Scope Z_scope.

Lemma pow2_pos k : 0 <= k -> 0 < 2 ^ k.
Proof. intro. apply Z.pow_pos_nonneg; lia. Qed.

(** value at a common small exponent *)
Lemma numQ_scaled x e : e <= expo x -> e <= 0 ->
  (numQ x * inject_Z (2 ^ (- e)) == inject_Z (shl (mant x) (expo x - e)))%Q.
Proof.
  intros H He. destruct x as [z|m k]; cbn [mant expo] in *.
  - unfold numQ, shl. rewrite <- inject_Z_mult. replace (0 - e) with (- e) by lia. reflexivity.
  - unfold numQ, shl. destruct (Z.leb_spec 0 k) as [Hk|Hk].
    + rewrite <- inject_Z_mult, <- Z.mul_assoc, <- Z.pow_add_r by lia. 
      replace (k + - e) with (k - e) by lia. reflexivity.
    + assert (P : 2 ^ (- e) = 2 ^ (k - e) * 2 ^ (- k)) by (rewrite <- Z.pow_add_r by lia; f_equal; lia).
      rewrite P, !inject_Z_mult. field.
      intro K. unfold Qeq in K. cbn in K. pose proof (pow2_pos (- k)). lia.
Qed.

Lemma Qmult_compare_pos a b c : (0 < c)%Q -> ((a * c ?= b * c) = (a ?= b))%Q.
Proof.
  intro H. destruct (Qcompare_spec a b) as [E|E|E].
  - apply Qeq_alt. rewrite E. reflexivity.
  - apply Qlt_alt. apply Qmult_lt_r; assumption.
  - apply Qgt_alt. apply Qmult_lt_r; assumption.
Qed.

Lemma inject_Z_compare a b : ((inject_Z a ?= inject_Z b)%Q = Z.compare a b).
Proof. unfold Qcompare. cbn. rewrite !Z.mul_1_r. reflexivity. Qed.

(** Python's comparison of numbers is the comparison of the rationals. *)
Lemma ncmp_Q a b : ncmp a b = (numQ a ?= numQ b)%Q.
Proof.
  set (e := Z.min 0 (Z.min (expo a) (expo b))).
  rewrite (ncmp_at e) by (unfold e; lia).
  assert (P : (0 < inject_Z (2 ^ (- e)))%Q).
  { change 0%Q with (inject_Z 0). rewrite <- Zlt_Qlt. apply pow2_pos. unfold e; lia. }
  rewrite <- (Qmult_compare_pos _ _ _ P).
  pose proof (numQ_scaled a e ltac:(unfold e; lia) ltac:(unfold e; lia)) as Ea.
  pose proof (numQ_scaled b e ltac:(unfold e; lia) ltac:(unfold e; lia)) as Eb.
  rewrite Ea, Eb. symmetry. apply inject_Z_compare.
Qed.

Lemma neqb_Q a b : neqb a b = true <-> (numQ a == numQ b)%Q.
Proof. unfold neqb. rewrite ncmp_Q, Qeq_alt. destruct (_ ?= _)%Q; split; congruence. Qed.

Lemma veqb_Q a b : veqb (VN a) (VN b) = true <-> (numQ a == numQ b)%Q.
Proof. apply neqb_Q. Qed.

(** floor *)
Lemma dy_floor_spec m e :
  (inject_Z (dy_floor m e) <= numQ (NF m e) /\ numQ (NF m e) < inject_Z (dy_floor m e + 1))%Q.
Proof.
  unfold dy_floor, numQ. destruct (Z.ltb_spec e 0) as [H|H]; destruct (Z.leb_spec 0 e) as [H'|H']; try lia.
  - pose proof (pow2_pos (- e) ltac:(lia)) as P. set (p := 2 ^ (- e)) in *. clearbody p.
    assert (Pq : (0 < inject_Z p)%Q) by (change 0%Q with (inject_Z 0); rewrite <- Zlt_Qlt; lia).
    pose proof (Z.div_mod m p ltac:(lia)) as D. pose proof (Z.mod_pos_bound m p P) as B.
    set (q := m / p) in *. clearbody q.
    split.
    + apply Qle_shift_div_l; [exact Pq|]. rewrite <- inject_Z_mult, <- Zle_Qle. nia.
    + apply Qlt_shift_div_r; [exact Pq|]. rewrite <- inject_Z_mult, <- Zlt_Qlt. nia.
  - unfold shl. split; [apply Qle_refl|]. rewrite <- Zlt_Qlt. lia.
Qed.

Lemma numQ_as_NF n : (numQ n == numQ (NF (mant n) (expo n)))%Q.
Proof.
  destruct n; [|reflexivity]. unfold numQ. cbn [mant expo Z.leb Z.compare]. rewrite Z.mul_1_r. reflexivity.
Qed.

Lemma numQ_neg n : (numQ (nneg n) == - numQ n)%Q.
Proof.
  destruct n as [z|m e]; cbn [nneg numQ].
  - rewrite inject_Z_opp. reflexivity.
  - destruct (0 <=? e).
    + rewrite <- inject_Z_opp. rewrite Z.mul_opp_l. reflexivity.
    + rewrite inject_Z_opp. unfold Qdiv. ring.
Qed.

Lemma numQ_sign n : ((mant n < 0)%Z -> (numQ n < 0)%Q) /\ ((0 <= mant n)%Z -> (0 <= numQ n)%Q).
Proof.
  assert (S : forall m, (m < 0 -> 0 - 0 <> 1)%Z) by (intros; lia). clear S.
  rewrite numQ_as_NF. generalize (mant n) (expo n). intros m e. unfold numQ.
  destruct (Z.leb_spec 0 e) as [H|H].
  - pose proof (pow2_pos e H). split; intro K.
    + change 0%Q with (inject_Z 0). rewrite <- Zlt_Qlt. nia.
    + change 0%Q with (inject_Z 0). rewrite <- Zle_Qle. nia.
  - pose proof (pow2_pos (- e) ltac:(lia)).
    assert (Pq : (0 < inject_Z (2 ^ (- e)))%Q) by (change 0%Q with (inject_Z 0); rewrite <- Zlt_Qlt; lia).
    split; intro K.
    + apply Qlt_shift_div_r; [exact Pq|]. change (0 * inject_Z (2 ^ (- e)))%Q with (inject_Z 0 * inject_Z (2 ^ (- e)))%Q.
      rewrite <- inject_Z_mult, <- Zlt_Qlt. lia.
    + apply Qle_shift_div_l; [exact Pq|]. change (0 * inject_Z (2 ^ (- e)))%Q with (inject_Z 0 * inject_Z (2 ^ (- e)))%Q.
      rewrite <- inject_Z_mult, <- Zle_Qle. lia.
Qed.

Lemma nfloor_spec n : (inject_Z (nfloor n) <= numQ n /\ numQ n < inject_Z (nfloor n + 1))%Q.
Proof. rewrite !(numQ_as_NF n). apply dy_floor_spec. Qed.

Lemma nceil_spec n : (numQ n <= inject_Z (nceil n) /\ inject_Z (nceil n - 1) < numQ n)%Q.
Proof.
  pose proof (nfloor_spec (nneg n)) as [H1 H2]. rewrite !numQ_neg in *.
  assert (E : nfloor (nneg n) = - nceil n).
  { unfold nfloor, nceil. rewrite Z.opp_involutive. destruct n; reflexivity. }
  rewrite E in *.
  replace (- nceil n + 1) with (- (nceil n - 1)) in H2 by lia.
  rewrite inject_Z_opp in H1. rewrite inject_Z_opp in H2. split; lra.
Qed.

Lemma ntrunc_spec n : int_part (numQ n) (ntrunc n).
Proof.
  unfold ntrunc, int_part. destruct (Z.ltb_spec (mant n) 0) as [H|H].
  - right. apply (proj1 (numQ_sign n)) in H. pose proof (nceil_spec n). split; [lra|]. exact H0.
  - left. apply (proj2 (numQ_sign n)) in H. pose proof (nfloor_spec n). split; [lra|]. exact H0.
Qed.

Lemma int_part_unique x k k' : int_part x k -> int_part x k' -> k = k'.
Proof.
  unfold int_part.
  assert (Hz : forall a b, (inject_Z a < inject_Z b)%Q -> a < b) by (intros a b; rewrite <- Zlt_Qlt; auto).
  assert (Hp : forall a, (inject_Z (a + 1) == inject_Z a + 1)%Q) by (intro; rewrite inject_Z_plus; reflexivity).
  assert (Hm : forall a, (inject_Z (a - 1) == inject_Z a - 1)%Q)
    by (intro a; unfold Z.sub; rewrite inject_Z_plus; reflexivity).
  intros [(A & B & C)|(A & B & C)] [(A' & B' & C')|(A' & B' & C')].
  - assert (k < k' + 1) by (apply Hz; lra). assert (k' < k + 1) by (apply Hz; lra). lia.
  - assert (x == 0)%Q as E by lra.
    assert (k' - 1 < 0) by (apply Hz; change (inject_Z 0) with 0%Q; lra).
    assert (0 < k + 1) by (apply Hz; change (inject_Z 0) with 0%Q; lra).
    assert (k - 1 < 0) by (apply Hz; rewrite ?Hp, ?Hm; change (inject_Z 0) with 0%Q; lra).
    assert (0 < k' + 1) by (apply Hz; unfold Z.sub; rewrite inject_Z_plus; change (inject_Z 0) with 0%Q; change (inject_Z 1) with 1%Q; lra).
    lia.
  - assert (x == 0)%Q as E by lra.
    assert (k - 1 < 0) by (apply Hz; change (inject_Z 0) with 0%Q; lra).
    assert (0 < k' + 1) by (apply Hz; change (inject_Z 0) with 0%Q; lra).
    assert (k' - 1 < 0) by (apply Hz; rewrite ?Hp, ?Hm; change (inject_Z 0) with 0%Q; lra).
    assert (0 < k + 1) by (apply Hz; unfold Z.sub; rewrite inject_Z_plus; change (inject_Z 0) with 0%Q; change (inject_Z 1) with 1%Q; lra).
    lia.
  - assert (k - 1 < k') by (apply Hz; lra). assert (k' - 1 < k) by (apply Hz; lra). lia.
Qed.
