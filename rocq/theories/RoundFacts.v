(** Correctness of the rounding used by the float model. *)
From Coq Require Import ZArith QArith Qabs Qpower Bool Lia Lqa List.
From Verif Require Import PyBase Num Val Spec NumFacts.
Open Scope Z_scope.

Definition p2 (e : Z) : Q := ((2 # 1) ^ e)%Q.

Lemma two_nz : ~ ((2 # 1) == 0)%Q.
Proof. intro H. discriminate. Qed.

Lemma p2_add a b : (p2 (a + b) == p2 a * p2 b)%Q.
Proof. apply Qpower_plus, two_nz. Qed.

Lemma p2_pos e : (0 < p2 e)%Q.
Proof. apply Qpower_0_lt. reflexivity. Qed.

Lemma p2_Z e : 0 <= e -> (p2 e == inject_Z (2 ^ e))%Q.
Proof. intro H. symmetry. apply (Zpower_Qpower 2 e H). Qed.

Lemma p2_0 : (p2 0 == 1)%Q. Proof. reflexivity. Qed.

Lemma p2_opp e : (p2 e * p2 (- e) == 1)%Q.
Proof. rewrite <- p2_add. replace (e + - e) with 0 by lia. reflexivity. Qed.

Lemma p2_S e : (p2 (e + 1) == 2 * p2 e)%Q.
Proof. rewrite p2_add. change (p2 1) with (2#1). ring. Qed.

Lemma p2_le a b : a <= b -> (p2 a <= p2 b)%Q.
Proof.
  intro H. replace b with (a + (b - a)) by lia. rewrite p2_add.
  assert (1 <= p2 (b - a))%Q.
  { rewrite p2_Z by lia. change 1%Q with (inject_Z 1). rewrite <- Zle_Qle. pose proof (pow2_pos (b - a)). lia. }
  pose proof (p2_pos a). nra.
Qed.

Lemma numQ_p2 m e : (numQ (NF m e) == inject_Z m * p2 e)%Q.
Proof.
  unfold numQ. destruct (Z.leb_spec 0 e).
  - rewrite inject_Z_mult, p2_Z by lia. reflexivity.
  - pose proof (p2_opp e) as O. rewrite (p2_Z (- e)) in O by lia.
    assert (~ (inject_Z (2 ^ (- e)) == 0)%Q).
    { intro K. rewrite K in O. lra. }
    field_simplify_eq; [|assumption]. rewrite <- Qmult_assoc, (Qmult_comm _ (p2 e)), O. ring.
Qed.

Lemma fnorm_numQ m e : (numQ (fnorm m e) == inject_Z m * p2 e)%Q.
Proof.
  assert (S : forall p e q e', strip2 p e = (q, e') -> (inject_Z (Zpos q) * p2 e' == inject_Z (Zpos p) * p2 e)%Q).
  { clear. induction p as [p IH|p IH|]; intros e q e' H; cbn in H; try (inversion H; subst; reflexivity).
    rewrite (IH _ _ _ H), p2_S. change (Zpos p~0) with (2 * Zpos p). rewrite inject_Z_mult.
    change (inject_Z 2) with (2#1). ring. }
  unfold fnorm. destruct m as [|p|p]; [reflexivity| |];
    destruct (strip2 p e) as [q e'] eqn:E; apply S in E; rewrite numQ_p2; [exact E|].
  change (Zneg q) with (- Zpos q). change (Zneg p) with (- Zpos p). rewrite !inject_Z_opp. lra.
Qed.

Lemma fnorm_float m e : exists m' e', fnorm m e = NF m' e'.
Proof.
  unfold fnorm. destruct m as [|p|p]; [eauto| |]; destruct (strip2 p e) as [q e'];
    eauto.
Qed.

Lemma frac_pos n d : 0 < n -> 0 < d -> (0 < inject_Z n / inject_Z d)%Q.
Proof.
  intros. apply Qlt_shift_div_l; [change 0%Q with (inject_Z 0); rewrite <- Zlt_Qlt; lia|].
  rewrite Qmult_0_l. change 0%Q with (inject_Z 0). rewrite <- Zlt_Qlt. lia.
Qed.

Lemma inj_pos d : 0 < d -> (0 < inject_Z d)%Q.
Proof. intro. change 0%Q with (inject_Z 0). rewrite <- Zlt_Qlt. exact H. Qed.

Lemma le_frac a n d : 0 < d -> ((a <= inject_Z n / inject_Z d)%Q <-> (a * inject_Z d <= inject_Z n)%Q).
Proof.
  intro Hd. pose proof (inj_pos d Hd). split; intro H0.
  - apply (Qmult_le_r _ _ (inject_Z d)) in H0; [|assumption].
    rewrite Qmult_comm in H0. unfold Qdiv in H0. rewrite <- Qmult_assoc, (Qmult_comm (/ _)), Qmult_inv_r, Qmult_1_r in H0; [lra | lra].
  - apply Qle_shift_div_l; assumption.
Qed.

Lemma lt_frac a n d : 0 < d -> ((inject_Z n / inject_Z d < a)%Q <-> (inject_Z n < a * inject_Z d)%Q).
Proof.
  intro Hd. pose proof (inj_pos d Hd). split; intro H0.
  - apply Qnot_le_lt. intro K. apply (proj2 (le_frac a n d Hd)) in K. lra.
  - apply Qlt_shift_div_r; assumption.
Qed.

(** the exponent of the last bit *)
Lemma ulp_exp_spec n d : 0 < n -> 0 < d ->
  let x := (inject_Z n / inject_Z d)%Q in let e := ulp_exp n d in
  -1074 <= e /\ (x < p2 (e + 53))%Q /\ (e = -1074 \/ (p2 (e + 52) <= x)%Q).
Proof.
  intros Hn Hd x e.
  pose proof (Z.log2_spec n Hn) as [Ln1 Ln2]. pose proof (Z.log2_spec d Hd) as [Ld1 Ld2].
  pose proof (Z.log2_nonneg n). pose proof (Z.log2_nonneg d).
  set (k := Z.log2 n - Z.log2 d).
  rewrite Zle_Qle, <- p2_Z in Ln1, Ld1 by lia. rewrite Zlt_Qlt, <- p2_Z in Ln2, Ld2 by lia.
  pose proof (inj_pos d Hd) as Pd. pose proof (inj_pos n Hn) as Pn.
  assert (U : (x < p2 (k + 1))%Q).
  { apply lt_frac; [exact Hd|]. unfold Z.succ in *.
    replace (Z.log2 n + 1) with ((k + 1) + Z.log2 d) in Ln2 by (unfold k; lia). rewrite p2_add in Ln2.
    pose proof (p2_pos (k + 1)). nra. }
  assert (L : (p2 (k - 1) <= x)%Q).
  { apply le_frac; [exact Hd|]. unfold Z.succ in *.
    replace (Z.log2 n) with ((k - 1) + (Z.log2 d + 1)) in Ln1 by (unfold k; lia). rewrite p2_add in Ln1.
    pose proof (p2_pos (k - 1)). nra. }
  assert (G : (if 0 <=? k then d * 2 ^ k <=? n else d <=? n * 2 ^ (- k)) = true <-> (p2 k <= x)%Q).
  { unfold x. rewrite le_frac by exact Hd. destruct (Z.leb_spec 0 k).
    - rewrite Z.leb_le, Zle_Qle, inject_Z_mult, <- p2_Z by lia. rewrite Qmult_comm. reflexivity.
    - rewrite Z.leb_le, Zle_Qle, inject_Z_mult, <- p2_Z by lia. pose proof (p2_opp k) as O.
      pose proof (p2_pos k) as Q1. pose proof (p2_pos (- k)) as Q2. split; intro K.
      + apply (Qmult_le_l _ _ (p2 k) Q1) in K. rewrite (Qmult_comm (inject_Z n)), Qmult_assoc, O in K. lra.
      + apply (Qmult_le_l _ _ (p2 (- k)) Q2) in K. rewrite Qmult_assoc, (Qmult_comm (p2 (- k))), O in K. lra. }
  unfold e, ulp_exp. fold k.
  destruct (if 0 <=? k then d * 2 ^ k <=? n else d <=? n * 2 ^ (- k)) eqn:E.
  - pose proof (proj1 G eq_refl) as E'. split; [lia|]. split.
    + eapply Qlt_le_trans; [exact U|]. apply p2_le. lia.
    + destruct (Z.le_gt_cases (-1074) (k - 52)); [right|left; lia].
      rewrite Z.max_r by lia. replace (k - 52 + 52) with k by lia. exact E'.
  - assert (~ (p2 k <= x)%Q) as N by (intro K; apply (proj2 G) in K; congruence).
    apply Qnot_le_lt in N. split; [lia|]. split.
    + eapply Qlt_le_trans; [exact N|]. apply p2_le. lia.
    + destruct (Z.le_gt_cases (-1074) (k - 53)); [right|left; lia].
      rewrite Z.max_r by lia. replace (k - 53 + 52) with (k - 1) by lia. exact L.
Qed.

(** rounding a quotient to an integer *)
Lemma div_half_even_spec a b : 0 < b -> 2 * Z.abs (a - b * div_half_even a b) <= b.
Proof.
  intro Hb. unfold div_half_even. pose proof (Z.div_mod a b ltac:(lia)). pose proof (Z.mod_pos_bound a b Hb).
  destruct (Z.compare_spec (2 * (a mod b)) b); [destruct (Z.even (a / b))| |]; nia.
Qed.

Lemma div_half_even_nonneg a b : 0 <= a -> 0 < b -> 0 <= div_half_even a b.
Proof.
  intros Ha Hb. unfold div_half_even. pose proof (Z.div_pos a b Ha Hb).
  destruct (Z.compare (2 * (a mod b)) b); [destruct (Z.even (a / b))| |]; lia.
Qed.

Lemma half_even_Q a b : 0 < b -> (Qabs (inject_Z (div_half_even a b) - inject_Z a / inject_Z b) <= 1 # 2)%Q.
Proof.
  intro Hb. pose proof (div_half_even_spec a b Hb) as H. set (q := div_half_even a b) in *. clearbody q.
  pose proof (inj_pos b Hb). apply Qabs_Qle_condition.
  assert (E : (inject_Z a / inject_Z b * inject_Z b == inject_Z a)%Q) by (field; lra).
  set (y := (inject_Z a / inject_Z b)%Q) in *. clearbody y.
  assert (H1 : (2 * (inject_Z a - inject_Z b * inject_Z q) <= inject_Z b)%Q).
  { change 2%Q with (inject_Z 2). unfold Qminus. rewrite <- inject_Z_mult, <- inject_Z_opp, <- inject_Z_plus, <- inject_Z_mult, <- Zle_Qle. lia. }
  assert (H2 : (2 * (inject_Z b * inject_Z q - inject_Z a) <= inject_Z b)%Q).
  { change 2%Q with (inject_Z 2). unfold Qminus. rewrite <- inject_Z_mult, <- inject_Z_opp, <- inject_Z_plus, <- inject_Z_mult, <- Zle_Qle. lia. }
  split.
  - apply Qnot_lt_le. intro K.
    assert ((inject_Z q - y) * inject_Z b < - (1#2) * inject_Z b)%Q by (apply Qmult_lt_r; assumption). lra.
  - apply Qnot_lt_le. intro K.
    assert ((1#2) * inject_Z b < (inject_Z q - y) * inject_Z b)%Q by (apply Qmult_lt_r; assumption). lra.
Qed.

(** no integer is closer *)
Lemma nearest_int q y j : (Qabs (inject_Z q - y) <= 1 # 2)%Q -> (Qabs (inject_Z q - y) <= Qabs (inject_Z j - y))%Q.
Proof.
  intro H. destruct (Z.eq_dec q j) as [->|N]; [apply Qle_refl|].
  apply Qabs_Qle_condition in H as [H1 H2].
  destruct (Z.lt_total q j) as [L|[L|L]]; [|lia|].
  - assert (inject_Z q + 1 <= inject_Z j)%Q by (change 1%Q with (inject_Z 1); rewrite <- inject_Z_plus, <- Zle_Qle; lia).
    rewrite (Qabs_pos (inject_Z j - y)) by lra. apply Qabs_Qle_condition. lra.
  - assert (inject_Z j + 1 <= inject_Z q)%Q by (change 1%Q with (inject_Z 1); rewrite <- inject_Z_plus, <- Zle_Qle; lia).
    rewrite (Qabs_neg (inject_Z j - y)) by lra. apply Qabs_Qle_condition. lra.
Qed.

(** facts about a successful or failed rounding of a positive quotient *)
Record rounded (n d q e : Z) : Prop := {
  rd_min : -1074 <= e;
  rd_half : (Qabs (inject_Z q - (inject_Z n / inject_Z d) * p2 (- e)) <= 1 # 2)%Q;
  rd_up : (inject_Z n / inject_Z d < p2 (e + 53))%Q;
  rd_low : e = -1074 \/ (p2 (e + 52) <= inject_Z n / inject_Z d)%Q;
  rd_nonneg : 0 <= q
}.

Definition rne (n d e : Z) : Z :=
  if e <? 0 then div_half_even (n * 2 ^ (- e)) d else div_half_even n (d * 2 ^ e).

Lemma rne_rounded n d : 0 < n -> 0 < d -> rounded n d (rne n d (ulp_exp n d)) (ulp_exp n d).
Proof.
  intros Hn Hd. destruct (ulp_exp_spec n d Hn Hd) as (H1 & H2 & H3). set (e := ulp_exp n d) in *. clearbody e.
  pose proof (inj_pos d Hd). constructor; auto.
  - unfold rne. destruct (Z.ltb_spec e 0).
    + pose proof (half_even_Q (n * 2 ^ (- e)) d Hd) as K.
      setoid_replace (inject_Z n / inject_Z d * p2 (- e))%Q with (inject_Z (n * 2 ^ (- e)) / inject_Z d)%Q; [exact K|].
      rewrite inject_Z_mult, p2_Z by lia. field. lra.
    + pose proof (pow2_pos e ltac:(lia)).
      pose proof (half_even_Q n (d * 2 ^ e) ltac:(nia)) as K.
      setoid_replace (inject_Z n / inject_Z d * p2 (- e))%Q with (inject_Z n / inject_Z (d * 2 ^ e))%Q; [exact K|].
      pose proof (p2_opp e) as O. rewrite (p2_Z e) in O by lia.
      pose proof (inj_pos (2 ^ e) ltac:(lia)).
      assert (O' : (p2 (- e) == / inject_Z (2 ^ e))%Q).
      { apply (Qmult_inj_l _ _ (inject_Z (2 ^ e))); [lra|]. rewrite O, Qmult_inv_r by lra. reflexivity. }
      rewrite O', inject_Z_mult. field. split; lra.
  - unfold rne. destruct (Z.ltb_spec e 0); apply div_half_even_nonneg;
      try pose proof (pow2_pos (- e) ltac:(lia)); try pose proof (pow2_pos e ltac:(lia)); nia.
Qed.

Lemma rounded_q_le n d q e : rounded n d q e -> q <= 2 ^ 53.
Proof.
  intros [H1 H2 H3 H4 H5]. apply Qabs_Qle_condition in H2 as [_ H2].
  rewrite p2_add in H3. pose proof (p2_opp e) as O. pose proof (p2_pos (- e)) as P.
  assert (K : (inject_Z n / inject_Z d * p2 (- e) < p2 53)%Q).
  { apply (Qmult_lt_r _ _ _ P) in H3. rewrite <- Qmult_assoc, (Qmult_comm (p2 53)), Qmult_assoc, O in H3. lra. }
  rewrite (p2_Z 53) in K by lia.
  assert (L : (inject_Z q < inject_Z (2 ^ 53 + 1))%Q) by (rewrite inject_Z_plus; change (inject_Z 1) with 1%Q; lra).
  rewrite <- Zlt_Qlt in L. lia.
Qed.

Lemma scale_abs a b e : (Qabs (a - b) == Qabs (a * p2 (- e) - b * p2 (- e)) * p2 e)%Q.
Proof.
  pose proof (p2_pos e).
  setoid_replace (Qabs (a * p2 (- e) - b * p2 (- e)) * p2 e)%Q with (Qabs ((a * p2 (- e) - b * p2 (- e)) * p2 e))%Q
    by (rewrite Qabs_Qmult, (Qabs_pos (p2 e)) by lra; reflexivity).
  setoid_replace ((a * p2 (- e) - b * p2 (- e)) * p2 e)%Q with (a - b)%Q; [reflexivity|].
  pose proof (p2_opp e) as O. rewrite (Qmult_comm (p2 e)) in O.
  setoid_replace ((a * p2 (- e) - b * p2 (- e)) * p2 e)%Q with ((a - b) * (p2 (- e) * p2 e))%Q by ring.
  rewrite O. ring.
Qed.

Lemma rounded_nearest n d q e : 0 < n -> 0 < d -> rounded n d q e -> forall f, is_double f ->
  (Qabs (inject_Z q * p2 e - inject_Z n / inject_Z d) <= Qabs (f - inject_Z n / inject_Z d))%Q.
Proof.
  intros Hn Hd [H1 H2 H3 H4 H5] f (m & e' & Hm & He & Hf).
  set (x := (inject_Z n / inject_Z d)%Q) in *.
  rewrite (scale_abs _ x e), (scale_abs f x e).
  apply Qmult_le_compat_r; [|apply Qlt_le_weak, p2_pos].
  pose proof (p2_opp e) as O.
  setoid_replace (inject_Z q * p2 e * p2 (- e))%Q with (inject_Z q)%Q
    by (rewrite <- Qmult_assoc, O; ring).
  set (y := (x * p2 (- e))%Q) in *.
  rewrite Hf, numQ_p2, <- Qmult_assoc, <- p2_add.
  destruct (Z.le_gt_cases e e') as [G|G].
  - rewrite p2_Z by lia. rewrite <- inject_Z_mult. apply nearest_int, H2.
  - destruct H4 as [->|H4]; [lia|].
    eapply Qle_trans; [apply (nearest_int q y (2 ^ 52)), H2|].
    assert (Y : (inject_Z (2 ^ 52) <= y)%Q).
    { unfold y. rewrite <- p2_Z by lia. pose proof (p2_pos (- e)) as P. apply (Qmult_le_r _ _ _ P) in H4.
      rewrite <- p2_add in H4. replace (e + 52 + - e) with 52 in H4 by lia. exact H4. }
    assert (F : (inject_Z m * p2 (e' + - e) <= inject_Z (2 ^ 52))%Q).
    { assert (Hm' : (inject_Z m <= inject_Z (2 ^ 53))%Q) by (rewrite <- Zle_Qle; lia).
      assert (P1 : (p2 (e' + - e) <= p2 (-1))%Q) by (apply p2_le; lia).
      pose proof (p2_pos (e' + - e)).
      eapply Qle_trans; [apply Qmult_le_compat_r; [exact Hm'|lra]|].
      rewrite Qmult_comm. eapply Qle_trans; [apply Qmult_le_compat_r; [exact P1|discriminate]|].
      discriminate. }
    rewrite (Qabs_neg (inject_Z (2 ^ 52) - y)) by lra.
    rewrite (Qabs_neg (inject_Z m * p2 (e' + - e) - y)) by lra. lra.
Qed.

Lemma rounded_double n d q e : rounded n d q e -> e <= 971 -> (e = 971 -> q < 2 ^ 53) ->
  is_double (inject_Z q * p2 e).
Proof.
  intros R He Hq. pose proof (rounded_q_le _ _ _ _ R) as L. destruct R as [H1 _ _ _ H5].
  destruct (Z.eq_dec q (2 ^ 53)) as [E|E].
  - exists (2 ^ 52), (e + 1). split; [reflexivity|]. split; [lia|].
    rewrite numQ_p2, p2_S, E. change (2 ^ 53) with (2 * 2 ^ 52). rewrite inject_Z_mult. change (inject_Z 2) with 2%Q. ring.
  - exists q, e. split; [lia|]. split; [lia|]. rewrite numQ_p2. reflexivity.
Qed.

Lemma zero_double : is_double 0.
Proof. exists 0, 0. split; [reflexivity|]. split; [lia|reflexivity]. Qed.

(** ** Rounding of an arbitrary quotient *)
Lemma is_double_opp x : is_double x -> is_double (- x).
Proof.
  intros (m & e & H1 & H2 & H3). exists (- m), e. split; [rewrite Z.abs_opp; exact H1|]. split; [exact H2|].
  rewrite H3, !numQ_p2, inject_Z_opp. ring.
Qed.

Lemma is_double_comp x y : (x == y)%Q -> is_double x -> is_double y.
Proof. intros E (m & e & H1 & H2 & H3). exists m, e. rewrite <- E. auto. Qed.

Lemma round_nonneg_spec n d : 0 <= n -> 0 < d ->
  match round_nonneg n d with
  | Some (q, e) => nearest_double (inject_Z n / inject_Z d) (inject_Z q * p2 e)
  | None => (inject_Z (2 ^ 1024 - 2 ^ 970) <= inject_Z n / inject_Z d)%Q
  end.
Proof.
  intros Hn Hd. unfold round_nonneg. pose proof (inj_pos d Hd) as Pd. destruct (Z.eqb_spec n 0) as [->|N].
  - assert (E : (inject_Z 0 / inject_Z d == 0)%Q) by (unfold Qdiv; change (inject_Z 0) with 0%Q; ring).
    split.
    + eapply is_double_comp; [|exact zero_double]. reflexivity.
    + intros f _. rewrite E. setoid_replace (inject_Z 0 * p2 0 - 0)%Q with 0%Q by reflexivity. apply Qabs_nonneg.
  - pose proof (rne_rounded n d ltac:(lia) Hd) as R. unfold rne in R.
    set (e := ulp_exp n d) in *.
    set (q := if e <? 0 then div_half_even (n * 2 ^ (- e)) d else div_half_even n (d * 2 ^ e)) in *.
    clearbody q e.
    destruct ((971 <? e) || ((e =? 971) && (2 ^ 53 <=? q))) eqn:O.
    + apply orb_true_iff in O as [O|O].
      * apply Z.ltb_lt in O. destruct R as [_ _ _ [H4|H4] _]; [lia|].
        eapply Qle_trans; [|exact H4]. apply Qle_trans with (p2 1024); [|apply p2_le; lia].
        rewrite p2_Z by lia. rewrite <- Zle_Qle. lia.
      * apply andb_true_iff in O as [O1 O2]. apply Z.eqb_eq in O1. apply Z.leb_le in O2. subst e.
        destruct R as [_ H2 _ _ _]. apply Qabs_Qle_condition in H2 as [_ H2].
        rewrite Zle_Qle in O2.
        assert (K : (inject_Z (2 ^ 53) - (1 # 2) <= inject_Z n / inject_Z d * p2 (-971))%Q).
        { change (- (971)) with (-971) in H2. set (y := (inject_Z n / inject_Z d * p2 (-971))%Q) in *. clearbody y.
          set (z := inject_Z (2 ^ 53)) in *. clearbody z. lra. }
        apply (Qmult_le_r _ _ (p2 971) (p2_pos _)) in K. rewrite <- (Qmult_assoc _ (p2 (-971))) in K.
        rewrite (Qmult_comm (p2 (-971))), (p2_opp 971), Qmult_1_r in K.
        eapply Qle_trans; [|exact K]. vm_compute. discriminate.
    + apply orb_false_iff in O as [O1 O2]. apply Z.ltb_ge in O1. split.
      * apply (rounded_double n d q e R O1). intros ->. cbn in O2. apply Z.leb_gt in O2. exact O2.
      * apply rounded_nearest; auto; lia.
Qed.

Lemma fround_spec n d err : d <> 0 ->
  match fround n d err with
  | Ok r => nearest_double (inject_Z n / inject_Z d) (numQ r) /\ is_int r = false
  | Err e => e = err /\ (inject_Z (2 ^ 1024 - 2 ^ 970) <= Qabs (inject_Z n / inject_Z d))%Q
  end.
Proof.
  intro Hd.
  assert (W : forall n d, 0 < d ->
    match (match round_nonneg (Z.abs n) d with
           | None => Err err | Some (q, e) => Ok (fnorm (Z.sgn n * q) e) end) with
    | Ok r => nearest_double (inject_Z n / inject_Z d) (numQ r) /\ is_int r = false
    | Err e => e = err /\ (inject_Z (2 ^ 1024 - 2 ^ 970) <= Qabs (inject_Z n / inject_Z d))%Q
    end).
  { clear n d Hd. intros n d Hd. pose proof (round_nonneg_spec (Z.abs n) d ltac:(lia) Hd) as S.
    pose proof (inj_pos d Hd) as Pd.
    destruct (round_nonneg (Z.abs n) d) as [[q e]|].
    - split; [|destruct (fnorm_float (Z.sgn n * q) e) as (? & ? & ->); reflexivity].
      destruct S as [S1 S2].
      destruct (Z.abs_spec n) as [[H E]|[H E]].
      + assert (Q1 : (numQ (fnorm (Z.sgn n * q) e) == inject_Z q * p2 e)%Q \/ n = 0) by
          (destruct (Z.eq_dec n 0); [right; assumption|left; rewrite fnorm_numQ, Z.sgn_pos by lia; rewrite Z.mul_1_l; reflexivity]).
        rewrite E in *. destruct Q1 as [Q1|Q1].
        * split; [eapply is_double_comp; [symmetry; exact Q1|exact S1]|]. intros f Hf. rewrite Q1. apply S2, Hf.
        * subst n. change (numQ (fnorm (Z.sgn 0 * q) e)) with 0%Q.
          assert (E0 : (inject_Z 0 / inject_Z d == 0)%Q) by (unfold Qdiv; change (inject_Z 0) with 0%Q; ring).
          split; [exact zero_double|]. intros f _. rewrite E0. apply Qabs_nonneg.
      + assert (Q1 : (numQ (fnorm (Z.sgn n * q) e) == - (inject_Z q * p2 e))%Q).
        { rewrite fnorm_numQ, Z.sgn_neg by lia. rewrite inject_Z_mult. change (inject_Z (-1)) with (-1)%Q. ring. }
        assert (E1 : (inject_Z (Z.abs n) / inject_Z d == - (inject_Z n / inject_Z d))%Q).
        { rewrite E, inject_Z_opp. field. lra. }
        split; [eapply is_double_comp; [symmetry; exact Q1|apply is_double_opp, S1]|].
        intros f Hf. specialize (S2 (- f)%Q (is_double_opp f Hf)). rewrite Q1, E1 in *.
        rewrite <- Qabs_opp. setoid_replace (- (- (inject_Z q * p2 e) - inject_Z n / inject_Z d))%Q
          with (inject_Z q * p2 e - - (inject_Z n / inject_Z d))%Q by ring.
        eapply Qle_trans; [exact S2|]. rewrite <- Qabs_opp.
        setoid_replace (- (- f - - (inject_Z n / inject_Z d)))%Q with (f - inject_Z n / inject_Z d)%Q by ring.
        apply Qle_refl.
    - split; [reflexivity|]. eapply Qle_trans; [exact S|].
      destruct (Z.abs_spec n) as [[H E]|[H E]]; rewrite E.
      + apply Qle_Qabs.
      + rewrite <- Qabs_opp. eapply Qle_trans; [|apply Qle_Qabs]. rewrite inject_Z_opp.
        apply Qle_lteq. right. field. lra. }
  unfold fround. destruct (Z.ltb_spec d 0).
  - specialize (W (- n) (- d) ltac:(lia)).
    assert (E : (inject_Z (- n) / inject_Z (- d) == inject_Z n / inject_Z d)%Q).
    { rewrite !inject_Z_opp. field. intro K. unfold Qeq in K. cbn in K. lia. }
    cbn beta iota zeta in W |- *.
    destruct (round_nonneg (Z.abs (- n)) (- d)) as [[q e]|].
    + destruct W as [[W1 W2] W3]. split; [|exact W3]. split; [exact W1|]. intros f Hf. rewrite <- E. apply W2, Hf.
    + rewrite <- E. exact W.
  - apply W. lia.
Qed.

(** ** Consequences *)
Lemma nearest_ge x r f : nearest_double x r -> is_double f -> (f <= x)%Q -> (f <= r)%Q.
Proof.
  intros [_ H] Hf L. specialize (H f Hf). apply Qnot_lt_le. intro K.
  rewrite (Qabs_neg (f - x)), (Qabs_neg (r - x)) in H by lra. lra.
Qed.

Lemma nearest_le x r f : nearest_double x r -> is_double f -> (x <= f)%Q -> (r <= f)%Q.
Proof.
  intros [_ H] Hf L. specialize (H f Hf). apply Qnot_lt_le. intro K.
  rewrite (Qabs_pos (f - x)), (Qabs_pos (r - x)) in H by lra. lra.
Qed.

Lemma nearest_exact x r : nearest_double x r -> is_double x -> (r == x)%Q.
Proof.
  intros H Hx. apply Qle_antisym; [eapply nearest_le | eapply nearest_ge]; eauto; apply Qle_refl.
Qed.

Lemma nearest_comp x y r s : (x == y)%Q -> (r == s)%Q -> nearest_double x r -> nearest_double y s.
Proof.
  intros E F [H1 H2]. split; [eapply is_double_comp; eauto|]. intros f Hf. rewrite <- E, <- F. apply H2, Hf.
Qed.

Lemma double_bound x : is_double x -> (Qabs x <= inject_Z (2 ^ 1024 - 2 ^ 971))%Q.
Proof.
  intros (m & e & H1 & H2 & H3). rewrite H3, numQ_p2, Qabs_Qmult, (Qabs_pos (p2 e)) by (pose proof (p2_pos e); lra).
  change (Qabs (inject_Z m)) with (inject_Z (Z.abs m)).
  apply Qle_trans with (inject_Z (2 ^ 53 - 1) * p2 971)%Q.
  - apply Qle_trans with (inject_Z (2 ^ 53 - 1) * p2 e)%Q.
    + apply Qmult_le_compat_r; [rewrite <- Zle_Qle; lia | apply Qlt_le_weak, p2_pos].
    + rewrite !(Qmult_comm (inject_Z (2 ^ 53 - 1))). apply Qmult_le_compat_r; [apply p2_le; lia | discriminate].
  - vm_compute. discriminate.
Qed.

(** a value not above some double does not overflow *)
Lemma fround_ok n d err f : d <> 0 -> is_double f -> (Qabs (inject_Z n / inject_Z d) <= f)%Q ->
  exists r, fround n d err = Ok r /\ nearest_double (inject_Z n / inject_Z d) (numQ r) /\ is_int r = false.
Proof.
  intros Hd Hf H. pose proof (fround_spec n d err Hd) as S. destruct (fround n d err) as [r|e]; [eauto|].
  exfalso. destruct S as [_ S]. pose proof (double_bound f Hf) as B.
  assert (A : (f <= Qabs f)%Q) by apply Qle_Qabs.
  assert (C : (inject_Z (2 ^ 1024 - 2 ^ 971) < inject_Z (2 ^ 1024 - 2 ^ 970))%Q) by (rewrite <- Zlt_Qlt; reflexivity).
  eapply Qlt_irrefl, Qlt_le_trans; [exact C|].
  eapply Qle_trans; [exact S|]. eapply Qle_trans; [exact H|]. eapply Qle_trans; eauto.
Qed.

Lemma shl_Q m k : 0 <= k -> (inject_Z (shl m k) == inject_Z m * p2 k)%Q.
Proof. intro H. unfold shl. rewrite inject_Z_mult, p2_Z by exact H. reflexivity. Qed.

Lemma fround_dy_cases m e err :
  match fround_dy m e err with
  | Ok r => nearest_double (inject_Z m * p2 e) (numQ r) /\ is_int r = false
  | Err e' => e' = err /\ (inject_Z (2 ^ 1024 - 2 ^ 970) <= Qabs (inject_Z m * p2 e))%Q
  end.
Proof.
  unfold fround_dy. destruct (Z.ltb_spec e 0).
  - pose proof (pow2_pos (- e) ltac:(lia)) as P. pose proof (fround_spec m (2 ^ (- e)) err ltac:(lia)) as S.
    assert (E : (inject_Z m / inject_Z (2 ^ (- e)) == inject_Z m * p2 e)%Q).
    { rewrite <- numQ_p2. unfold numQ. destruct (Z.leb_spec 0 e); [lia|reflexivity]. }
    destruct (fround m (2 ^ (- e)) err).
    + destruct S as [S1 S2]. split; [|exact S2]. eapply nearest_comp; [exact E|reflexivity|exact S1].
    + rewrite <- E. exact S.
  - pose proof (fround_spec (shl m e) 1 err ltac:(lia)) as S.
    assert (E : (inject_Z (shl m e) / inject_Z 1 == inject_Z m * p2 e)%Q).
    { rewrite shl_Q by lia. change (inject_Z 1) with 1%Q. field. }
    destruct (fround (shl m e) 1 err).
    + destruct S as [S1 S2]. split; [|exact S2]. eapply nearest_comp; [exact E|reflexivity|exact S1].
    + rewrite <- E. exact S.
Qed.

Lemma no_overflow x f : is_double f -> (Qabs x <= f)%Q -> ~ (inject_Z (2 ^ 1024 - 2 ^ 970) <= Qabs x)%Q.
Proof.
  intros Hf H S. pose proof (double_bound f Hf) as B.
  assert (A : (f <= Qabs f)%Q) by apply Qle_Qabs.
  assert (C : (inject_Z (2 ^ 1024 - 2 ^ 971) < inject_Z (2 ^ 1024 - 2 ^ 970))%Q) by (rewrite <- Zlt_Qlt; reflexivity).
  eapply Qlt_irrefl, Qlt_le_trans; [exact C|].
  eapply Qle_trans; [exact S|]. eapply Qle_trans; [exact H|]. eapply Qle_trans; eauto.
Qed.

(** any number as mantissa times power of two *)
Lemma num_val x : (numQ x == inject_Z (mant x) * p2 (expo x))%Q.
Proof. rewrite numQ_as_NF. apply numQ_p2. Qed.

Lemma fadd_cases m1 e1 m2 e2 x :
  (x == (inject_Z m1 * p2 e1 + inject_Z m2 * p2 e2))%Q ->
  match fadd m1 e1 m2 e2 with
  | Ok r => nearest_double x (numQ r) /\ is_int r = false
  | Err _ => (inject_Z (2 ^ 1024 - 2 ^ 970) <= Qabs x)%Q
  end.
Proof.
  intro Hx. unfold fadd. set (e := Z.min e1 e2).
  assert (E : (inject_Z (shl m1 (e1 - e) + shl m2 (e2 - e)) * p2 e == x)%Q).
  { rewrite inject_Z_plus, !shl_Q by (unfold e; lia). rewrite Hx.
    replace e1 with ((e1 - e) + e) at 2 by lia. replace e2 with ((e2 - e) + e) at 2 by lia. rewrite !p2_add. ring. }
  pose proof (fround_dy_cases (shl m1 (e1 - e) + shl m2 (e2 - e)) e Unmodelled) as S.
  destruct (fround_dy _ e Unmodelled).
  - destruct S as [S1 S2]. split; [|exact S2]. eapply nearest_comp; [exact E|reflexivity|exact S1].
  - rewrite <- E. apply S.
Qed.

Lemma fmul_cases m1 e1 m2 e2 x :
  (x == ((inject_Z m1 * p2 e1) * (inject_Z m2 * p2 e2)))%Q ->
  match fmul m1 e1 m2 e2 with
  | Ok r => nearest_double x (numQ r) /\ is_int r = false
  | Err _ => (inject_Z (2 ^ 1024 - 2 ^ 970) <= Qabs x)%Q
  end.
Proof.
  intro Hx. unfold fmul.
  assert (E : (inject_Z (m1 * m2) * p2 (e1 + e2) == x)%Q).
  { rewrite inject_Z_mult, p2_add, Hx. ring. }
  pose proof (fround_dy_cases (m1 * m2) (e1 + e2) Unmodelled) as S.
  destruct (fround_dy _ _ Unmodelled).
  - destruct S as [S1 S2]. split; [|exact S2]. eapply nearest_comp; [exact E|reflexivity|exact S1].
  - rewrite <- E. apply S.
Qed.

Lemma fdiv_cases m1 e1 m2 e2 x : m2 <> 0 ->
  (x == ((inject_Z m1 * p2 e1) / (inject_Z m2 * p2 e2)))%Q ->
  match fdiv m1 e1 m2 e2 with
  | Ok r => nearest_double x (numQ r) /\ is_int r = false
  | Err _ => (inject_Z (2 ^ 1024 - 2 ^ 970) <= Qabs x)%Q
  end.
Proof.
  intros N Hx. unfold fdiv. set (e := Z.min e1 e2).
  assert (N' : ~ (inject_Z m2 == 0)%Q) by (intro K; unfold Qeq in K; cbn in K; lia).
  assert (E : (inject_Z (shl m1 (e1 - e)) / inject_Z (shl m2 (e2 - e)) == x)%Q).
  { rewrite !shl_Q by (unfold e; lia). rewrite Hx.
    replace e1 with ((e1 - e) + e) at 2 by lia. replace e2 with ((e2 - e) + e) at 2 by lia. rewrite !p2_add.
    pose proof (p2_pos (e1 - e)). pose proof (p2_pos (e2 - e)). pose proof (p2_pos e). field. repeat split; lra. }
  assert (N2 : shl m2 (e2 - e) <> 0).
  { unfold shl. pose proof (pow2_pos (e2 - e) ltac:(unfold e; lia)). nia. }
  pose proof (fround_spec (shl m1 (e1 - e)) (shl m2 (e2 - e)) Unmodelled N2) as S.
  destruct (fround _ _ Unmodelled).
  - destruct S as [S1 S2]. split; [|exact S2]. eapply nearest_comp; [exact E|reflexivity|exact S1].
  - rewrite <- E. apply S.
Qed.

Lemma p2_le_inv a b : (p2 a <= p2 b)%Q -> a <= b.
Proof.
  intro H. destruct (Z.le_gt_cases a b) as [L|L]; [exact L|exfalso].
  assert (K : (p2 (b + 1) <= p2 a)%Q) by (apply p2_le; lia). rewrite p2_S in K. pose proof (p2_pos b). lra.
Qed.

(** relative error of rounding in the normal range *)
Lemma nearest_rel_frac n d r : 0 < n -> 0 < d -> (p2 (-1022) <= inject_Z n / inject_Z d)%Q ->
  (inject_Z n / inject_Z d <= p2 1022)%Q ->
  nearest_double (inject_Z n / inject_Z d) r ->
  (Qabs (r - inject_Z n / inject_Z d) <= inject_Z n / inject_Z d * p2 (-53))%Q.
Proof.
  intros Hn Hd Hx Hu [_ HN]. pose proof (rne_rounded n d Hn Hd) as R.
  set (e := ulp_exp n d) in *. set (q := rne n d e) in *. clearbody q e.
  set (x := (inject_Z n / inject_Z d)%Q) in *.
  assert (L : (p2 (e + 52) <= x)%Q) by (destruct (rd_low _ _ _ _ R) as [->|L]; assumption).
  assert (HE : e <= 970).
  { assert (e + 52 <= 1022); [|lia]. apply p2_le_inv. eapply Qle_trans; eassumption. }
  eapply Qle_trans; [apply (HN (inject_Z q * p2 e)%Q); apply (rounded_double _ _ _ _ R); lia|].
  pose proof (rd_half _ _ _ _ R) as H. fold x in H.
  rewrite (scale_abs _ x e). pose proof (p2_opp e) as O.
  setoid_replace (inject_Z q * p2 e * p2 (- e))%Q with (inject_Z q)%Q
    by (rewrite <- Qmult_assoc, O; ring).
  apply Qle_trans with ((1 # 2) * p2 e)%Q; [apply Qmult_le_compat_r; [exact H | apply Qlt_le_weak, p2_pos]|].
  replace (e + 52) with ((e + -1) + 53) in L by lia. rewrite !p2_add in L.
  assert (P53 : (p2 53 * p2 (-53) == 1)%Q) by reflexivity.
  apply (Qmult_le_r _ _ (p2 (-53)) (p2_pos _)) in L. rewrite <- Qmult_assoc, P53 in L.
  change (p2 (-1)) with (1#2) in L. lra.
Qed.

Lemma nearest_rel x r : (p2 (-1022) <= x)%Q -> (x <= p2 1022)%Q -> nearest_double x r ->
  (Qabs (r - x) <= x * p2 (-53))%Q.
Proof.
  intros H1 H2 H3. destruct x as [n d].
  assert (E : (n # d == inject_Z n / inject_Z (Zpos d))%Q) by (rewrite Qmake_Qdiv; reflexivity).
  rewrite E in *. apply nearest_rel_frac; try lia; try assumption.
  - destruct (Z.le_gt_cases n 0) as [K|K]; [|lia]. exfalso.
    assert (n # d <= 0)%Q by (unfold Qle; cbn; lia). rewrite E in H. pose proof (p2_pos (-1022)). lra.
  - eapply nearest_comp; [exact E|reflexivity|exact H3].
Qed.

(** rounding never enlarges by more than 2^-53, whatever the magnitude *)
Lemma nearest_up_frac n d r : 0 < n -> 0 < d -> (p2 (-1022) <= inject_Z n / inject_Z d)%Q ->
  nearest_double (inject_Z n / inject_Z d) r ->
  (r <= inject_Z n / inject_Z d + inject_Z n / inject_Z d * p2 (-53))%Q.
Proof.
  intros Hn Hd Hx HN. pose proof (rne_rounded n d Hn Hd) as R.
  set (e := ulp_exp n d) in *. set (q := rne n d e) in *. clearbody q e.
  set (x := (inject_Z n / inject_Z d)%Q) in *.
  assert (L : (p2 (e + 52) <= x)%Q) by (destruct (rd_low _ _ _ _ R) as [->|L]; assumption).
  assert (X0 : (0 < x)%Q) by (pose proof (p2_pos (-1022)); lra).
  assert (X1 : (0 < x * p2 (-53))%Q) by (pose proof (p2_pos (-53)); nra).
  pose proof (rd_half _ _ _ _ R) as H. fold x in H.
  destruct (Z.le_gt_cases (if q =? 2 ^ 53 then e + 1 else e) 971) as [HE|HE].
  - assert (D : is_double (inject_Z q * p2 e)).
    { apply (rounded_double _ _ _ _ R).
      - destruct (Z.eqb_spec q (2 ^ 53)); lia.
      - intros ->. pose proof (rounded_q_le _ _ _ _ R). destruct (Z.eqb_spec q (2 ^ 53)); lia. }
    destruct HN as [_ HN]. specialize (HN _ D).
    assert (B : (Qabs (inject_Z q * p2 e - x) <= x * p2 (-53))%Q).
    { rewrite (scale_abs _ x e). pose proof (p2_opp e) as O.
      setoid_replace (inject_Z q * p2 e * p2 (- e))%Q with (inject_Z q)%Q
        by (rewrite <- Qmult_assoc, O; ring).
      apply Qle_trans with ((1 # 2) * p2 e)%Q; [apply Qmult_le_compat_r; [exact H | apply Qlt_le_weak, p2_pos]|].
      replace (e + 52) with ((e + -1) + 53) in L by lia. rewrite !p2_add in L.
      assert (P53 : (p2 53 * p2 (-53) == 1)%Q) by reflexivity.
      apply (Qmult_le_r _ _ (p2 (-53)) (p2_pos _)) in L. rewrite <- Qmult_assoc, P53 in L.
      change (p2 (-1)) with (1#2) in L. lra. }
    assert (A : (r - x <= Qabs (r - x))%Q) by apply Qle_Qabs. lra.
  - pose proof (double_bound r (proj1 HN)) as B. assert (A : (r <= Qabs r)%Q) by apply Qle_Qabs.
    assert (M : (inject_Z (2 ^ 1024 - 2 ^ 971) <= x)%Q); [|lra].
    destruct (Z.eqb_spec q (2 ^ 53)) as [E|E].
    + destruct (Z.eq_dec e 971) as [->|N].
      * apply Qabs_Qle_condition in H as [_ H].
        assert (K : (inject_Z (2 ^ 53) - (1 # 2) <= x * p2 (-971))%Q).
        { change (- (971)) with (-971) in H. rewrite <- E. set (y := (x * p2 (-971))%Q) in *. clearbody y. lra. }
        apply (Qmult_le_r _ _ (p2 971) (p2_pos _)) in K. rewrite <- (Qmult_assoc _ (p2 (-971))) in K.
        rewrite (Qmult_comm (p2 (-971))), (p2_opp 971), Qmult_1_r in K.
        eapply Qle_trans; [|exact K]. vm_compute. discriminate.
      * eapply Qle_trans; [|exact L]. apply Qle_trans with (p2 1024); [|apply p2_le; lia].
        rewrite p2_Z by lia. rewrite <- Zle_Qle. lia.
    + eapply Qle_trans; [|exact L]. apply Qle_trans with (p2 1024); [|apply p2_le; lia].
      rewrite p2_Z by lia. rewrite <- Zle_Qle. lia.
Qed.

Lemma nearest_up x r : (p2 (-1022) <= x)%Q -> nearest_double x r -> (r <= x + x * p2 (-53))%Q.
Proof.
  intros H1 H3. destruct x as [n d].
  assert (E : (n # d == inject_Z n / inject_Z (Zpos d))%Q) by (rewrite Qmake_Qdiv; reflexivity).
  rewrite E in *. apply nearest_up_frac; try lia; try assumption.
  - destruct (Z.le_gt_cases n 0) as [K|K]; [|lia]. exfalso.
    assert (n # d <= 0)%Q by (unfold Qle; cbn; lia). rewrite E in H. pose proof (p2_pos (-1022)). lra.
  - eapply nearest_comp; [exact E|reflexivity|exact H3].
Qed.
