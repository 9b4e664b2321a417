(** Proofs about the rescaling of large weights. *)
From Coq Require Import List ZArith QArith Qround Qabs Bool Lia Lqa.
From Verif Require Import PyBase Num Val RVModel Spec CmpFacts MassFacts NumFacts RVFacts RoundFacts ConvFacts.
Import ListNotations.
Open Scope Z_scope.

(** ** The constant *)
Definition LIM : Q := inject_Z SUM_LIMIT.

Lemma sum_limit_val : (inject_Z 2220446049250313 * p2 52 == LIM)%Q.
Proof. vm_compute. reflexivity. Qed.

Lemma ten_val : (inject_Z (mant TEN_E10_F) * p2 (expo TEN_E10_F) == 100000000000)%Q.
Proof. vm_compute. reflexivity. Qed.

Lemma lim_double : is_double LIM.
Proof. exists 2220446049250313, 52. split; [reflexivity|]. split; [lia|]. vm_compute. reflexivity. Qed.

Lemma one_double : is_double 1.
Proof. exists 1, 0. split; [reflexivity|]. split; [lia|reflexivity]. Qed.

Lemma big_normal x : (1 <= x)%Q -> (p2 (-1022) <= x)%Q.
Proof. intro H. eapply Qle_trans; [|exact H]. vm_compute. discriminate. Qed.

Lemma rne_up x r : (1 <= x)%Q -> nearest_double x r -> (r <= x * (1 + (1 # 1000000)))%Q.
Proof.
  intros H1 H2. pose proof (nearest_up x r (big_normal x H1) H2) as H.
  assert (P : (p2 (-53) <= 1 # 1000000)%Q) by (vm_compute; discriminate).
  eapply Qle_trans; [exact H|]. nra.
Qed.

(** rounding loses at most half of a number >= 1 *)
Lemma nearest_half x r f : (1 <= x)%Q -> is_double f -> (x <= f)%Q -> nearest_double x r -> (x <= 2 * r)%Q.
Proof.
  intros H1 Df Hf N. pose proof (Qfloor_le x) as F1. pose proof (Qlt_floor x) as F2.
  assert (K1 : 1 <= Qfloor x).
  { assert (K : (inject_Z 1 < inject_Z (Qfloor x + 1))%Q) by (change (inject_Z 1) with 1%Q; lra).
    rewrite <- Zlt_Qlt in K. lia. }
  set (k := Qfloor x) in *. clearbody k. pose proof (Z.log2_spec k ltac:(lia)) as [L1 L2].
  pose proof (Z.log2_nonneg k) as L0. set (j := Z.log2 k) in *. clearbody j.
  assert (J : j <= 1023).
  { pose proof (double_bound f Df) as B. rewrite Qabs_pos in B by lra.
    assert (K : (inject_Z (2 ^ j) <= inject_Z (2 ^ 1024 - 2 ^ 971))%Q).
    { apply Qle_trans with (inject_Z k); [rewrite <- Zle_Qle; exact L1|lra]. }
    rewrite <- Zle_Qle in K. destruct (Z.le_gt_cases j 1023) as [G|G]; [exact G|].
    pose proof (Z.pow_le_mono_r 2 1024 j ltac:(lia) ltac:(lia)). pose proof (pow2_pos 971 ltac:(lia)). lia. }
  assert (DJ : is_double (p2 j)).
  { exists (2 ^ 52), (j - 52). split; [reflexivity|]. split; [lia|].
    rewrite numQ_p2, <- (p2_Z 52) by lia. rewrite <- p2_add.
    replace (52 + (j - 52)) with j by lia. reflexivity. }
  assert (R : (p2 j <= r)%Q).
  { eapply nearest_ge; [exact N|exact DJ|]. rewrite (p2_Z j) by lia.
    apply Qle_trans with (inject_Z k); [rewrite <- Zle_Qle; exact L1|exact F1]. }
  assert (U : (inject_Z (k + 1) <= 2 * p2 j)%Q).
  { rewrite <- p2_S, (p2_Z (j + 1)) by lia. rewrite <- Zle_Qle. unfold Z.succ in L2. lia. }
  lra.
Qed.

(** floor division of a float x >= LIM by LIM *)
Lemma fdivmod_limit m1 e1 :
  let x := (inject_Z m1 * p2 e1)%Q in
  is_double x -> (LIM <= x)%Q ->
  exists q md, fdivmod m1 e1 2220446049250313 52 = Ok (q, md) /\ is_int q = false /\ is_double (numQ q) /\
               (1 <= numQ q)%Q /\ (numQ q * LIM <= x * (2 + (1 # 10000)))%Q /\
               (x <= 32 * (numQ q * LIM))%Q.
Proof.
  intros x Dx Hx. set (m2 := 2220446049250313). set (e2 := 52).
  assert (P0 : (0 < LIM)%Q) by reflexivity.
  unfold fdivmod, ffmod. set (e := Z.min e1 e2).
  set (A := shl m1 (e1 - e)). set (B := shl m2 (e2 - e)).
  assert (HA : (inject_Z A * p2 e == x)%Q).
  { unfold A. rewrite shl_Q by (unfold e; lia). rewrite <- Qmult_assoc, <- p2_add. replace (e1 - e + e) with e1 by lia. reflexivity. }
  assert (HB : (inject_Z B * p2 e == LIM)%Q).
  { unfold B. rewrite shl_Q by (unfold e; lia). rewrite <- Qmult_assoc, <- p2_add. replace (e2 - e + e) with e2 by lia. apply sum_limit_val. }
  pose proof (p2_pos e) as Pe.
  assert (PB : 0 < B) by (unfold B, shl; pose proof (pow2_pos (e2 - e) ltac:(unfold e; lia)); unfold m2; lia).
  assert (LE : B <= A).
  { rewrite Zle_Qle. apply (Qmult_le_r _ _ _ Pe). rewrite HA, HB. exact Hx. }
  rewrite Z.rem_mod_nonneg by lia.
  pose proof (Z.mod_pos_bound A B PB) as MB. pose proof (Z.div_mod A B ltac:(lia)) as DM.
  assert (D1 : 1 <= A / B) by (apply Z.div_le_lower_bound; lia).
  set (rm := A mod B) in *.
  (* the exact difference *)
  set (y := (x + inject_Z (- rm) * p2 e)%Q).
  pose proof (fadd_cases m1 e1 (- rm) e y ltac:(reflexivity)) as F.
  assert (HY : (y == LIM * inject_Z (A / B))%Q).
  { unfold y. rewrite <- HA, <- HB. rewrite inject_Z_opp.
    setoid_replace (inject_Z A * p2 e + - inject_Z rm * p2 e)%Q with ((inject_Z A - inject_Z rm) * p2 e)%Q by ring.
    setoid_replace (inject_Z A - inject_Z rm)%Q with (inject_Z B * inject_Z (A / B))%Q; [ring|].
    rewrite DM at 1. rewrite inject_Z_plus, inject_Z_mult. ring. }
  assert (D1' : (1 <= inject_Z (A / B))%Q) by (change 1%Q with (inject_Z 1); rewrite <- Zle_Qle; lia).
  assert (Y1 : (LIM <= y)%Q) by (rewrite HY; nra).
  assert (Y2 : (y <= x)%Q).
  { unfold y. rewrite inject_Z_opp. assert (0 <= inject_Z rm)%Q by (change 0%Q with (inject_Z 0); rewrite <- Zle_Qle; lia).
    assert (0 <= inject_Z rm * p2 e)%Q by nra. lra. }
  destruct (fadd m1 e1 (- rm) e) as [t|err] eqn:Et.
  2:{ exfalso. eapply no_overflow; [exact Dx| |exact F]. rewrite Qabs_pos by lra. exact Y2. }
  destruct F as [Ft It]. cbn [bind].
  assert (T1 : (LIM <= numQ t)%Q) by (eapply nearest_ge; eauto; apply lim_double).
  assert (T2 : (numQ t <= x)%Q) by (eapply nearest_le; eauto).
  (* quotient *)
  set (z := (numQ t / LIM)%Q).
  assert (G := fdiv_cases (mant t) (expo t) m2 e2 z ltac:(discriminate)
                 ltac:(unfold z; rewrite <- num_val, <- sum_limit_val; reflexivity)).
  assert (HZ : (z * LIM == numQ t)%Q) by (unfold z; field; discriminate).
  assert (Z1 : (1 <= z)%Q).
  { apply (Qmult_le_r _ _ LIM P0). rewrite HZ. lra. }
  assert (Z2 : (z <= numQ t)%Q).
  { assert (K : (1 <= LIM)%Q) by discriminate. nra. }
  destruct (fdiv (mant t) (expo t) m2 e2) as [q|err] eqn:Eq.
  2:{ exfalso. eapply no_overflow; [exact (proj1 Ft)| |exact G]. rewrite Qabs_pos by lra. exact Z2. }
  destruct G as [Gq Iq]. cbn [bind].
  replace (negb (rm =? 0) && xorb (m2 <? 0) (rm <? 0)) with false.
  2:{ destruct (Z.ltb_spec rm 0); [lia|]. rewrite andb_comm. reflexivity. }
  cbn [bind].
  assert (Q1 : (1 <= numQ q)%Q) by (eapply nearest_ge; eauto; apply one_double).
  pose proof (rne_up z (numQ q) Z1 Gq) as Q2.
  destruct (Z.eqb_spec (mant q) 0) as [M0|M0].
  { exfalso. rewrite num_val, M0 in Q1. change (inject_Z 0) with 0%Q in Q1. rewrite Qmult_0_l in Q1. apply Q1. reflexivity. }
  set (fl := dy_floor (mant q) (expo q)).
  assert (FL : (inject_Z fl <= numQ q /\ numQ q < inject_Z (fl + 1))%Q) by apply (nfloor_spec q).
  assert (FL1 : 1 <= fl).
  { destruct FL as [_ FL]. assert (K : (inject_Z 1 < inject_Z (fl + 1))%Q) by (change (inject_Z 1) with 1%Q; lra).
    rewrite <- Zlt_Qlt in K. lia. }
  assert (FL1' : (1 <= inject_Z fl)%Q) by (change 1%Q with (inject_Z 1); rewrite <- Zle_Qle; lia).
  assert (NF1 : (inject_Z fl / inject_Z 1 == inject_Z fl)%Q) by (change (inject_Z 1) with 1%Q; field).
  destruct (fround_ok fl 1 Unmodelled (numQ q) ltac:(lia) (proj1 Gq)) as (fq & Efq & Nfq & Ifq).
  { rewrite NF1, Qabs_pos by lra. apply FL. }
  rewrite Efq. cbn [bind].
  assert (Nfq' : nearest_double (inject_Z fl) (numQ fq)) by (eapply nearest_comp; [exact NF1|reflexivity|exact Nfq]).
  assert (Fq1 : (1 <= numQ fq)%Q) by (eapply nearest_ge; eauto; apply one_double).
  assert (Fq2 : (numQ fq <= numQ q)%Q) by (eapply nearest_le; [exact Nfq'|exact (proj1 Gq)|apply FL]).
  assert (LOW : (x <= 32 * (numQ fq * LIM))%Q).
  { assert (YX : (x <= 2 * y)%Q).
    { rewrite HY, <- HA, <- HB.
      assert (K0 : B * 1 <= B * (A / B)) by (apply Z.mul_le_mono_nonneg_l; lia).
      assert (K : A <= 2 * (B * (A / B))) by lia. rewrite Zle_Qle, !inject_Z_mult in K. change (inject_Z 2) with 2%Q in K.
      apply (Qmult_le_compat_r _ _ (p2 e)) in K; [|lra].
      eapply Qle_trans; [exact K|]. apply Qle_lteq. right. ring. }
    assert (YT : (y <= 2 * numQ t)%Q) by (eapply nearest_half; [|exact Dx|exact Y2|exact Ft]; assert (1 <= LIM)%Q by discriminate; lra).
    assert (ZQ : (z <= 2 * numQ q)%Q) by (eapply nearest_half; [exact Z1|exact (proj1 Ft)|exact Z2|exact Gq]).
    assert (QF : (numQ q <= 2 * inject_Z fl)%Q).
    { destruct FL as [_ FL]. rewrite inject_Z_plus in FL. change (inject_Z 1) with 1%Q in FL. lra. }
    assert (FF : (inject_Z fl <= 2 * numQ fq)%Q).
    { eapply nearest_half; [exact FL1'|exact (proj1 Gq)|apply FL|exact Nfq']. }
    assert (ZF : (z <= 8 * numQ fq)%Q) by lra.
    assert (TF : (numQ t <= 8 * numQ fq * LIM)%Q) by (rewrite <- HZ; apply Qmult_le_compat_r; [exact ZF|lra]).
    lra. }
  (* the correction *)
  assert (BQ : (numQ q * LIM <= x * (1 + (1 # 1000000)))%Q).
  { apply Qle_trans with (z * (1 + (1 # 1000000)) * LIM)%Q; [apply Qmult_le_compat_r; lra|].
    setoid_replace (z * (1 + (1 # 1000000)) * LIM)%Q with (z * LIM * (1 + (1 # 1000000)))%Q by ring.
    rewrite HZ. apply Qmult_le_compat_r; [lra|discriminate]. }
  assert (XP : (0 < x)%Q) by lra.
  set (w := (numQ q - numQ fq)%Q).
  assert (W : (w == numQ q - numQ fq)%Q) by reflexivity.
  assert (F := fadd_cases (mant q) (expo q) (- mant fq) (expo fq) w
                 ltac:(rewrite W, (num_val q), (num_val fq), inject_Z_opp; ring)). clearbody w.
  destruct (fadd (mant q) (expo q) (- mant fq) (expo fq)) as [df|err] eqn:Edf.
  2:{ exfalso. eapply no_overflow; [exact (proj1 Gq)| |exact F]. rewrite Qabs_pos by lra. lra. }
  cbn [bind].
  destruct (dy_cmp (mant df) (expo df) 1 (-1)) eqn:C.
  1,2: exists fq, (fnorm rm e); repeat split; auto; [exact (proj1 Nfq')|nra].
  assert (F1 := fadd_cases (mant fq) (expo fq) 1 0 (numQ fq + 1)%Q ltac:(rewrite <- num_val; reflexivity)).
  assert (D2 : (numQ fq + 1 <= x)%Q).
  { assert (KL : (1000 <= LIM)%Q) by discriminate. nra. }
  destruct (fadd (mant fq) (expo fq) 1 0) as [r|err] eqn:Er.
  2:{ exfalso. eapply no_overflow; [exact Dx| |exact F1]. rewrite Qabs_pos by lra. exact D2. }
  destruct F1 as [Nr Ir]. cbn [bind]. exists r, (fnorm rm e). split; [reflexivity|]. split; [exact Ir|].
  split; [exact (proj1 Nr)|].
  assert (R1 : (1 <= numQ r)%Q) by (eapply nearest_ge; [exact Nr|apply one_double|lra]).
  assert (R2 : (numQ fq <= numQ r)%Q) by (eapply nearest_ge; [exact Nr|exact (proj1 Nfq')|lra]).
  split; [exact R1|]. split.
  2:{ eapply Qle_trans; [exact LOW|]. apply (Qmult_le_compat_r _ _ LIM) in R2; [lra|lra]. }
  - assert (U : (numQ r <= (numQ fq + 1) * (1 + (1 # 1000000)))%Q) by (apply rne_up; [lra|exact Nr]).
    assert (U2 : (numQ r <= numQ q * (2 + (2 # 1000000)))%Q) by lra.
    apply Qle_trans with (numQ q * (2 + (2 # 1000000)) * LIM)%Q; [apply Qmult_le_compat_r; lra|].
    setoid_replace (numQ q * (2 + (2 # 1000000)) * LIM)%Q with (numQ q * LIM * (2 + (2 # 1000000)))%Q by ring.
    apply Qle_trans with (x * (1 + (1 # 1000000)) * (2 + (2 # 1000000)))%Q; [apply Qmult_le_compat_r; [exact BQ|discriminate]|].
    rewrite <- Qmult_assoc, (Qmult_comm x), (Qmult_comm x). apply Qmult_le_compat_r; [discriminate|lra].
Qed.

Lemma limit_const_spec s : SUM_LIMIT < s ->
  match limit_const s with
  | Ok k => 1 < k /\ 4 * 10 ^ 19 * k <= s /\ (s <= 2 ^ 1000 -> s * 10 ^ 8 <= k * SUM_LIMIT)
  | Err e => e = OverflowErr /\ 2 ^ 1024 - 2 ^ 970 <= s
  end.
Proof.
  intro Hs. unfold limit_const, nfloordiv, SUM_LIMIT_F.
  change (mant (NF 2220446049250313 52) =? 0) with false. cbv iota. unfold lift2. cbn [to_float bind].
  pose proof (fround_spec s 1 OverflowErr ltac:(lia)) as S.
  assert (E1 : (inject_Z s / inject_Z 1 == inject_Z s)%Q) by (change (inject_Z 1) with 1%Q; field).
  assert (PS : (LIM < inject_Z s)%Q) by (unfold LIM; rewrite <- Zlt_Qlt; exact Hs).
  assert (P0 : (1000 < LIM)%Q) by reflexivity.
  destruct (fround s 1 OverflowErr) as [x|err]; cbn [bind].
  2:{ destruct S as [-> S]. split; [reflexivity|]. rewrite E1, Qabs_pos in S by lra. rewrite <- Zle_Qle in S. exact S. }
  destruct S as [S _].
  assert (Nx : nearest_double (inject_Z s) (numQ x)) by (eapply nearest_comp; [exact E1|reflexivity|exact S]).
  assert (X1 : (LIM <= numQ x)%Q) by (eapply nearest_ge; [exact Nx|apply lim_double|lra]).
  assert (X2 : (numQ x <= inject_Z s * (1 + (1 # 1000000)))%Q) by (apply rne_up; [lra|exact Nx]).
  destruct (fdivmod_limit (mant x) (expo x)) as (q & md & E & Iq & Dq & Q1 & Q2 & Q3).
  { eapply is_double_comp; [apply num_val|exact (proj1 Nx)]. }
  { rewrite <- num_val. exact X1. }
  cbn [mant expo]. rewrite E. cbn [bind fst].
  rewrite <- num_val in Q2, Q3.
  (* multiplication by 1e11 *)
  unfold nmul, lift2. destruct q as [z|mq eq]; [discriminate|]. cbn [TEN_E10_F to_float bind mant expo].
  assert (F := fmul_cases 48828125 11 mq eq (100000000000 * numQ (NF mq eq))%Q ltac:(rewrite numQ_p2; reflexivity)).
  set (q := numQ (NF mq eq)) in *. clearbody q.
  assert (BQ : (q * LIM <= inject_Z s * (2 + (2 # 10000)))%Q).
  { eapply Qle_trans; [exact Q2|]. apply Qle_trans with (inject_Z s * (1 + (1 # 1000000)) * (2 + (1 # 10000)))%Q.
    - apply Qmult_le_compat_r; [exact X2|discriminate].
    - rewrite <- Qmult_assoc, !(Qmult_comm (inject_Z s)). apply Qmult_le_compat_r; [discriminate|lra]. }
  assert (D2 : (100000000000 * q <= numQ x)%Q).
  { assert (KL : (1000000000000 <= LIM)%Q) by discriminate. nra. }
  destruct (fmul 48828125 11 mq eq) as [r|err] eqn:Er; cbn [bind].
  2:{ exfalso. eapply no_overflow; [exact (proj1 Nx)| |exact F]. rewrite Qabs_pos by lra. exact D2. }
  destruct F as [Nr _].
  assert (R1 : (2 <= numQ r)%Q).
  { eapply nearest_ge; [exact Nr| |lra]. exists 1, 1. split; [reflexivity|]. split; [lia|reflexivity]. }
  assert (R2 : (numQ r <= 100000000000 * q * (1 + (1 # 1000000)))%Q) by (apply rne_up; [lra|exact Nr]).
  destruct (ntrunc_spec r) as [(_ & T1 & T2)|(N & _)]; [|lra]. split; [|split].
  3:{ intro Hb. assert (SX : (inject_Z s <= 2 * numQ x)%Q).
      { eapply (nearest_half _ _ (p2 1000)); [lra| |rewrite (p2_Z 1000) by lia; rewrite <- Zle_Qle; exact Hb|exact Nx].
        exists (2 ^ 52), 948. split; [reflexivity|]. split; [lia|]. vm_compute. reflexivity. }
      assert (RH : (100000000000 * q <= 2 * numQ r)%Q) by (eapply nearest_half; [lra|exact (proj1 Nx)|exact D2|exact Nr]).
      assert (RK : (numQ r <= 2 * inject_Z (ntrunc r))%Q).
      { rewrite inject_Z_plus in T2. change (inject_Z 1) with 1%Q in T2. lra. }
      rewrite Zle_Qle, !inject_Z_mult. change (inject_Z SUM_LIMIT) with LIM. change (inject_Z (10 ^ 8)) with 100000000%Q.
      set (k := inject_Z (ntrunc r)) in *. clearbody k.
      assert (QK : (q * LIM <= (4 # 100000000000) * k * LIM)%Q) by (apply Qmult_le_compat_r; [lra|discriminate]).
      assert (KL : (0 <= k * LIM)%Q) by (assert (0 < LIM)%Q by reflexivity; nra). lra. }
  - assert (K : (inject_Z 2 < inject_Z (ntrunc r + 1))%Q) by (change (inject_Z 2) with 2%Q; lra).
    rewrite <- Zlt_Qlt in K. lia.
  - rewrite Zle_Qle, inject_Z_mult.
    assert (K : (inject_Z (ntrunc r) <= 100000000000 * q * (1 + (1 # 1000000)))%Q) by lra.
    assert (K2 : (inject_Z (4 * 10 ^ 19) * (100000000000 * (1 + (1 # 1000000))) * (2 + (2 # 10000)) <= LIM)%Q) by (vm_compute; discriminate).
    set (c := inject_Z (4 * 10 ^ 19)) in *. assert (Pc : (0 < c)%Q) by reflexivity. clearbody c.
    apply Qle_trans with (c * (100000000000 * q * (1 + (1 # 1000000))))%Q; [nra|].
    assert (PL : (0 < LIM)%Q) by lra.
    apply (Qmult_le_r _ _ LIM PL).
    setoid_replace (c * (100000000000 * q * (1 + (1 # 1000000))) * LIM)%Q with (c * (100000000000 * (1 + (1 # 1000000))) * (q * LIM))%Q by ring.
    apply Qle_trans with (c * (100000000000 * (1 + (1 # 1000000))) * (inject_Z s * (2 + (2 # 10000))))%Q.
    { rewrite !(Qmult_comm (c * _)). apply Qmult_le_compat_r; [exact BQ|]. nra. }
    setoid_replace (c * (100000000000 * (1 + (1 # 1000000))) * (inject_Z s * (2 + (2 # 10000))))%Q
      with (inject_Z s * (c * (100000000000 * (1 + (1 # 1000000))) * (2 + (2 # 10000))))%Q by ring.
    rewrite !(Qmult_comm (inject_Z s)). apply Qmult_le_compat_r; [exact K2|lra].
Qed.

(** ** The effect on a law *)
Definition rescale (k : Z) (d : dist) : dist := map (fun vp => (fst vp, snd vp / k)) d.

Lemma prob_limit_cases d d' : prob_limit d = Ok d' ->
  (total d <= SUM_LIMIT /\ d' = d) \/
  (SUM_LIMIT < total d /\ exists k, 1 < k /\ 4 * 10 ^ 19 * k <= total d /\ d' = rescale k d).
Proof.
  unfold prob_limit. rewrite sum_probs_total. destruct (Z.leb_spec (total d) SUM_LIMIT) as [H|H].
  - intro E. inversion E; subst. left. split; auto.
  - intro E. right. split; [exact H|]. pose proof (limit_const_spec (total d) H) as S.
    destruct (limit_const (total d)) as [k|]; cbn [bind] in E; [|discriminate].
    destruct S as (S1 & S2 & _). destruct (Z.eqb_spec k 0); [lia|]. inversion E. exists k. auto.
Qed.

Lemma prob_limit_ok d : total d < 2 ^ 1024 - 2 ^ 970 -> exists d', prob_limit d = Ok d'.
Proof.
  intro H. unfold prob_limit. rewrite sum_probs_total. destruct (Z.leb_spec (total d) SUM_LIMIT) as [L|L]; [eauto|].
  pose proof (limit_const_spec (total d) L) as S. destruct (limit_const (total d)) as [k|]; cbn [bind].
  - destruct (Z.eqb_spec k 0); [lia|]. eexists; reflexivity.
  - lia.
Qed.

Lemma prob_limit_err d e : prob_limit d = Err e -> e = OverflowErr /\ 2 ^ 1024 - 2 ^ 970 <= total d.
Proof.
  unfold prob_limit. rewrite sum_probs_total. destruct (Z.leb_spec (total d) SUM_LIMIT) as [L|L]; [discriminate|].
  pose proof (limit_const_spec (total d) L) as S. destruct (limit_const (total d)) as [k|]; cbn [bind].
  - destruct (Z.eqb_spec k 0); [lia|]. discriminate.
  - intro E. inversion E; subst. exact S.
Qed.

Lemma rescale_vals k d : vals (rescale k d) = vals d.
Proof. unfold vals, rescale. rewrite map_map. reflexivity. Qed.

Lemma mass_rescale P k (d : dist) : 0 < k ->
  k * mass P (rescale k d) <= mass P d /\
  mass P d - k * Z.of_nat (length d) <= k * mass P (rescale k d).
Proof.
  intro Hk. induction d as [|[v p] d [IH1 IH2]]; [cbn; lia|].
  cbn [rescale map mass fst snd length]. fold (rescale k d).
  pose proof (Z.div_mod p k ltac:(lia)). pose proof (Z.mod_pos_bound p k Hk).
  rewrite Nat2Z.inj_succ. destruct (P v); nia.
Qed.

Lemma rescale_nonneg k d : 0 < k -> nonneg d -> nonneg (rescale k d).
Proof.
  intros Hk H. unfold nonneg, rescale in *. apply Forall_map. eapply Forall_impl; [|exact H].
  intros x Hx. cbn in *. apply Z.div_pos; lia.
Qed.

Lemma abs_frac a b c d n m : 0 < b -> 0 < d -> 0 < m ->
  Z.abs (a * d - c * b) * m <= n * (b * d) ->
  (Qabs (inject_Z a / inject_Z b - inject_Z c / inject_Z d) <= inject_Z n / inject_Z m)%Q.
Proof.
  intros Hb Hd Hm H.
  assert (E : (inject_Z a / inject_Z b - inject_Z c / inject_Z d == inject_Z (a * d - c * b) / inject_Z (b * d))%Q).
  { unfold Z.sub. rewrite inject_Z_plus, inject_Z_opp, !inject_Z_mult. field.
    pose proof (inj_pos b Hb). pose proof (inj_pos d Hd). split; lra. }
  rewrite E. unfold Qdiv at 1. rewrite Qabs_Qmult. change (Qabs (inject_Z (a * d - c * b))) with (inject_Z (Z.abs (a * d - c * b))).
  assert (BD : 0 < b * d) by nia. pose proof (inj_pos _ BD) as PBD. pose proof (inj_pos m Hm) as Pm.
  rewrite (Qabs_pos (/ inject_Z (b * d))) by (apply Qlt_le_weak, Qinv_lt_0_compat, PBD).
  apply Qle_shift_div_l; [exact Pm|].
  setoid_replace (inject_Z (Z.abs (a * d - c * b)) * / inject_Z (b * d) * inject_Z m)%Q
    with ((inject_Z (Z.abs (a * d - c * b)) * inject_Z m) / inject_Z (b * d))%Q by (field; lra).
  apply Qle_shift_div_r; [exact PBD|]. rewrite <- !inject_Z_mult, <- Zle_Qle. exact H.
Qed.

(** the general bound: n outcomes, weights divided by k, total T *)
Lemma rescale_error d k v : nonneg d -> 0 < k ->
  let n := Z.of_nat (length d) in n * k < total d ->
  (Qabs (Pr (rescale k d) v - Pr d v) <= inject_Z (n * k) / inject_Z (total d - n * k))%Q.
Proof.
  intros Hn Hk n Hl. unfold Pr.
  destruct (mass_rescale (veqb v) k d Hk) as [A1 A2]. destruct (mass_rescale (fun _ => true) k d Hk) as [B1 B2].
  fold (total d) (total (rescale k d)) in B1, B2. fold (wt d v) (wt (rescale k d) v) in A1, A2. fold n in A2, B2.
  pose proof (mass_le_total (veqb v) d Hn) as C1. fold (wt d v) in C1.
  pose proof (mass_nonneg (veqb v) d Hn) as C2. fold (wt d v) in C2.
  set (a := wt d v) in *. set (a' := wt (rescale k d) v) in *. set (T := total d) in *. set (T' := total (rescale k d)) in *.
  assert (N0 : 0 <= n) by (unfold n; lia).
  assert (PT' : 0 < T') by nia. assert (PT : 0 < T) by nia.
  apply abs_frac; try lia.
  assert (U : a' * T - a * T' <= n * T).
  { assert (k * (a' * T - a * T') <= k * (a * n)); [|nia].
    assert (k * a' * T <= a * T) by nia. assert (a * (T - k * n) <= a * (k * T')) by nia. nia. }
  assert (L : a * T' - a' * T <= n * T).
  { assert (k * (a * T' - a' * T) <= k * (n * T)); [|nia].
    assert (a * (k * T') <= a * T) by nia. assert ((a - k * n) * T <= k * a' * T) by nia. nia. }
  assert (AB : Z.abs (a' * T - a * T') <= n * T) by lia.
  apply Z.le_trans with (n * T * (T - n * k)); [apply Z.mul_le_mono_nonneg_r; lia|].
  assert (T - n * k <= k * T') by lia.
  assert (0 <= n * T) by nia. nia.
Qed.

(** for up to 10^10 outcomes every probability moves by at most 10^-9 *)
Lemma limit_error d d' v : nonneg d -> Z.of_nat (length d) <= 10 ^ 10 -> prob_limit d = Ok d' ->
  (Qabs (Pr d' v - Pr d v) <= 1 # 1000000000)%Q.
Proof.
  intros Hn Hlen H. apply prob_limit_cases in H as [[_ ->]|(HT & k & Hk & Hb & ->)].
  - setoid_replace (Pr d v - Pr d v)%Q with 0%Q by ring. discriminate.
  - set (n := Z.of_nat (length d)) in *. assert (0 <= n) by (unfold n; lia).
    assert (HB : n * k * (10 ^ 9 + 1) <= total d) by nia.
    assert (PT : 0 < total d) by (unfold SUM_LIMIT in HT; lia).
    assert (HL : n * k < total d) by nia.
    eapply Qle_trans; [apply rescale_error; auto; lia|]. fold n.
    assert (P : 0 < total d - n * k) by lia.
    apply Qle_shift_div_r; [apply inj_pos, P|].
    setoid_replace (1 # 1000000000)%Q with (/ inject_Z (10 ^ 9))%Q by reflexivity.
    apply (Qmult_le_l _ _ (inject_Z (10 ^ 9))); [reflexivity|].
    rewrite Qmult_assoc, Qmult_inv_r, Qmult_1_l by discriminate.
    rewrite <- inject_Z_mult, <- Zle_Qle. nia.
Qed.

(** ** Rescaling keeps the total below the limit *)
Lemma prob_limit_bounded d : nonneg d -> total d <= 2 ^ 1000 ->
  exists d', prob_limit d = Ok d' /\ total d' <= SUM_LIMIT /\ nonneg d' /\ vals d' = vals d /\
    (0 < total d -> Z.of_nat (length d) <= 10 ^ 10 -> 0 < total d').
Proof.
  intros N T. unfold prob_limit. rewrite sum_probs_total.
  destruct (Z.leb_spec (total d) SUM_LIMIT) as [L|L]; [exists d; repeat split; auto|].
  pose proof (limit_const_spec (total d) L) as S. destruct (limit_const (total d)) as [k|].
  2:{ exfalso. assert (2 ^ 1000 < 2 ^ 1024 - 2 ^ 970) by reflexivity. lia. }
  destruct S as (S1 & S2 & S3). specialize (S3 T). cbn [bind].
  destruct (Z.eqb_spec k 0); [lia|]. exists (rescale k d). split; [reflexivity|].
  destruct (mass_rescale (fun _ => true) k d ltac:(lia)) as [R1 R2].
  fold (total d) in R1, R2. fold (total (rescale k d)) in R1, R2.
  split; [|split; [|split]].
  - assert (0 < SUM_LIMIT) by reflexivity. nia.
  - apply rescale_nonneg; [lia|exact N].
  - apply rescale_vals.
  - intros _ HL. nia.
Qed.
