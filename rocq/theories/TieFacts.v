(** Ties of the rounding to doubles. *)
From Coq Require Import List ZArith QArith Qabs Bool Lia Lqa.
From Verif Require Import PyBase Num Val RVModel Spec NumFacts MassFacts RVFacts RoundFacts UnaryFacts.
Import ListNotations.
Open Scope Z_scope.

Lemma half_even_tie a b : 0 < b -> 2 * Z.abs (a - b * div_half_even a b) = b -> Z.even (div_half_even a b) = true.
Proof.
  intros Hb. unfold div_half_even. pose proof (Z.div_mod a b ltac:(lia)). pose proof (Z.mod_pos_bound a b Hb).
  destruct (Z.compare_spec (2 * (a mod b)) b).
  - intros _. destruct (Z.even (a / b)) eqn:E; [exact E|]. rewrite Z.even_add, E. reflexivity.
  - intros K. exfalso. nia.
  - intros K. exfalso. nia.
Qed.
Lemma half_even_tie_Q a b : 0 < b -> (Qabs (inject_Z (div_half_even a b) - inject_Z a / inject_Z b) == 1 # 2)%Q ->
  Z.even (div_half_even a b) = true.
Proof.
  intros Hb H. apply (half_even_tie a b Hb). set (q := div_half_even a b) in *. clearbody q. pose proof (inj_pos b Hb).
  assert (E : (inject_Z a / inject_Z b * inject_Z b == inject_Z a)%Q) by (field; lra).
  set (y := (inject_Z a / inject_Z b)%Q) in *. clearbody y.
  assert (K : (2 * inject_Z (Z.abs (a - b * q)) == inject_Z b)%Q).
  { change (inject_Z (Z.abs (a - b * q))) with (Qabs (inject_Z (a - b * q))). unfold Z.sub. rewrite inject_Z_plus, inject_Z_opp, inject_Z_mult.
    rewrite <- E. setoid_replace (y * inject_Z b + - (inject_Z b * inject_Z q))%Q with (- ((inject_Z q - y) * inject_Z b))%Q by ring.
    rewrite Qabs_opp, Qabs_Qmult, H, (Qabs_pos (inject_Z b)) by lra. field. }
  change 2%Q with (inject_Z 2) in K. rewrite <- inject_Z_mult in K. apply (proj1 (inject_Z_injective _ _)) in K. exact K.
Qed.
Lemma rne_tie n d : 0 < n -> 0 < d -> let e := ulp_exp n d in
  (Qabs (inject_Z (rne n d e) - (inject_Z n / inject_Z d) * p2 (- e)) == 1 # 2)%Q -> Z.even (rne n d e) = true.
Proof.
  intros Hn Hd e H. pose proof (inj_pos d Hd). unfold rne in *. destruct (Z.ltb_spec e 0).
  - apply half_even_tie_Q; [exact Hd|]. rewrite <- H. apply Qabs_wd. rewrite inject_Z_mult, (p2_Z (- e)) by lia. field. lra.
  - pose proof (pow2_pos e ltac:(lia)). apply half_even_tie_Q; [nia|]. rewrite <- H. apply Qabs_wd.
    pose proof (p2_opp e) as O. rewrite (p2_Z e) in O by lia. pose proof (inj_pos (2 ^ e) ltac:(lia)).
    assert (O' : (p2 (- e) == / inject_Z (2 ^ e))%Q).
    { apply (Qmult_inj_l _ _ (inject_Z (2 ^ e))); [lra|]. rewrite O, Qmult_inv_r by lra. reflexivity. }
    rewrite O', inject_Z_mult. field. split; lra.
Qed.

Lemma ties_comp x y r s : (x == y)%Q -> (r == s)%Q -> ties_to_even x r -> ties_to_even y s.
Proof.
  intros X R (m & e & H1 & H2 & H3 & H4 & H5). exists m, e.
  assert (E : (Qabs (s - y) == Qabs (r - x))%Q) by (apply Qabs_wd; rewrite X, R; reflexivity). rewrite E.
  repeat split; auto. rewrite <- R. exact H1.
Qed.
Lemma ties_opp x r : ties_to_even x r -> ties_to_even (- x) (- r).
Proof.
  intros (m & e & H1 & H2 & H3 & H4 & H5). exists (- m), e.
  assert (E : (Qabs (- r - - x) == Qabs (r - x))%Q).
  { rewrite <- (Qabs_opp (r - x)). apply Qabs_wd. ring. }
  rewrite E, Z.abs_opp, Z.even_opp. repeat split; auto. rewrite H1, !numQ_p2, inject_Z_opp. ring.
Qed.

Lemma zero_tie : ties_to_even 0 0.
Proof.
  exists 0, (-1074). split; [reflexivity|]. split; [lia|]. split; [right; reflexivity|]. split; [|reflexivity].
  change (Qabs (0 - 0)) with 0%Q. rewrite numQ_p2. change (inject_Z 1) with 1%Q. rewrite Qmult_1_l. apply Qlt_le_weak, p2_pos.
Qed.

Lemma rounded_tie n d : 0 < n -> 0 < d -> let e := ulp_exp n d in
  ties_to_even (inject_Z n / inject_Z d) (inject_Z (rne n d e) * p2 e).
Proof.
  intros Hn Hd e. pose proof (rne_rounded n d Hn Hd) as R. fold e in R. pose proof (rounded_q_le _ _ _ _ R) as Q1.
  pose proof (rne_tie n d Hn Hd) as TE. cbv zeta in TE. fold e in TE.
  set (q := rne n d e) in *. destruct R as [R1 R2 R3 R4 R5]. exists q, e.
  set (x := (inject_Z n / inject_Z d)%Q) in *.
  assert (SC : (Qabs (inject_Z q * p2 e - x) == Qabs (inject_Z q - x * p2 (- e)) * p2 e)%Q).
  { rewrite (scale_abs _ x e). apply Qmult_comp; [|reflexivity]. apply Qabs_wd. rewrite <- Qmult_assoc, p2_opp. ring. }
  assert (HF : (numQ (NF 1 (e - 1)) == (1 # 2) * p2 e)%Q).
  { rewrite numQ_p2. replace (e - 1) with (e + -1) by lia. rewrite p2_add. change (inject_Z 1) with 1%Q. change (p2 (-1)) with (1 # 2)%Q. ring. }
  pose proof (p2_pos e) as P. repeat split.
  - rewrite numQ_p2. reflexivity.
  - lia.
  - destruct R4 as [R4|R4]; [right; exact R4|left]. rewrite Z.abs_eq by exact R5.
    apply Qabs_Qle_condition in R2 as [R2 _].
    assert (Y : (inject_Z (2 ^ 52) <= x * p2 (- e))%Q).
    { rewrite <- p2_Z by lia. pose proof (p2_pos (- e)) as P'. apply (Qmult_le_r _ _ _ P') in R4.
      rewrite <- p2_add in R4. replace (e + 52 + - e) with 52 in R4 by lia. exact R4. }
    assert (L : (inject_Z (2 ^ 52 - 1) < inject_Z q)%Q).
    { unfold Z.sub. rewrite inject_Z_plus. change (inject_Z (- (1))) with (-1)%Q. lra. }
    rewrite <- Zlt_Qlt in L. lia.
  - rewrite SC, HF. apply Qmult_le_compat_r; [exact R2|lra].
  - rewrite SC, HF. intros K. apply TE. apply (Qmult_inj_r _ _ (p2 e)); [lra|exact K].
Qed.

Lemma fround_tie n d err r : d <> 0 -> fround n d err = Ok r -> ties_to_even (inject_Z n / inject_Z d) (numQ r).
Proof.
  assert (W : forall n d r, 0 < d ->
    match round_nonneg (Z.abs n) d with None => Err err | Some (q, e) => Ok (fnorm (Z.sgn n * q) e) end = Ok r ->
    ties_to_even (inject_Z n / inject_Z d) (numQ r)).
  { clear n d r. intros n d r Hd H. pose proof (inj_pos d Hd) as Pd. unfold round_nonneg in H.
    destruct (Z.eqb_spec (Z.abs n) 0) as [E|E].
    - injection H as <-. assert (n = 0) by lia. subst n. eapply ties_comp; [| |exact zero_tie]; [|reflexivity].
      unfold Qdiv. change (inject_Z 0) with 0%Q. ring.
    - destruct (_ || _); [discriminate|]. injection H as <-. eapply ties_comp; [reflexivity|symmetry; apply fnorm_numQ|].
      pose proof (rounded_tie (Z.abs n) d ltac:(lia) Hd) as K. cbv zeta in K. unfold rne in K.
      set (e := ulp_exp (Z.abs n) d) in *.
      set (q := if e <? 0 then div_half_even (Z.abs n * 2 ^ (- e)) d else div_half_even (Z.abs n) (d * 2 ^ e)) in *. clearbody q. destruct (Z.abs_spec n) as [[A B]|[A B]].
      + rewrite Z.sgn_pos, Z.mul_1_l by lia. rewrite B in K at 1. exact K.
      + apply ties_opp in K. eapply ties_comp; [| |exact K].
        * rewrite B, inject_Z_opp. field. lra.
        * rewrite Z.sgn_neg, inject_Z_mult by lia. change (inject_Z (-1)) with (-1)%Q. ring. }
  intros Hd. unfold fround. destruct (Z.ltb_spec d 0).
  - intros H1. eapply ties_comp; [|reflexivity|apply (W (- n) (- d) r); [lia|exact H1]].
    rewrite !inject_Z_opp. field. intro K. unfold Qeq in K. cbn in K. lia.
  - apply W. lia.
Qed.

Lemma mean_tie x m : int_vals x -> rv_mean x = Ok (Some m) -> ties_to_even (expectation x) (numQ m).
Proof.
  intros Hi H. rewrite mean_int in H by exact Hi. destruct (Z.eqb_spec (total x) 0) as [E|E]; [discriminate|].
  destruct (fround (wsum toZ x) (total x) OverflowErr) as [m'|e] eqn:F; [|discriminate]. cbn in H. injection H as <-.
  exact (fround_tie _ _ _ _ E F).
Qed.
