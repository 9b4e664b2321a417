(** [round] with a number of digits. *)
From Coq Require Import String List ZArith QArith Qabs Qpower Bool Lia Lqa.
From Verif Require Import PyBase Num Val RVModel Obj Spec NumFacts MassFacts RVFacts ConstructFacts ConvFacts RoundFacts UnaryFacts
  TieFacts StdFacts FloatSpec FloatFacts RoundToModel RoundToSpec.
Import ListNotations.
Open Scope Z_scope.

Lemma decQ_p10 k n : (decQ k n == inject_Z k * p10 n)%Q.
Proof. reflexivity. Qed.

(** [a / b] times a unit [u] *)
Lemma multiple_of a b u s : 0 < b -> (0 < u)%Q -> s = 1 \/ s = -1 ->
  let k := div_half_even a b in
  (Qabs (inject_Z (s * k) * u - inject_Z s * (inject_Z a / inject_Z b * u)) <= u / 2)%Q /\
  ((Qabs (inject_Z (s * k) * u - inject_Z s * (inject_Z a / inject_Z b * u)) == u / 2)%Q -> Z.even (s * k) = true).
Proof.
  intros B U S k. pose proof (half_even_Q a b B) as H. pose proof (half_even_tie_Q a b B) as T. fold k in H, T.
  set (y := (inject_Z a / inject_Z b)%Q) in *. clearbody y. clearbody k.
  assert (X : (Qabs (inject_Z (s * k) * u - inject_Z s * (y * u)) == Qabs (inject_Z k - y) * u)%Q).
  { rewrite inject_Z_mult. setoid_replace (inject_Z s * inject_Z k * u - inject_Z s * (y * u))%Q with (inject_Z s * ((inject_Z k - y) * u))%Q by ring.
    rewrite !Qabs_Qmult, (Qabs_pos u) by lra. destruct S as [-> | ->]; [change (Qabs (inject_Z 1)) with 1%Q|change (Qabs (inject_Z (-1))) with 1%Q]; ring. }
  rewrite X. split.
  - setoid_replace (u / 2)%Q with ((1 # 2) * u)%Q by field. apply Qmult_le_compat_r; [exact H|lra].
  - intros E. setoid_replace (u / 2)%Q with ((1 # 2) * u)%Q in E by field. apply Qmult_inj_r in E; [|lra]. specialize (T E).
    destruct S as [-> | ->]; [rewrite Z.mul_1_l; exact T|]. replace (-1 * k) with (- k) by lia. rewrite Z.even_opp. exact T.
Qed.

Lemma max_parts (f : Z -> Q) (g : Z -> Z) n : (forall k, 0 <= k -> (f k == inject_Z (g k))%Q) -> g 0 = 1 ->
  (f n * f (- n)%Z == 1)%Q -> (0 < f (- n)%Z)%Q -> (inject_Z (g (Z.max n 0)%Z) == f n * inject_Z (g (Z.max (- n) 0)%Z))%Q.
Proof.
  intros F G O P. destruct (Z.le_ge_cases 0 n) as [N|N].
  - rewrite (Z.max_l n 0), (Z.max_r (- n) 0) by lia. rewrite G, F by lia. change (inject_Z 1) with 1%Q. ring.
  - rewrite (Z.max_r n 0), (Z.max_l (- n) 0) by lia. rewrite G, <- F by lia. rewrite O. reflexivity.
Qed.

Lemma in_units_spec n m e : nearest_multiple n (numQ (NF m e)) (in_units n m e).
Proof.
  unfold nearest_multiple, in_units. rewrite numQ_p2, !decQ_p10. change (inject_Z 1) with 1%Q.
  set (A := 10 ^ Z.max n 0). set (B := 2 ^ Z.max e 0). set (C := 10 ^ Z.max (- n) 0). set (D := 2 ^ Z.max (- e) 0).
  assert (PC : 0 < C) by (apply pow10_pos; lia). assert (PD : 0 < D) by (apply Z.pow_pos_nonneg; lia).
  pose proof (p10_pos (- n)) as U. pose proof (p2_pos e) as V.
  destruct (Z.eq_dec m 0) as [-> | M].
  { cbn [Z.sgn Z.abs]. rewrite Z.mul_0_l. change (inject_Z 0) with 0%Q.
    assert (X : (Qabs (0 * p10 (- n) - 0 * p2 e) == 0)%Q) by (setoid_replace (0 * p10 (- n) - 0 * p2 e)%Q with 0%Q by ring; reflexivity).
    rewrite X. split; [|reflexivity]. setoid_replace (1 * p10 (- n) / 2)%Q with (p10 (- n) * (1 # 2))%Q by field. lra. }
  assert (S : Z.sgn m = 1 \/ Z.sgn m = -1) by (destruct (Z.sgn_spec m) as [[? ->]|[[? ?]|[? ->]]]; [left|lia|right]; reflexivity).
  pose proof (multiple_of (Z.abs m * A * B) (C * D) (p10 (- n)) (Z.sgn m) ltac:(nia) U S) as [H T]. cbv zeta in H, T.
  assert (E : (inject_Z (Z.sgn m) * (inject_Z (Z.abs m * A * B) / inject_Z (C * D) * p10 (- n)) == inject_Z m * p2 e)%Q).
  { rewrite !inject_Z_mult.
    rewrite (max_parts p10 (fun k => 10 ^ k) n p10_Z eq_refl (p10_opp n) U : (inject_Z A == _)%Q).
    rewrite (max_parts p2 (fun k => 2 ^ k) e p2_Z eq_refl (p2_opp e) (p2_pos (- e)) : (inject_Z B == _)%Q).
    change (10 ^ Z.max (- n) 0) with C. change (2 ^ Z.max (- e) 0) with D.
    pose proof (inj_pos C PC). pose proof (inj_pos D PD). pose proof (p10_opp n) as O.
    assert (G : (inject_Z (Z.sgn m) * inject_Z (Z.abs m) == inject_Z m)%Q) by (rewrite <- inject_Z_mult; replace (Z.sgn m * Z.abs m) with m by (rewrite Z.mul_comm; symmetry; apply Z.abs_sgn); reflexivity).
    setoid_replace (inject_Z (Z.sgn m) * (inject_Z (Z.abs m) * (p10 n * inject_Z C) * (p2 e * inject_Z D) / (inject_Z C * inject_Z D) * p10 (- n)))%Q
      with (inject_Z (Z.sgn m) * inject_Z (Z.abs m) * p2 e * (p10 n * p10 (- n)))%Q by (field; split; lra).
    rewrite G, O. ring. }
  rewrite E in H, T. setoid_replace (1 * p10 (- n) / 2)%Q with (p10 (- n) / 2)%Q by (field). split; [exact H|]. intros K. apply T. rewrite K. field.
Qed.

(** ** Far beyond the digits of a double *)

Lemma double_grid x : is_double x -> exists z, (x == inject_Z z * p2 (-1074))%Q.
Proof.
  intros (m & e & _ & E & X). exists (m * 2 ^ (e + 1074)). rewrite X, numQ_p2, inject_Z_mult, <- p2_Z by lia.
  replace e with (e + 1074 + -1074) at 1 by lia. rewrite p2_add. ring.
Qed.

Lemma double_normal x : is_double x -> exists m e, (x == numQ (NF m e))%Q /\ Z.abs m <= 2 ^ 53 /\ (2 ^ 52 <= Z.abs m \/ e = -1074) /\ -1074 <= e.
Proof.
  intros (m & e & M & E & X). destruct (Z.eq_dec m 0) as [-> | Nz].
  { exists 0, (-1074). split; [rewrite X, !numQ_p2; change (inject_Z 0) with 0%Q; ring|]. split; [lia|]. split; [right; reflexivity|lia]. }
  set (s := Z.min (52 - Z.log2 (Z.abs m)) (e + 1074)).
  assert (L : Z.log2 (Z.abs m) < 53) by (apply Z.log2_lt_pow2; lia).
  pose proof (Z.log2_nonneg (Z.abs m)) as L0. pose proof (Z.log2_spec (Z.abs m) ltac:(lia)) as [La Lb].
  assert (S0 : 0 <= s) by (subst s; lia).
  exists (m * 2 ^ s), (e - s). split; [|split; [|split]].
  - rewrite X, !numQ_p2, inject_Z_mult, <- p2_Z by exact S0. replace e with (s + (e - s)) at 1 by lia. rewrite p2_add. ring.
  - rewrite Z.abs_mul, (Z.abs_eq (2 ^ s)) by (apply Z.pow_nonneg; lia).
    apply Z.le_trans with (2 ^ Z.succ (Z.log2 (Z.abs m)) * 2 ^ s); [apply Z.mul_le_mono_nonneg_r; [apply Z.pow_nonneg; lia|lia]|].
    rewrite <- Z.pow_add_r by lia. apply Z.pow_le_mono_r; subst s; lia.
  - destruct (Z.le_gt_cases (52 - Z.log2 (Z.abs m)) (e + 1074)) as [C|C].
    + left. rewrite Z.abs_mul, (Z.abs_eq (2 ^ s)) by (apply Z.pow_nonneg; lia).
      apply Z.le_trans with (2 ^ Z.log2 (Z.abs m) * 2 ^ s); [|apply Z.mul_le_mono_nonneg_r; [apply Z.pow_nonneg; lia|exact La]].
      rewrite <- Z.pow_add_r by lia. apply Z.pow_le_mono_r; subst s; lia.
    + right. subst s. lia.
  - subst s. lia.
Qed.

Lemma reads_near x y : is_double x -> (Qabs (x - y) < p2 (-1075))%Q -> reads_as y x.
Proof.
  intros Dx N. split.
  - split; [exact Dx|]. intros f Df. destruct (double_grid x Dx) as (a & A). destruct (double_grid f Df) as (b & B).
    destruct (Z.eq_dec a b) as [<- | Ne].
    { setoid_replace (f - y)%Q with (x - y)%Q by (rewrite A, B; reflexivity). apply Qle_refl. }
    assert (G : (p2 (-1074) <= Qabs (f - x))%Q).
    { setoid_replace (f - x)%Q with (inject_Z (b - a) * p2 (-1074))%Q by (rewrite A, B; unfold Z.sub; rewrite inject_Z_plus, inject_Z_opp; ring).
      pose proof (p2_pos (-1074)) as P. rewrite Qabs_Qmult, (Qabs_pos (p2 (-1074))) by lra.
      change (Qabs (inject_Z (b - a))) with (inject_Z (Z.abs (b - a))).
      assert (1 <= inject_Z (Z.abs (b - a)))%Q by (change 1%Q with (inject_Z 1); rewrite <- Zle_Qle; lia). nra. }
    assert (H : (Qabs (f - x) <= Qabs (f - y) + Qabs (x - y))%Q).
    { setoid_replace (f - x)%Q with ((f - y) - (x - y))%Q by ring. eapply Qle_trans; [apply Qabs_triangle|]. rewrite Qabs_opp. apply Qle_refl. }
    assert (W : (p2 (-1074) == 2 * p2 (-1075))%Q) by (vm_compute; reflexivity). lra.
  - destruct (double_normal x Dx) as (m & e & X & M & O & E). exists m, e. split; [exact X|]. split; [exact M|]. split; [exact O|].
    assert (L : (Qabs (x - y) < numQ (NF 1 (e - 1)))%Q).
    { rewrite numQ_p2. change (inject_Z 1) with 1%Q. rewrite Qmult_1_l. eapply Qlt_le_trans; [exact N|]. apply p2_le. lia. }
    split; [lra|]. intros K. lra.
Qed.

(** ** [round] of a number *)

Theorem round_to_spec n a b : is_python a -> round_to n a = Ok b -> rounded_to n a b.
Proof.
  intros Py H. destruct a as [z|m e].
  - cbn [round_to] in H. injection H as <-. exists (in_units n z 0).
    pose proof (in_units_spec n z 0) as U. assert (X : (numQ (NF z 0) == numQ (NI z))%Q) by (rewrite numQ_p2; cbn [numQ]; change (p2 0) with 1%Q; ring).
    unfold nearest_multiple in U |- *. rewrite X in U. split; [exact U|]. split; [reflexivity|]. cbn [is_int numQ].
    destruct (Z.leb_spec 0 n) as [N|N].
    + unfold in_units. rewrite (Z.max_l n 0), (Z.max_r (- n) 0) by lia. cbn [Z.max Z.compare Z.opp]. rewrite !Z.mul_1_r.
      unfold div_half_even. rewrite Z.div_1_r, Z.mod_1_r. cbn [Z.mul Z.compare]. change (10 ^ 0) with 1. cbv iota.
      rewrite decQ_p10, inject_Z_mult, inject_Z_mult, <- p10_Z by exact N.
      assert (G : (inject_Z (Z.sgn z) * inject_Z (Z.abs z) == inject_Z z)%Q) by (rewrite <- inject_Z_mult; replace (Z.sgn z * Z.abs z) with z by (rewrite Z.mul_comm; symmetry; apply Z.abs_sgn); reflexivity).
      rewrite <- G at 1. pose proof (p10_opp n) as O.
      setoid_replace (inject_Z (Z.sgn z) * (inject_Z (Z.abs z) * p10 n) * p10 (- n))%Q with (inject_Z (Z.sgn z) * inject_Z (Z.abs z) * (p10 n * p10 (- n)))%Q by ring.
      rewrite O. ring.
    + rewrite decQ_p10, inject_Z_mult, <- p10_Z by lia. reflexivity.
  - destruct Py as [Py|Py]; [discriminate|]. exists (in_units n m e). pose proof (in_units_spec n m e) as U. cbn [round_to] in H.
    destruct (Z.ltb_spec 323 n) as [N|N].
    { injection H as <-. split; [exact U|]. split; [reflexivity|]. cbn [is_int]. apply reads_near; [exact Py|].
      destruct U as [U _]. rewrite <- Qabs_opp. setoid_replace (- (numQ (NF m e) - decQ (in_units n m e) (- n)))%Q with (decQ (in_units n m e) (- n) - numQ (NF m e))%Q by ring.
      eapply Qle_lt_trans; [exact U|]. rewrite decQ_p10. change (inject_Z 1) with 1%Q.
      assert (L : (p10 (- n) <= p10 (-324))%Q).
      { replace (-324) with (- n + (n - 324)) by lia. rewrite p10_add. rewrite <- (Qmult_1_r (p10 (- n))) at 1. pose proof (p10_pos (- n)).
        rewrite !(Qmult_comm (p10 (- n))). apply Qmult_le_compat_r; [|lra]. rewrite p10_Z by lia. change 1%Q with (inject_Z 1). rewrite <- Zle_Qle.
        pose proof (pow10_pos (n - 324) ltac:(lia)). lia. }
      assert (W : (p10 (-324) * (1 # 2) < p2 (-1075))%Q) by (vm_compute; reflexivity).
      setoid_replace (1 * p10 (- n) / 2)%Q with (p10 (- n) * (1 # 2))%Q by field. lra. }
    destruct (Z.ltb_spec n (-308)) as [M|M].
    { injection H as <-.
      assert (Z0 : in_units n m e = 0).
      { destruct U as [U _]. pose proof (double_bound _ Py) as B. set (k := in_units n m e) in *. clearbody k. set (x := numQ (NF m e)) in *. clearbody x.
        rewrite !decQ_p10 in U. change (inject_Z 1) with 1%Q in U. setoid_replace (1 * p10 (- n) / 2)%Q with (p10 (- n) * (1 # 2))%Q in U by field.
        assert (L : (p10 309 <= p10 (- n))%Q).
        { replace (- n) with (309 + (- n - 309)) by lia. rewrite p10_add. rewrite <- (Qmult_1_r (p10 309)) at 1. rewrite !(Qmult_comm (p10 309)).
          apply Qmult_le_compat_r; [|vm_compute; discriminate]. rewrite p10_Z by lia. change 1%Q with (inject_Z 1). rewrite <- Zle_Qle.
          pose proof (pow10_pos (- n - 309) ltac:(lia)). lia. }
        assert (W : (inject_Z (2 ^ 1024 - 2 ^ 971) < p10 309 * (1 # 2))%Q) by (vm_compute; reflexivity).
        rewrite Qabs_bounds in U, B. set (u := p10 (- n)) in *. clearbody u. set (w := p10 309) in *. clearbody w. set (d := inject_Z (2 ^ 1024 - 2 ^ 971)) in *. clearbody d.
        destruct (Z.eq_dec k 0) as [->|K]; [reflexivity|exfalso].
        destruct (Z.le_gt_cases 1 k) as [P|P].
        - assert (1 <= inject_Z k)%Q by (change 1%Q with (inject_Z 1); rewrite <- Zle_Qle; lia). nra.
        - assert (inject_Z k <= -1)%Q by (change (-1)%Q with (inject_Z (-1)); rewrite <- Zle_Qle; lia). nra. }
      split; [exact U|]. split; [reflexivity|]. cbn [is_int]. rewrite Z0. assert (X : (decQ 0 (- n) == 0)%Q) by (rewrite decQ_p10; change (inject_Z 0) with 0%Q; ring).
      assert (Y : (numQ (NF 0 0) == 0)%Q) by reflexivity. assert (Dz : is_double 0) by (exists 0, 0; repeat split; lia).
      split.
      - apply (nearest_comp 0 _ 0); [symmetry; exact X|symmetry; exact Y|]. split; [exact Dz|]. intros f _. setoid_replace (0 - 0)%Q with 0%Q by ring. cbn [Qabs]. apply Qabs_nonneg.
      - apply (ties_comp 0 _ 0); [symmetry; exact X|symmetry; exact Y|exact zero_tie]. }
    split; [exact U|]. pose proof (pow10_pos (Z.max n 0) ltac:(lia)) as PA.
    pose proof (fround_spec (in_units n m e * 10 ^ Z.max (- n) 0) (10 ^ Z.max n 0) OverflowErr ltac:(lia)) as F.
    pose proof (fround_tie (in_units n m e * 10 ^ Z.max (- n) 0) (10 ^ Z.max n 0) OverflowErr b ltac:(lia) H) as T. rewrite H in F. destruct F as [F J].
    split; [exact J|]. cbn [is_int].
    assert (X : (inject_Z (in_units n m e * 10 ^ Z.max (- n) 0) / inject_Z (10 ^ Z.max n 0) == decQ (in_units n m e) (- n))%Q).
    { rewrite decQ_p10, inject_Z_mult. pose proof (inj_pos _ PA).
      pose proof (max_parts p10 (fun k => 10 ^ k) (- n) p10_Z eq_refl (p10_opp (- n))) as Y. rewrite Z.opp_involutive in Y. specialize (Y (p10_pos n)).
      rewrite Y. field. lra. }
    split; [exact (nearest_comp _ _ _ _ X (Qeq_refl _) F)|exact (ties_comp _ _ _ _ X (Qeq_refl _) T)].
Qed.

(** it succeeds unless the result is too large for a double *)
Theorem round_to_ok n a : is_int a = true \/ (Qabs (numQ a) <= p2 1023)%Q -> exists b, round_to n a = Ok b.
Proof.
  intros [I|B]; [destruct a; [cbn; eauto|discriminate]|]. destruct a as [z|m e]; [cbn; eauto|]. cbn [round_to].
  destruct (Z.ltb_spec 323 n); [eauto|]. destruct (Z.ltb_spec n (-308)); [eauto|].
  pose proof (pow10_pos (Z.max n 0) ltac:(lia)) as PA.
  pose proof (fround_spec (in_units n m e * 10 ^ Z.max (- n) 0) (10 ^ Z.max n 0) OverflowErr ltac:(lia)) as F.
  destruct (fround _ _ _) as [b|err]; [eauto|exfalso]. destruct F as [_ F].
  assert (X : (inject_Z (in_units n m e * 10 ^ Z.max (- n) 0) / inject_Z (10 ^ Z.max n 0) == decQ (in_units n m e) (- n))%Q).
  { rewrite decQ_p10, inject_Z_mult. pose proof (inj_pos _ PA).
    pose proof (max_parts p10 (fun k => 10 ^ k) (- n) p10_Z eq_refl (p10_opp (- n))) as Y. rewrite Z.opp_involutive in Y. specialize (Y (p10_pos n)).
    rewrite Y. field. lra. }
  rewrite X in F. destruct (in_units_spec n m e) as [U _]. set (k := in_units n m e) in *. clearbody k.
  assert (L : (decQ 1 (- n) <= p10 308)%Q).
  { rewrite decQ_p10. change (inject_Z 1) with 1%Q. rewrite Qmult_1_l. replace 308 with (- n + (n + 308)) by lia. rewrite p10_add. pose proof (p10_pos (- n)).
    rewrite <- (Qmult_1_r (p10 (- n))) at 1. rewrite !(Qmult_comm (p10 (- n))). apply Qmult_le_compat_r; [|lra]. rewrite p10_Z by lia.
    change 1%Q with (inject_Z 1). rewrite <- Zle_Qle. pose proof (pow10_pos (n + 308) ltac:(lia)). lia. }
  assert (V : (Qabs (decQ k (- n)) <= Qabs (numQ (NF m e)) + Qabs (decQ k (- n) - numQ (NF m e)))%Q).
  { setoid_replace (decQ k (- n)) with (numQ (NF m e) + (decQ k (- n) - numQ (NF m e)))%Q at 1 by ring. apply Qabs_triangle. }
  assert (W : (p2 1023 + p10 308 * (1 # 2) < inject_Z (2 ^ 1024 - 2 ^ 970))%Q) by (vm_compute; reflexivity).
  setoid_replace (decQ 1 (- n) / 2)%Q with (decQ 1 (- n) * (1 # 2))%Q in U by field. lra.
Qed.

(** ** Dice *)

Lemma map_image c f x r : cfg_trunc c = false -> proper x -> rv_map c (vnum1 f) x = Ok r -> image_law (fun a b => f a = Ok b) x (rv_dist r).
Proof.
  intros Ht Hp H. destruct (rv_map_law c _ x r Ht Hp H) as (HP & _).
  destruct (mapM (vnum1 f) (vals x)) as [vs|] eqn:E; [|unfold rv_map in H; rewrite E in H; discriminate]. clear H Hp Ht.
  assert (K : exists pairs : list (num * num * Z), x = map (fun p => (VN (fst (fst p)), snd p)) pairs /\ Forall (fun p => f (fst (fst p)) = Ok (snd (fst p))) pairs).
  { clear HP. revert vs E. induction x as [|[v w] x IH]; intros vs E; [exists []; split; [reflexivity|constructor]|].
    cbn [vals map fst mapM] in E. destruct v as [a|s]; [|discriminate]. cbn [vnum1] in E. destruct (f a) as [b|] eqn:Fa; [|discriminate]. cbn [rmap bind] in E.
    fold (vals x) in E. destruct (mapM (vnum1 f) (vals x)) as [vs'|] eqn:E'; [|discriminate]. destruct (IH vs' eq_refl) as (ps & -> & A).
    exists ((a, b, w) :: ps). split; [reflexivity|]. constructor; [exact Fa|exact A]. }
  destruct K as (pairs & X & A). exists pairs. split; [exact X|]. split; [exact A|]. intros v. rewrite HP, X. clear HP E X x.
  unfold Pr, PrP.
  assert (Tt : total (map (fun p : num * num * Z => (VN (fst (fst p)), snd p)) pairs) = total (map (fun p : num * num * Z => (VN (snd (fst p)), snd p)) pairs)).
  { clear A. induction pairs as [|p ps IH]; [reflexivity|]. unfold total in *. cbn [map mass fst snd] in *. rewrite IH. reflexivity. }
  assert (M : mass (fun a => yields (vnum1 f a) v) (map (fun p : num * num * Z => (VN (fst (fst p)), snd p)) pairs) = mass (veqb v) (map (fun p : num * num * Z => (VN (snd (fst p)), snd p)) pairs)).
  { clear Tt. induction pairs as [|p ps IH]; [reflexivity|]. inversion A; subst. cbn [map mass fst snd]. rewrite IH by assumption.
    cbn [vnum1]. rewrite H1. cbn [rmap yields]. reflexivity. }
  rewrite Tt, M. reflexivity.
Qed.

Lemma image_weaken (R R' : num -> num -> Prop) x y : (forall a b, In (VN a) (map fst x) -> R a b -> R' a b) -> image_law R x y -> image_law R' x y.
Proof.
  intros W (ps & X & A & L). exists ps. split; [exact X|]. split; [|exact L]. apply Forall_forall. intros p I. rewrite Forall_forall in A.
  apply W; [|apply A, I]. rewrite X, map_map. apply in_map_iff. exists p. split; [reflexivity|exact I].
Qed.

Theorem round_law c n x r : cfg_trunc c = false -> proper x -> (forall a, In (VN a) (map fst x) -> is_python a) -> rv_round c n x = Ok r ->
  image_law (rounded_to n) x (rv_dist r).
Proof.
  intros Ht Hp Py H. apply (image_weaken (fun a b => round_to n a = Ok b)); [|exact (map_image c _ x r Ht Hp H)].
  intros a b I E. apply round_to_spec; [apply Py, I|exact E].
Qed.

Theorem round_ok c n x : cfg_trunc c = false -> nonneg x ->
  (forall v, In v (vals x) -> exists a, v = VN a /\ (is_int a = true \/ (Qabs (numQ a) <= p2 1023)%Q)) -> exists r, rv_round c n x = Ok r.
Proof.
  intros Ht Hn H. apply rv_map_succeeds; [exact Ht|exact Hn|]. intros v I. destruct (H v I) as (a & -> & B).
  destruct (round_to_ok n a B) as [b E]. exists (VN b). cbn [vnum1]. rewrite E. reflexivity.
Qed.

Theorem unary_law c f x r : cfg_trunc c = false -> proper (rv_dist x) -> unary c f (ORV x) = Ok r ->
  exists y, r = ORV y /\ image_law (fun a b => unary c f (OV (VN a)) = Ok (OV (VN b))) (rv_dist x) (rv_dist y).
Proof.
  intros Ht Hp H. cbn [unary] in H. destruct (rv_unary c f (rv_dist x)) as [y|] eqn:E; [|discriminate]. cbn [rmap] in H. injection H as H. exists y.
  split; [symmetry; exact H|]. apply (image_weaken (fun a b => unum f a = Ok b)).
  - intros a b _ K. cbn [unary]. rewrite K. reflexivity.
  - apply (map_image c (unum f) _ _ Ht Hp). destruct f; exact E.
Qed.
