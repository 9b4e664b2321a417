(** The text of reports. *)
From Coq Require Import String Ascii List ZArith QArith Qabs Bool Lia Lqa.
From Verif Require Import PyBase Num Val Sorting RVModel OutModel UtilModel Obj PrintModel Spec PrintSpec NumFacts RVFacts
  ConstructFacts IntFacts RoundFacts UtilFacts ConvFacts OpFacts UnaryFacts MassFacts ExplodeFacts OutFacts StdFacts TieFacts.
Import ListNotations.
Open Scope string_scope.
Open Scope list_scope.
Open Scope Z_scope.

(** ** Strings *)

Lemma times_copies s n : times s n = copies s (Z.to_nat n).
Proof.
  unfold times. induction (Z.to_nat n) as [|k IH]; [reflexivity|]. cbn [repeat copies]. rewrite <- IH.
  destruct (repeat s k) as [|x l] eqn:E; [|reflexivity].
  clear. cbn. induction s as [|a s IHs]; [reflexivity|]. cbn. now rewrite <- IHs.
Qed.

Lemma app_assoc_s a b c : ((a ++ b) ++ c = a ++ (b ++ c))%string.
Proof. induction a as [|x a IH]; [reflexivity|]. cbn. now rewrite IH. Qed.

Lemma concat_lines ls r : (String.concat "" (map (append newline) ls) ++ r = fold_right (fun l t => newline ++ l ++ t) r ls)%string.
Proof.
  induction ls as [|l ls IH]; [reflexivity|]. cbn [map fold_right]. rewrite <- IH.
  destruct ls as [|l' ls]; [cbn [map String.concat]; now rewrite app_assoc_s|].
  change (String.concat "" (append newline l :: map (append newline) (l' :: ls)))
    with ((append newline l) ++ "" ++ String.concat "" (map (append newline) (l' :: ls)))%string.
  cbn [append]. rewrite !app_assoc_s. reflexivity.
Qed.

Lemma decimal_digits ds : Forall is_dec ds -> forall a, decimal a (string_of_chars (map digit_char ds)) = Some (dec_value ds a).
Proof.
  induction 1 as [|d ds D F IH]; intros a; [reflexivity|]. cbn [map string_of_chars string_of_list_ascii decimal].
  assert (E : dec_digit (digit_char d) = Some d) by (apply dec_cases in D; repeat (destruct D as [->|D]; [reflexivity|]); subst; reflexivity).
  rewrite E. apply IH.
Qed.

Lemma decimal_str n : 0 <= n -> decimal 0 (str_of_Z n) = Some n /\ str_of_Z n <> "".
Proof.
  intros N. destruct (digits_spec n N) as [F [L V]]. unfold str_of_Z. destruct (Z.ltb_spec n 0); [lia|].
  rewrite decimal_digits, V by exact F. split; [reflexivity|]. destruct (digits n); [congruence|discriminate].
Qed.

Lemma digit_str d : is_dec d -> str_of_Z d = String (digit_char d) "".
Proof. intros D. apply dec_cases in D. repeat (destruct D as [->|D]; [reflexivity|]). subst. reflexivity. Qed.

(** ** Numbers *)

Lemma hundredths_spec m e : (Qabs (inject_Z (hundredths m e) / 100 - numQ (NF m e)) <= 1 # 200)%Q.
Proof.
  unfold hundredths.
  assert (P : forall m, 0 <= m -> (Qabs (inject_Z (if e <? 0 then div_half_even (100 * m) (2 ^ (- e)) else shl (100 * m) e) / 100 - numQ (NF m e)) <= 1 # 200)%Q).
  { clear m. intros m M. destruct (Z.ltb_spec e 0) as [E|E].
    - assert (B : 0 < 2 ^ (- e)) by (apply Z.pow_pos_nonneg; lia).
      pose proof (half_even_Q (100 * m) (2 ^ (- e)) B) as H. rewrite Qabs_bounds in H |- *.
      assert (X : (inject_Z (100 * m) / inject_Z (2 ^ (- e)) == 100 * numQ (NF m e))%Q).
      { rewrite numQ_p2, inject_Z_mult. rewrite <- p2_Z by lia. change (inject_Z 100) with 100%Q.
        pose proof (p2_opp e) as O. pose proof (p2_pos (- e)). setoid_replace (p2 e) with (/ p2 (- e))%Q; [field; lra|].
        setoid_replace (p2 e) with (p2 e * p2 (- e) * / p2 (- e))%Q by (field; lra). rewrite O. ring. }
      rewrite X in H. set (k := inject_Z (div_half_even (100 * m) (2 ^ (- e)))) in *.
      setoid_replace (k / 100)%Q with (k * (1 # 100))%Q by field. lra.
    - assert (X : (inject_Z (shl (100 * m) e) / 100 - numQ (NF m e) == 0)%Q).
      { rewrite shl_Q, numQ_p2, inject_Z_mult by lia. change (inject_Z 100) with 100%Q. field. }
      rewrite X. vm_compute. discriminate. }
  destruct (Z.sgn_spec m) as [[M S]|[[M S]|[M S]]].
  - rewrite S, Z.mul_1_l, (Z.abs_eq m) by lia. apply P. lia.
  - rewrite S, Z.mul_0_l. subst m. rewrite numQ_p2. setoid_replace (inject_Z 0 / 100 - inject_Z 0 * p2 e)%Q with 0%Q by (change (inject_Z 0) with 0%Q; field).
    vm_compute. discriminate.
  - rewrite S. specialize (P (Z.abs m) ltac:(lia)).
    set (k := if e <? 0 then _ else _) in *.
    assert (X : (inject_Z (-1 * k) / 100 - numQ (NF m e) == - (inject_Z k / 100 - numQ (NF (Z.abs m) e)))%Q).
    { rewrite !numQ_p2. replace (Z.abs m) with (- m) by lia. rewrite (inject_Z_opp m), (inject_Z_mult (-1) k). change (inject_Z (-1)) with (-1)%Q. field. }
    rewrite X, Qabs_opp. exact P.
Qed.

Lemma hundredths_nonneg m e : 0 <= m -> 0 <= hundredths m e.
Proof.
  intros M. unfold hundredths, shl. apply Z.mul_nonneg_nonneg; [lia|]. destruct (Z.ltb_spec e 0).
  - apply div_half_even_nonneg; [lia|apply Z.pow_pos_nonneg; lia].
  - apply Z.mul_nonneg_nonneg; [lia|apply Z.pow_nonneg; lia].
Qed.

Lemma fixed2_spec m e : 0 <= m -> two_decimals (hundredths m e) (fixed2 (NF m e)).
Proof.
  intros M. pose proof (hundredths_nonneg m e M) as H. unfold fixed2. set (k := hundredths m e) in *.
  pose proof (Z.mod_pos_bound k 100 ltac:(lia)). pose proof (Z.mod_pos_bound k 10 ltac:(lia)).
  assert (D1 : is_dec (k mod 100 / 10)) by (split; [apply Z.div_pos; lia|assert (k mod 100 / 10 < 10) by (apply Z.div_lt_upper_bound; lia); lia]).
  assert (D2 : is_dec (k mod 10)) by (unfold is_dec; lia).
  destruct (decimal_str (k / 100)) as [I N]; [apply Z.div_pos; lia|].
  exists (str_of_Z (k / 100)), (str_of_Z (k mod 100 / 10) ++ str_of_Z (k mod 10))%string, (k / 100), (k mod 100).
  split; [reflexivity|]. split; [exact N|]. rewrite !digit_str by assumption. split; [reflexivity|]. split; [exact I|]. split.
  - change (String (digit_char (k mod 100 / 10)) "" ++ String (digit_char (k mod 10)) "")%string
      with (string_of_chars (map digit_char [k mod 100 / 10; k mod 10])).
    rewrite decimal_digits by (apply Forall_cons; [exact D1|apply Forall_cons; [exact D2|constructor]]). unfold dec_value. cbn [fold_left]. f_equal.
    rewrite Z.mul_0_r, Z.add_0_l. pose proof (Z.div_mod (k mod 100) 10 ltac:(lia)).
    assert (k mod 100 mod 10 = k mod 10); [|lia].
    change 100 with (10 * 10). rewrite Z.rem_mul_r by lia. rewrite Z.mul_comm, Z.mod_add by lia. apply Z.mod_mod. lia.
  - pose proof (Z.div_mod k 100 ltac:(lia)). lia.
Qed.

Lemma float_nonneg m e : (0 <= numQ (NF m e))%Q -> 0 <= m.
Proof.
  intros H. rewrite numQ_p2 in H. pose proof (p2_pos e). apply Znot_gt_le. intros G.
  assert (inject_Z m < 0)%Q by (change 0%Q with (inject_Z 0); rewrite <- Zlt_Qlt; lia). nra.
Qed.

Lemma round_int_spec m e : 0 <= m -> 0 <= round_int (NF m e) /\ (Qabs (inject_Z (round_int (NF m e)) - numQ (NF m e)) <= 1 # 2)%Q.
Proof.
  intros M. cbn [round_int]. destruct (Z.ltb_spec e 0) as [E|E].
  - assert (B : 0 < 2 ^ (- e)) by (apply Z.pow_pos_nonneg; lia). rewrite Z.abs_eq by lia.
    assert (S : Z.sgn m * div_half_even m (2 ^ (- e)) = div_half_even m (2 ^ (- e))).
    { destruct (Z.eq_dec m 0) as [->|]; [|rewrite Z.sgn_pos by lia; lia]. cbn [Z.sgn]. rewrite Z.mul_0_l. unfold div_half_even.
      rewrite Z.div_0_l, Z.mod_0_l by lia. destruct (2 * 0 ?= 2 ^ (- e)) eqn:C; try reflexivity.
      apply Z.compare_gt_iff in C. lia. }
    rewrite S. split; [apply div_half_even_nonneg; lia|].
    assert (X : (numQ (NF m e) == inject_Z m / inject_Z (2 ^ (- e)))%Q).
    { rewrite numQ_p2, <- p2_Z by lia. pose proof (p2_opp e) as O. pose proof (p2_pos (- e)).
      setoid_replace (p2 e) with (p2 e * p2 (- e) * / p2 (- e))%Q by (field; lra). rewrite O. field. lra. }
    rewrite X. apply half_even_Q, B.
  - split; [unfold shl; apply Z.mul_nonneg_nonneg; [lia|apply Z.pow_nonneg; lia]|].
    rewrite shl_Q, numQ_p2 by lia. setoid_replace (inject_Z m * p2 e - inject_Z m * p2 e)%Q with 0%Q by ring. vm_compute. discriminate.
Qed.

Lemma mul_floats a b : is_int b = false -> forall fa, to_float a = Ok fa -> is_int fa = false ->
  (Qabs (numQ fa * numQ b) <= p2 1000)%Q -> is_int a = true ->
  exists d, nmul a b = Ok d /\ nmul b a = Ok d /\ is_int d = false /\ nearest_double (numQ fa * numQ b) (numQ d).
Proof.
  intros B fa F Fi H A. destruct a as [z|]; [|discriminate]. destruct b as [|m e]; [discriminate|]. destruct fa as [|m' e']; [discriminate|].
  assert (C : forall x m1 e1 m2 e2, (x == inject_Z m1 * p2 e1 * (inject_Z m2 * p2 e2))%Q -> (x == numQ (NF m' e') * numQ (NF m e))%Q ->
    exists d, fmul m1 e1 m2 e2 = Ok d /\ is_int d = false /\ nearest_double (numQ (NF m' e') * numQ (NF m e)) (numQ d)).
  { intros x m1 e1 m2 e2 X Y. pose proof (fmul_cases m1 e1 m2 e2 x X) as C. destruct (fmul m1 e1 m2 e2) as [d|err].
    - exists d. split; [reflexivity|]. destruct C as [C I]. split; [exact I|]. exact (nearest_comp _ _ _ _ Y (Qeq_refl _) C).
    - exfalso. rewrite Y in C. exact (no_overflow _ (p2 1000) big_double H C). }
  destruct (C (numQ (NF m' e') * numQ (NF m e))%Q m' e' m e) as [d [E [I N]]]; [now rewrite !numQ_p2|reflexivity|].
  exists d. cbn [nmul lift2]. rewrite F. cbn [bind to_float mant expo]. split; [exact E|]. split; [|split; assumption].
  unfold fmul in *. rewrite (Z.mul_comm m m'), (Z.add_comm e e'). exact E.
Qed.

Lemma to_float_small z : Z.abs z <= 2 ^ 53 -> exists f, to_float (NI z) = Ok f /\ is_int f = false /\ (numQ f == inject_Z z)%Q.
Proof.
  intros H. cbn [to_float].
  assert (D : is_double (inject_Z z)).
  { destruct (Z.eq_dec (Z.abs z) (2 ^ 53)) as [E|E].
    - exists (z / 2), 1. assert (Z.abs z mod 2 = 0) by (rewrite E; reflexivity).
      assert (Ev : z = 2 * (z / 2)) by (apply Z.div_exact; [lia|]; destruct (Z.abs_spec z) as [[_ A]|[_ A]]; rewrite A in *; [assumption|]; apply Z.mod_opp_l_z in H0; [|lia]; now rewrite Z.opp_involutive in H0).
      split; [lia|]. split; [lia|]. rewrite numQ_p2. rewrite Ev at 1. rewrite inject_Z_mult. change (inject_Z 2) with 2%Q. change (p2 1) with 2%Q. ring.
    - exists z, 0. split; [lia|]. split; [lia|]. rewrite numQ_p2, p2_0. ring. }
  pose proof (fround_spec z 1 OverflowErr ltac:(lia)) as F.
  assert (X : (inject_Z z / inject_Z 1 == inject_Z z)%Q) by (change (inject_Z 1) with 1%Q; field).
  destruct (fround z 1 OverflowErr) as [f|err].
  - exists f. split; [reflexivity|]. destruct F as [F I]. split; [exact I|]. apply nearest_exact; [|exact D].
    exact (nearest_comp _ _ _ _ X (Qeq_refl _) F).
  - exfalso. destruct F as [_ F]. rewrite X in F. apply (no_overflow (inject_Z z) (inject_Z (2 ^ 53))) in F; [exact F| |].
    + exists (2 ^ 52), 1. split; [reflexivity|split; [lia|]]. vm_compute. reflexivity.
    + change (Qabs (inject_Z z)) with (inject_Z (Z.abs z)). now rewrite <- Zle_Qle.
Qed.

(** ** Rows *)

Section Rows.
  Variable c : cfg.
  Variable show : sval -> string.
  Variable ftext : bool -> num -> string.
  Variable square : num -> res num.

  Notation text := (fun v => shown_text ftext (show_val show v)).

  Lemma pad_left_copies w s : pad_left w s = (copies " " (Z.to_nat (w - Z.of_nat (String.length s))) ++ s)%string.
  Proof. unfold pad_left. now rewrite times_copies. Qed.

  Lemma row_ok w blocks T e vp : 0 <= snd e <= T -> 0 < T -> 0 <= blocks <= 2 ^ 53 -> reports show e T vp ->
    Z.of_nat (String.length (text (fst e))) <= w ->
    exists line, bar_line ftext w blocks vp = Ok line /\ row w blocks (inject_Z (snd e) / inject_Z T) (text (fst e)) line.
  Proof.
    intros B T0 Bl [R1 [R2 R3]] W. destruct vp as [v p]. cbn [fst snd] in *. subst v. unfold bar_line. cbn [fst snd].
    set (P := (inject_Z (snd e) / inject_Z T)%Q) in *.
    assert (TQ : (0 < inject_Z T)%Q) by (change 0%Q with (inject_Z 0); now rewrite <- Zlt_Qlt).
    assert (P0 : (0 <= P)%Q).
    { unfold P. apply Qle_shift_div_l; [exact TQ|]. rewrite Qmult_0_l. change 0%Q with (inject_Z 0). rewrite <- Zle_Qle. lia. }
    assert (P1 : (P <= 1)%Q).
    { unfold P. apply Qle_shift_div_r; [exact TQ|]. rewrite Qmult_1_l. rewrite <- Zle_Qle. lia. }
    assert (One : is_double 1) by (exists 1, 0; split; [reflexivity|split; [lia|reflexivity]]).
    assert (p0 : (0 <= numQ p)%Q) by (apply (nearest_ge P); [exact R3|apply zero_double|exact P0]).
    assert (p1 : (numQ p <= 1)%Q) by (apply (nearest_le P); [exact R3|exact One|exact P1]).
    assert (U : (0 < p2 (-53))%Q) by apply p2_pos.
    assert (Tn : (p2 (-1022) <= p2 (-60))%Q) by (apply p2_le; lia).
    assert (Sm : (p2 (-60) <= p2 (-53))%Q) by (apply p2_le; lia).
    assert (Er : (Qabs (numQ p - P) <= 2 * p2 (-53))%Q).
    { pose proof (near_abs P (numQ p) R3) as N. rewrite (Qabs_pos P) in N by exact P0.
      assert (L : (P <= p2 1022)%Q) by (apply Qle_trans with 1%Q; [exact P1|change 1%Q with (p2 0); apply p2_le; lia]).
      specialize (N L). nra. }
    (* the percentage *)
    destruct (to_float_small 100 ltac:(lia)) as [h [Fh [Ih Qh]]].
    destruct (mul_floats (NI 100) p R2 h Fh Ih) as [pct [E1 [_ [I1 N1]]]]; [|reflexivity|].
    { rewrite Qh, Qabs_pos by (change (inject_Z 100) with 100%Q; nra). change (inject_Z 100) with 100%Q.
      apply Qle_trans with 100%Q; [nra|]. vm_compute. discriminate. }
    destruct (to_float_small blocks ltac:(lia)) as [fb [Fb [Ib Qb]]].
    assert (Bq : (0 <= inject_Z blocks)%Q) by (change 0%Q with (inject_Z 0); rewrite <- Zle_Qle; lia).
    assert (Bh : (inject_Z blocks <= p2 53)%Q) by (rewrite p2_Z by lia; rewrite <- Zle_Qle; lia).
    destruct (mul_floats (NI blocks) p R2 fb Fb Ib) as [b [_ [E2 [I2 N2]]]]; [|reflexivity|].
    { rewrite Qb, Qabs_pos by nra. apply Qle_trans with (p2 53 * 1)%Q; [nra|]. vm_compute. discriminate. }
    rewrite E1. cbn [bind]. rewrite E2. cbn [bind].
    apply (nearest_comp _ (100 * numQ p)%Q _ (numQ pct)) in N1; [|rewrite Qh; reflexivity|reflexivity].
    apply (nearest_comp _ (inject_Z blocks * numQ p)%Q _ (numQ b)) in N2; [|rewrite Qb; reflexivity|reflexivity].
    assert (b0 : (0 <= numQ b)%Q) by (apply (nearest_ge _ _ _ N2 zero_double); nra).
    assert (pc0 : (0 <= numQ pct)%Q) by (apply (nearest_ge _ _ _ N1 zero_double); nra).
    assert (Db : is_double (inject_Z blocks)).
    { apply (is_double_comp (numQ fb)); [exact Qb|]. unfold to_float in Fb. pose proof (fround_spec blocks 1 OverflowErr ltac:(lia)) as F.
      rewrite Fb in F. apply F. }
    assert (b1 : (numQ b <= inject_Z blocks)%Q) by (apply (nearest_le _ _ _ N2 Db); nra).
    assert (Eb : (Qabs (numQ b - inject_Z blocks * P) <= inject_Z blocks * (4 * p2 (-53)) + p2 (-1022))%Q).
    { pose proof (near_abs _ _ N2) as N. rewrite (Qabs_pos (inject_Z blocks * numQ p)) in N by nra.
      assert (L : (inject_Z blocks * numQ p <= p2 1022)%Q) by (apply Qle_trans with (p2 53 * 1)%Q; [nra|vm_compute; discriminate]).
      specialize (N L). rewrite Qabs_bounds in N, Er |- *.
      assert (inject_Z blocks * numQ p <= inject_Z blocks)%Q by nra.
      assert (inject_Z blocks * numQ p * p2 (-53) <= inject_Z blocks * p2 (-53))%Q by (apply Qmult_le_compat_r; lra).
      assert (inject_Z blocks * (numQ p - P) <= inject_Z blocks * (2 * p2 (-53)))%Q
        by (rewrite !(Qmult_comm (inject_Z blocks)); apply Qmult_le_compat_r; lra).
      assert (inject_Z blocks * (P - numQ p) <= inject_Z blocks * (2 * p2 (-53)))%Q
        by (rewrite !(Qmult_comm (inject_Z blocks)); apply Qmult_le_compat_r; lra).
      split; lra. }
    assert (Ep : (Qabs (numQ pct - 100 * P) <= 301 * p2 (-53))%Q).
    { pose proof (near_abs _ _ N1) as N. rewrite (Qabs_pos (100 * numQ p)) in N by nra.
      assert (L : (100 * numQ p <= p2 1022)%Q) by (apply Qle_trans with 100%Q; [nra|vm_compute; discriminate]).
      specialize (N L). rewrite Qabs_bounds in N, Er |- *.
      assert (100 * numQ p * p2 (-53) <= 100 * p2 (-53))%Q by nra. split; nra. }
    destruct pct as [|pm pe]; [discriminate|]. destruct b as [|bm be]; [discriminate|].
    pose proof (float_nonneg _ _ pc0) as pm0. pose proof (float_nonneg _ _ b0) as bm0.
    destruct (round_int_spec bm be bm0) as [k0 kq].
    eexists. split; [reflexivity|].
    exists (Z.to_nat (w - Z.of_nat (String.length (text (fst e))))), (Z.to_nat (5 - Z.of_nat (String.length (fixed2 (NF pm pe))))),
      (fixed2 (NF pm pe)), (hundredths pm pe), (Z.to_nat (round_int (NF bm be))).
    split; [rewrite !pad_left_copies, times_copies, !app_assoc_s; reflexivity|].
    split; [rewrite Nat2Z.inj_add, Z2Nat.id by lia; lia|].
    split; [destruct (Z.le_gt_cases (Z.of_nat (String.length (fixed2 (NF pm pe)))) 5); [left|right]; lia|].
    split; [apply fixed2_spec, pm0|]. split.
    { pose proof (hundredths_spec pm pe) as H. rewrite Qabs_bounds in H, Ep |- *.
      assert (301 * p2 (-53) <= p2 (-44))%Q by (vm_compute; discriminate). split; lra. }
    rewrite Z2Nat.id by exact k0. split.
    - rewrite Qabs_bounds in kq. apply Znot_gt_le. intros G.
      assert (inject_Z blocks + 1 <= inject_Z (round_int (NF bm be)))%Q
        by (change 1%Q with (inject_Z 1); rewrite <- inject_Z_plus, <- Zle_Qle; lia). lra.
    - destruct (Z.eq_dec blocks 0) as [->|Bn].
      + change (inject_Z 0) with 0%Q in *. assert (Z0 : (numQ (NF bm be) == 0)%Q) by lra. rewrite Z0 in kq.
        rewrite Qabs_bounds in kq |- *. rewrite Qmult_0_r, Qmult_0_l. lra.
      + assert (B1 : (1 <= inject_Z blocks)%Q) by (change 1%Q with (inject_Z 1); rewrite <- Zle_Qle; lia).
        rewrite Qabs_bounds in kq, Eb |- *.
        assert (p2 (-1022) <= inject_Z blocks * p2 (-53))%Q by nra.
        assert (U50 : (p2 (-50) == 8 * p2 (-53))%Q) by (vm_compute; reflexivity). rewrite U50.
        assert (0 <= inject_Z blocks * p2 (-53))%Q by nra. split; lra.
  Qed.

  (** the widest outcome *)
  Definition widest (es : list (pval * Z)) : Z := fold_right Z.max 0 (map (fun e => Z.of_nat (String.length (text (fst e)))) es).

  Lemma rows_ok blocks T : 0 < T -> 0 <= blocks <= 2 ^ 53 -> forall w es vp,
    Forall (fun e => 0 <= snd e <= T) es -> Forall2 (fun e r => reports show e T r) es vp -> widest es <= w ->
    exists lines, mapM (bar_line ftext w blocks) vp = Ok lines /\
      Forall2 (fun e line => row w blocks (inject_Z (snd e) / inject_Z T) (text (fst e)) line) es lines.
  Proof.
    intros T0 Bl w es vp F R W. induction R as [|e r es vp R1 R IH].
    - exists []. split; [reflexivity|constructor].
    - unfold widest in W. cbn [map fold_right] in W. fold (widest es) in W.
      destruct (row_ok w blocks T e r (Forall_inv F) T0 Bl R1 ltac:(lia)) as [l [E L]].
      destruct (IH (Forall_inv_tail F) ltac:(lia)) as [ls [E' L']].
      exists (l :: ls). split; [|now constructor]. cbn [mapM]. rewrite E. cbn [bind]. rewrite E'. reflexivity.
  Qed.

  Lemma widest_shown es vp T : Forall2 (fun e r => reports show e T r) es vp ->
    fold_right Z.max 0 (map (fun e => Z.of_nat (String.length (shown_text ftext (fst e)))) vp) = widest es.
  Proof.
    intros R. unfold widest. induction R as [|e r es vp [R1 _] R IH]; [reflexivity|]. cbn [map fold_right]. now rewrite IH, R1.
  Qed.

  Lemma newlines : PrintModel.newline = newline. Proof. reflexivity. Qed.

  (** the part of a report below its first line, for the outcomes [es] that are left *)
  Lemma pdf_ok x width cut cut' es vp : nonneg x -> 0 < total x -> incl es x -> es <> [] -> 0 <= width <= 2 ^ 53 ->
    ntruediv cut (NI 100) = Ok cut' -> get_vals_probs show x cut' = Ok vp ->
    Forall2 (fun e r => reports show e (total x) r) es vp ->
    exists lines, pdf_text show ftext x width cut = Ok (lines_text lines width) /\
      Forall2 (fun e line => row (widest es) (Z.max 0 (width - widest es)) (inject_Z (snd e) / inject_Z (total x)) (text (fst e)) line) es lines.
  Proof.
    intros N T I NE Wd C G R. unfold pdf_text. rewrite C. cbn [bind]. rewrite G. cbn [bind].
    assert (W0 : 0 <= widest es) by (unfold widest; clear; induction es as [|e es IH]; cbn [map fold_right]; lia).
    destruct (rows_ok (Z.max 0 (width - widest es)) (total x) T ltac:(lia) (widest es) es vp) as [lines [E L]]; [| exact R | lia |].
    { apply Forall_forall. intros e Ie. apply I in Ie. split; [exact (proj1 (Forall_forall _ x) N e Ie)|now apply member_le_total]. }
    exists lines. split; [|exact L].
    destruct vp as [|r vp]; [inversion R; subst; congruence|].
    cbv zeta. rewrite (widest_shown es (r :: vp) (total x) R), E. cbn [bind]. rewrite concat_lines, times_copies. reflexivity.
  Qed.
End Rows.

(** ** The first line *)

Lemma round2_ok a : is_int a = false -> (Qabs (numQ a) <= p2 900)%Q ->
  exists r, round2 a = Ok r /\ is_int r = false /\ to_hundredths (numQ a) (numQ r).
Proof.
  intros I B. rewrite (float_form a I) in *. set (m := mant a) in *. set (e := expo a) in *. cbn [round2].
  pose proof (hundredths_spec m e) as H. pose proof (fround_spec (hundredths m e) 100 OverflowErr ltac:(lia)) as F.
  change (inject_Z 100) with 100%Q in F.
  pose proof (fun r => fround_tie (hundredths m e) 100 OverflowErr r ltac:(lia)) as T. change (inject_Z 100) with 100%Q in T.
  destruct (fround (hundredths m e) 100 OverflowErr) as [r|err].
  - specialize (T r eq_refl). exists r. destruct F as [F J]. split; [reflexivity|]. split; [exact J|]. exists (hundredths m e). split; [exact H|]. split; [exact F|]. exact T.
  - exfalso. destruct F as [_ F]. apply (no_overflow _ (p2 1000) big_double) in F; [exact F|].
    rewrite Qabs_bounds in H, B |- *. assert (p2 900 + 1 <= p2 1000)%Q by (vm_compute; discriminate). lra.
Qed.

Theorem summary_ok c ftext square x : cfg_trunc c = false -> good_square square -> proper x -> int_vals x ->
  total x <= 2 ^ 400 -> (forall e, In e x -> Z.abs (toZ (fst e)) <= 2 ^ 400) ->
  exists m m' neg s s' t, summary c ftext square x = Ok (ftext neg m' ++ " ± " ++ t)%string /\
    is_int m' = false /\ ((t = ftext false s' /\ is_int s' = false) \/ (t = "0" /\ s = NI 0 /\ s' = NI 0)) /\
    rv_mean x = Ok (Some m) /\ nearest_double (expectation x) (numQ m) /\ to_hundredths (numQ m) (numQ m') /\
    (neg = true <-> numQ m < 0)%Q /\ rv_std c square x = Ok (Some s) /\ to_hundredths (numQ s) (numQ s').
Proof.
  intros Ht Sq P I T V. unfold summary.
  assert (B1 : (Qabs (expectation x) <= p2 400)%Q).
  { rewrite p2_Z by lia. unfold expectation. now apply average_bound. }
  destruct (mean_ok x P I) as [m [Em [Im Nm]]]; [apply Qle_trans with (p2 400); [exact B1|apply p2_le; lia]|].
  rewrite Em. cbn [bind rounded_text].
  assert (Dk : is_double (p2 400)) by (exists 1, 400; split; [reflexivity|split; [lia|vm_compute; reflexivity]]).
  assert (Bm : (Qabs (numQ m) <= p2 900)%Q).
  { rewrite Qabs_bounds in B1. assert (p2 400 <= p2 900)%Q by (apply p2_le; lia). rewrite Qabs_bounds. split.
    - apply Qle_trans with (- p2 400)%Q; [lra|]. apply (nearest_ge _ _ _ Nm); [now apply is_double_opp|lra].
    - apply Qle_trans with (p2 400); [|lra]. apply (nearest_le _ _ _ Nm Dk). lra. }
  destruct (round2_ok m Im Bm) as [m' [Rm [Im' Hm]]]. rewrite Rm. cbn [bind].
  destruct (std_close c square x Ht Sq P I T V) as [s [Es [Ks [S0 S1]]]]. rewrite Es. cbn [bind rounded_text].
  assert (M' : num_text ftext (mant m <? 0) m' = ftext (mant m <? 0) m') by (destruct m'; [discriminate|reflexivity]).
  rewrite M'. exists m, m', (mant m <? 0), s.
  assert (Ng : (mant m <? 0) = true <-> (numQ m < 0)%Q).
  { pose proof (float_form m Im) as Fm. rewrite Fm at 2. rewrite numQ_p2, Z.ltb_lt. pose proof (p2_pos (expo m)) as Pe. split; intros H.
    - assert (inject_Z (mant m) < 0)%Q by (change 0%Q with (inject_Z 0); rewrite <- Zlt_Qlt; exact H). nra.
    - apply Znot_ge_lt. intros G. assert (0 <= inject_Z (mant m))%Q by (change 0%Q with (inject_Z 0); rewrite <- Zle_Qle; lia). nra. }
  destruct Ks as [->|Is].
  - exists (NI 0), "0". split; [reflexivity|]. split; [exact Im'|]. split; [now right|]. split; [reflexivity|]. split; [exact Nm|]. split; [exact Hm|]. split; [exact Ng|]. split; [reflexivity|].
    exists 0. assert (Z0 : (inject_Z 0 / 100 == 0)%Q) by (vm_compute; reflexivity). split; [vm_compute; discriminate|].
    split; [|apply (ties_comp 0 _ 0 _); [now symmetry|reflexivity|apply zero_tie]].
    apply (nearest_comp 0 _ 0 _); [now symmetry|reflexivity|]. split; [apply zero_double|].
    intros f _. change (Qabs (0 - 0)) with 0%Q. apply Qabs_nonneg.
  - assert (Bs : (Qabs (numQ s) <= p2 900)%Q).
    { rewrite Qabs_pos by exact S0. destruct (Qlt_le_dec (p2 900) (numQ s)) as [G|G]; [exfalso|exact G].
      pose proof (mean_square_bound x P V) as MB. pose proof (variance_squares x (proj2 P)) as VS.
      pose proof (square_nonneg (expectation x)). pose proof (p2_pos (-48)).
      assert (p2 (-48) <= 1)%Q by (vm_compute; discriminate).
      assert (0 <= mean_square x)%Q by (pose proof (variance_nonneg x P); lra).
      rewrite Qabs_bounds in S1. assert (mean_square x * p2 (-48) <= mean_square x)%Q by nra.
      assert (p2 900 * p2 900 < numQ s * numQ s)%Q by (pose proof (p2_pos 900); nra).
      assert (p2 800 * 2 <= p2 900 * p2 900)%Q by (vm_compute; discriminate). lra. }
    destruct (round2_ok s Is Bs) as [s' [Rs [Is' Hs]]]. rewrite Rs. cbn [bind].
    assert (Sg : (mant s <? 0) = false).
    { rewrite (float_form s Is) in S0. apply float_nonneg in S0. lia. }
    assert (S' : num_text ftext (mant s <? 0) s' = ftext false s') by (rewrite Sg; destruct s'; [discriminate|reflexivity]).
    rewrite S'. exists s', (ftext false s'). split; [reflexivity|]. split; [exact Im'|]. split; [now left|]. tauto.
Qed.

(** ** Whole reports *)

Lemma headings named : PrintModel.title named = heading named.
Proof. reflexivity. Qed.

Lemma widest_longest show ftext es : widest show ftext es = longest (map (fun e => shown_text ftext (show_val show (fst e))) es).
Proof. unfold widest, longest. induction es as [|e es IH]; [reflexivity|]. cbn [map fold_right]. now rewrite IH. Qed.

Lemma report_some c show ftext square w0 x named width cut cut' es vp head : nonneg (rv_dist x) -> 0 < total (rv_dist x) ->
  incl es (rv_dist x) -> es <> [] -> 0 <= width <= 2 ^ 53 -> ntruediv cut (NI 100) = Ok cut' ->
  get_vals_probs show (rv_dist x) cut' = Ok vp -> Forall2 (fun e r => reports show e (total (rv_dist x)) r) es vp ->
  summary c ftext square (rv_dist x) = Ok head ->
  exists lines,
    report c show ftext square w0 (ORV x) named true (Some width) cut = Ok (heading named ++ head ++ lines_text lines width)%string /\
    report_rows (fun v => shown_text ftext (show_val show v)) (rv_dist x) es width lines.
Proof.
  intros N T I NE W C G R E. cbn [report get_rv bind]. unfold report_rv. rewrite E. cbn [bind].
  destruct (pdf_ok show ftext (rv_dist x) width cut cut' es vp N T I NE W C G R) as [lines [L F]].
  exists lines. rewrite L. cbn [bind]. split; [reflexivity|]. unfold report_rows. rewrite <- widest_longest. exact F.
Qed.

Theorem report_text c show ftext square w0 x named width head : proper (rv_dist x) -> 0 <= width <= 2 ^ 53 ->
  summary c ftext square (rv_dist x) = Ok head ->
  exists lines,
    report c show ftext square w0 (ORV x) named true (Some width) (NI 0) = Ok (heading named ++ head ++ lines_text lines width)%string /\
    report_rows (fun v => shown_text ftext (show_val show v)) (rv_dist x) (rv_dist x) width lines.
Proof.
  intros P W E. destruct (report_all show (rv_dist x) (NF 0 0) P eq_refl eq_refl) as [vp [G R]].
  assert (NE : rv_dist x <> []) by (intros X; destruct P as [_ P]; rewrite X in P; vm_compute in P; discriminate).
  exact (report_some c show ftext square w0 x named width (NI 0) (NF 0 0) (rv_dist x) vp head (proj1 P) (proj2 P) (incl_refl _) NE W eq_refl G R E).
Qed.

(** labels have no mean *)
Lemma summary_label c ftext square x : 0 < total x -> Forall (fun e => (exists z, fst e = vint z) \/ exists s, fst e = VS s) x ->
  Exists (fun e => exists s, fst e = VS s) x -> summary c ftext square x = Ok "NaN ± NaN"%string.
Proof.
  intros T F E. unfold summary, rv_mean. rewrite sum_probs_total. rewrite (proj2 (Z.eqb_neq _ _)) by lia.
  assert (M : mapM (fun vp => match fst vp with VN n => nmul n (NI (snd vp)) | VS _ => Err TypeErr end) x = Err TypeErr).
  { clear T. induction E as [[v p] x [s Ev]|[v p] x E IH]; cbn [fst] in *.
    - subst v. reflexivity.
    - specialize (IH (Forall_inv_tail F)). destruct (Forall_inv F) as [[z Iv]|[s Sv]]; cbn [fst] in *; subst v; [|reflexivity].
      cbn [mapM fst snd vint]. rewrite IH. reflexivity. }
  now rewrite M.
Qed.

(** ** Reports with a cut *)

Lemma percent cut : (p2 (-500) <= numQ cut <= 99)%Q ->
  exists q, ntruediv cut (NI 100) = Ok q /\ nearest_double (numQ cut / 100) (numQ q) /\ (0 < numQ q < 1)%Q.
Proof.
  intros [L U]. pose proof (p2_pos (-500)) as P5.
  assert (Lo : (p2 (-600) <= numQ cut / 100)%Q).
  { apply Qle_shift_div_l; [reflexivity|]. assert (p2 (-600) * 100 <= p2 (-500))%Q by (vm_compute; discriminate). lra. }
  assert (Up : (numQ cut / 100 <= 1 - p2 (-53))%Q).
  { apply Qle_shift_div_r; [reflexivity|]. assert (99 <= (1 - p2 (-53)) * 100)%Q by (vm_compute; discriminate). lra. }
  assert (O : ~ (inject_Z (2 ^ 1024 - 2 ^ 970) <= Qabs (numQ cut / 100))%Q).
  { apply (no_overflow _ (p2 1000) big_double). pose proof (p2_pos (-600)). rewrite Qabs_pos by lra.
    assert (1 - p2 (-53) <= p2 1000)%Q by (vm_compute; discriminate). lra. }
  assert (R : forall q, nearest_double (numQ cut / 100) (numQ q) -> (0 < numQ q < 1)%Q).
  { intros q N.
    assert (D6 : is_double (p2 (-600))) by (exists 1, (-600); split; [lia|]; split; [lia|]; rewrite numQ_p2; ring).
    assert (D1 : is_double (1 - p2 (-53))) by (exists (2 ^ 53 - 1), (-53); split; [lia|]; split; [lia|]; vm_compute; reflexivity).
    pose proof (p2_pos (-600)). pose proof (p2_pos (-53)).
    pose proof (nearest_ge _ _ _ N D6 Lo) as A. pose proof (nearest_le _ _ _ N D1 Up) as B. lra. }
  destruct cut as [z|m e].
  - change (ntruediv (NI z) (NI 100)) with (fround z 100 OverflowErr). pose proof (fround_spec z 100 OverflowErr ltac:(lia)) as F.
    change (inject_Z 100) with 100%Q in F. change (numQ (NI z)) with (inject_Z z) in *.
    destruct (fround z 100 OverflowErr) as [q|err]; [|now destruct (O (proj2 F))].
    exists q. destruct F as [F _]. split; [reflexivity|]. split; [exact F|now apply R].
  - unfold ntruediv. change (mant (NI 100) =? 0) with false. cbv iota. destruct (to_float_small 100 ltac:(lia)) as [f [Ef [If F]]].
    rewrite Ef. cbn [to_float bind mant expo]. pose proof Ef as Ef'. vm_compute in Ef'. injection Ef' as <-.
    match goal with |- context [fdiv m e ?m2 ?e2] => pose proof (fdiv_cases m e m2 e2 (numQ (NF m e) / 100) ltac:(discriminate)) as C end.
    cbn [mant expo] in C.
    match type of C with ?A -> _ => assert (X : A) end.
    { rewrite numQ_p2. apply Qmult_comp; [reflexivity|]. vm_compute. reflexivity. }
    specialize (C X). destruct (fdiv m e _ _) as [q|err]; [|now destruct (O C)].
    exists q. destruct C as [C _]. split; [reflexivity|]. split; [exact C|now apply R].
Qed.

Theorem report_cut_text c show ftext square w0 x named width head cut : wf (rv_dist x) -> 0 < total (rv_dist x) ->
  distinct_text show (rv_dist x) -> (forall e, In e (rv_dist x) -> veqb (fst e) (vint 0) = false) ->
  Z.of_nat (length (rv_dist x)) < 2 ^ 40 ->
  0 <= width <= 2 ^ 53 -> (p2 (-500) <= numQ cut <= 99)%Q -> summary c ftext square (rv_dist x) = Ok head ->
  exists cut' gone, nearest_double (numQ cut / 100) cut' /\
    (PrP gone (rv_dist x) < cut' + SLACK (rv_dist x))%Q /\
    (forall e, In e (rv_dist x) -> gone (fst e) = false ->
       (cut' - SLACK (rv_dist x) <= PrP gone (rv_dist x) + inject_Z (snd e) / inject_Z (total (rv_dist x)))%Q) /\
    (forall e e', In e (rv_dist x) -> In e' (rv_dist x) -> gone (fst e) = true -> gone (fst e') = false ->
       (inject_Z (snd e) / inject_Z (total (rv_dist x)) <= inject_Z (snd e') / inject_Z (total (rv_dist x)) + 2 * p2 (-50))%Q) /\
    exists lines,
      report c show ftext square w0 (ORV x) named true (Some width) cut = Ok (heading named ++ head ++ lines_text lines width)%string /\
      report_rows (fun v => shown_text ftext (show_val show v)) (rv_dist x) (filter (fun e => negb (gone (fst e))) (rv_dist x)) width lines.
Proof.
  intros Wf T D N Ln W C E. destruct (percent cut C) as [q [Eq [Nq Q]]].
  destruct (report_cut show (rv_dist x) q Wf T D Q Ln) as [vp [gone [G [R [R1 [R2 R3]]]]]].
  exists (numQ q), gone. split; [exact Nq|]. split; [exact R1|]. split; [exact R2|]. split; [exact R3|].
  assert (NE : filter (fun e => negb (gone (fst e))) (rv_dist x) <> []).
  { intros X. assert (A : (PrP gone (rv_dist x) == 1)%Q).
    { rewrite (PrP_ext gone (fun _ => true)); [exact (PrP_const true _ T)|]. intros a w I.
      destruct (gone a) eqn:Ga; [reflexivity|]. exfalso.
      assert (In (a, w) []) as []. rewrite <- X. apply filter_In. split; [exact I|]. cbn [fst]. now rewrite Ga. }
    rewrite A in R1.
    assert (S1 : (SLACK (rv_dist x) <= 1 # 200)%Q).
    { unfold SLACK. apply Qle_trans with (inject_Z (2 * 2 ^ 40 + 2) * p2 (-50))%Q; [|vm_compute; discriminate].
      apply Qmult_le_compat_r; [rewrite <- Zle_Qle; lia|apply Qlt_le_weak, p2_pos]. }
    assert (C0 : (0 <= numQ cut / 100)%Q) by (apply Qle_shift_div_l; [reflexivity|]; pose proof (p2_pos (-500)); lra).
    assert (C4 : (numQ cut / 100 <= 4)%Q) by (apply Qle_shift_div_r; [reflexivity|]; lra).
    pose proof (nearest_err _ _ C0 C4 Nq) as Ne. rewrite Qabs_bounds in Ne.
    assert (numQ cut / 100 <= 99 # 100)%Q by (apply Qle_shift_div_r; [reflexivity|]; lra).
    assert (p2 (-50) <= 1 # 1000)%Q by (vm_compute; discriminate). lra. }
  assert (Fe : filter (fun e => negb (gone (fst e) || veqb (fst e) (vint 0))) (rv_dist x) = filter (fun e => negb (gone (fst e))) (rv_dist x)).
  { apply filter_ext_in. intros e I. now rewrite (N e I), orb_false_r. }
  rewrite Fe in R.
  refine (report_some c show ftext square w0 x named width cut q _ vp head _ T _ NE W Eq G R E).
  - apply Wf.
  - intros e I. now apply filter_In in I.
Qed.

(** ** Other reports *)

Lemma report_nothing c show ftext square w0 o named show_pdf width cut :
  o = ONone \/ o = OSeq [] \/ o = OSSeq [] \/ (exists b, o = OBlank b) ->
  report c show ftext square w0 o named show_pdf width cut =
  Ok (heading named ++ lines_text [] (match width with Some w => w | None => w0 end))%string.
Proof.
  assert (E : forall w, report_blank named w = (heading named ++ lines_text [] w)%string).
  { intros w. unfold report_blank, lines_text. cbn [fold_right]. now rewrite times_copies. }
  intros [->|[->|[->|[b ->]]]]; cbn [report]; now rewrite E.
Qed.

Lemma report_ways c show ftext square w0 o named show_pdf width cut :
  (forall d, get_rv c o = Ok d -> o <> OSeq [] -> o <> OSSeq [] ->
     report c show ftext square w0 o named show_pdf width cut = report c show ftext square w0 (ORV d) named show_pdf width cut) /\
  report c show ftext square w0 o named show_pdf None cut = report c show ftext square w0 o named show_pdf (Some w0) cut /\
  (forall t, report c show ftext square w0 o named show_pdf width cut = Ok t ->
     output c show ftext square w0 o named show_pdf width false false cut = Ok (Returned t) /\
     output c show ftext square w0 o named show_pdf width false true cut = Ok (Returned t) /\
     output c show ftext square w0 o named show_pdf width true false cut = Ok (Printed true t) /\
     output c show ftext square w0 o named show_pdf width true true cut = Ok (Printed false t)).
Proof.
  split; [|split; [reflexivity|]].
  - intros d E N1 N2. unfold report. destruct o as [v|s|[|a l]|[|a l]|l|x|b| ]; try contradiction; try (rewrite E; reflexivity); discriminate.
  - intros t E. unfold output. rewrite E. now repeat split.
Qed.

Lemma report_fails :
  (forall show ftext w0 named width,
     report default_cfg show ftext exact_square w0 (ORV (rv_of [(vint 0, 1)])) named true (Some width) (NI 1) = Err ValueErr) /\
  (mk_dist default_cfg [vint 1] [0] = Ok [(vint 1, 0)] /\
   forall show ftext w0 named width,
     report default_cfg show ftext exact_square w0 (ORV (rv_of [(vint 1, 0)])) named true (Some width) (NI 0) = Err ZeroDivErr).
Proof. split; [|split]; [intros; vm_compute; reflexivity|vm_compute; reflexivity|intros; vm_compute; reflexivity]. Qed.
