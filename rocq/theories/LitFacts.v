(** Numbers in programs. *)
From Coq Require Import String Ascii List ZArith QArith Qabs Qfield Bool Lia Lqa.
From Verif Require Import PyBase Num Val UtilModel Obj Spec PrintSpec NumSpec RoundFacts StdFacts LexModel SynSpec Runtime MeanSpec RunModel.
Import ListNotations.
Open Scope Z_scope.

Lemma decimal_app a : forall acc b i, decimal acc a = Some i -> decimal acc (a ++ b) = decimal i b.
Proof.
  induction a as [|c a IH]; intros acc b i H; cbn [decimal append] in *; [now injection H as ->|].
  destruct (dec_digit c); [now apply IH|discriminate].
Qed.

Lemma dec_value c d : dec_digit c = Some d -> digit_value c = d /\ 0 <= d <= 9.
Proof.
  unfold dec_digit, digit_value. destruct (Z.leb_spec 48 (Z.of_nat (nat_of_ascii c))); [|discriminate].
  destruct (Z.leb_spec (Z.of_nat (nat_of_ascii c)) 57); [|discriminate]. cbn [andb]. intros [= <-]. lia.
Qed.

Lemma decimal_fold s : forall acc i, decimal acc s = Some i ->
  fold_left (fun n c => 10 * n + digit_value c) (list_ascii_of_string s) acc = i.
Proof.
  induction s as [|c s IH]; intros acc i H; cbn [decimal list_ascii_of_string fold_left] in *; [now injection H|].
  destruct (dec_digit c) as [d|] eqn:D; [|discriminate]. destruct (dec_value _ _ D) as [-> _]. now apply IH.
Qed.
Lemma decimal_is s i : decimal 0 s = Some i -> decimal_value s = i.
Proof. exact (decimal_fold s 0 i). Qed.

Lemma decimal_nonneg s : forall acc i, 0 <= acc -> decimal acc s = Some i -> 0 <= i.
Proof.
  induction s as [|c s IH]; intros acc i N H; cbn [decimal] in H; [injection H as <-; lia|].
  destruct (dec_digit c) as [d|] eqn:D; [|discriminate]. destruct (dec_value _ _ D) as [_ B]. apply (IH (10 * acc + d)); [lia|exact H].
Qed.

(** the digits after the point, as a whole number over a power of ten *)
Lemma fraction_is b : forall acc f, fraction b = Some f -> exists n, decimal acc b = Some n /\
  (inject_Z n / inject_Z (10 ^ Z.of_nat (String.length b)) == inject_Z acc + f)%Q /\ (0 <= f < 1)%Q.
Proof.
  induction b as [|c b IH]; intros acc f H; cbn [fraction decimal String.length] in *.
  - injection H as <-. exists acc. split; [reflexivity|]. split; [|split; lra].
    change (inject_Z (10 ^ Z.of_nat 0)) with 1%Q. field.
  - destruct (dec_digit c) as [d|] eqn:D; [|discriminate]. destruct (fraction b) as [q|]; [|discriminate]. injection H as <-.
    destruct (IH (10 * acc + d) q eq_refl) as (n & E & Q & L). exists n. split; [exact E|].
    destruct (dec_value _ _ D) as [_ B]. split.
    + rewrite Nat2Z.inj_succ, Z.pow_succ_r by lia. rewrite inject_Z_mult. rewrite inject_Z_plus, inject_Z_mult in Q.
      change (inject_Z 10) with (10 # 1)%Q in *.
      assert (P : ~ (inject_Z (10 ^ Z.of_nat (String.length b)) == 0)%Q).
      { change 0%Q with (inject_Z 0). rewrite inject_Z_injective. apply Z.pow_nonzero; lia. }
      setoid_replace (inject_Z n / (10 * inject_Z (10 ^ Z.of_nat (String.length b))))%Q
        with ((inject_Z n / inject_Z (10 ^ Z.of_nat (String.length b))) / 10)%Q by (field; exact P).
      rewrite Q. field.
    + assert (B1 : (0 <= inject_Z d)%Q) by (change 0%Q with (inject_Z 0); rewrite <- Zle_Qle; lia).
      assert (B2 : (inject_Z d <= 9)%Q) by (change 9%Q with (inject_Z 9); rewrite <- Zle_Qle; lia).
      split; [apply Qle_shift_div_l; [reflexivity|]; lra|apply Qlt_shift_div_r; [reflexivity|]; lra].
Qed.

Theorem whole_number oplib lib n a i w : decimal 0 a = Some i ->
  mean_program library oplib lib (S n) [SOutput (ETerm (TNum a))] w =
  Some (Ok Datatypes.tt, mkWorld (rw_settings w) (rw_memo w) (rw_outputs w ++ [(oint i, None)]) (rw_printed w)).
Proof. intros H. apply decimal_is in H. subst i. reflexivity. Qed.

Theorem decimal_number oplib lib n a b i f w : decimal 0 a = Some i -> i <= 10 ^ 300 -> fraction b = Some f ->
  exists r, nearest_double (inject_Z i + f) (numQ r) /\ is_int r = false /\
  mean_program library oplib lib (S n) [SOutput (ETerm (TDec a b))] w =
  Some (Ok Datatypes.tt, mkWorld (rw_settings w) (rw_memo w) (rw_outputs w ++ [(OV (VN r), None)]) (rw_printed w)).
Proof.
  intros Ha Li Hb. pose proof (decimal_nonneg a 0 i (Z.le_refl 0) Ha) as Ni.
  destruct (fraction_is b i f Hb) as (z & Ez & Qz & Lf).
  assert (V : decimal_value (a ++ b) = z) by (apply decimal_is; now rewrite (decimal_app a 0 b i Ha)).
  assert (Lq : (inject_Z i <= inject_Z (10 ^ 300))%Q) by now rewrite <- Zle_Qle.
  assert (Nq : (0 <= inject_Z i)%Q) by (change 0%Q with (inject_Z 0); rewrite <- Zle_Qle; lia).
  destruct (fround_ok z (10 ^ Z.of_nat (String.length b)) Unmodelled (p2 1000)) as (r & E & N & I).
  - apply Z.pow_nonzero; lia.
  - exact big_double.
  - rewrite Qz, Qabs_pos by lra. apply Qle_trans with (inject_Z (10 ^ 300) + 1)%Q; [lra|]. vm_compute. discriminate.
  - exists r. split; [exact (nearest_comp _ _ _ _ Qz (Qeq_refl _) N)|]. split; [exact I|].
    unfold mean_program. cbn -[fround decimal_value String.length Z.pow]. unfold bnd, lift. cbn -[fround decimal_value String.length Z.pow].
    rewrite V, E. reflexivity.
Qed.
