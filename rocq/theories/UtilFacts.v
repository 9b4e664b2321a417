(** Facts about decimal notation and utils.py. *)
From Coq Require Import String Ascii List ZArith Bool Lia.
From Verif Require Import PyBase UtilModel.
Import ListNotations.
Open Scope Z_scope.

Definition is_dec (d : Z) : Prop := 0 <= d <= 9.

Lemma dec_cases d : is_dec d -> d = 0 \/ d = 1 \/ d = 2 \/ d = 3 \/ d = 4 \/ d = 5 \/ d = 6 \/ d = 7 \/ d = 8 \/ d = 9.
Proof. unfold is_dec. lia. Qed.

Lemma digit_char_spec d : is_dec d ->
  is_digit (digit_char d) = true /\ digit_val (digit_char d) = d /\ is_space (digit_char d) = false /\
  Ascii.eqb (digit_char d) "-" = false /\ Ascii.eqb (digit_char d) "+" = false /\ Ascii.eqb (digit_char d) "d" = false.
Proof. intro H. apply dec_cases in H. repeat (destruct H as [->|H]; [repeat split|]). subst. repeat split. Qed.

Definition dec_value (ds : list Z) (a : Z) : Z := fold_left (fun a d => 10 * a + d) ds a.

Lemma read_digits_dec ds : Forall is_dec ds -> forall a p, (p = true \/ ds <> []) ->
  read_digits a p (map digit_char ds) = Some (dec_value ds a).
Proof.
  induction 1 as [|d ds Hd Hds IH]; intros a p Hp.
  - destruct Hp as [->|]; [reflexivity|congruence].
  - cbn [map read_digits dec_value fold_left]. destruct (digit_char_spec d Hd) as (E1 & E2 & _). rewrite E1, E2.
    apply IH. left. reflexivity.
Qed.

Lemma digits_aux_spec f : forall n acc, 0 <= n < 2 ^ Z.of_nat f -> Forall is_dec acc ->
  Forall is_dec (digits_aux f n acc) /\ (f <> O -> digits_aux f n acc <> []) /\
  dec_value (digits_aux f n acc) 0 = dec_value acc n.
Proof.
  induction f as [|f IH]; intros n acc H Ha.
  - cbn [digits_aux]. change (2 ^ Z.of_nat 0) with 1 in H. assert (n = 0) by lia. subst. repeat split; auto; congruence.
  - cbn [digits_aux]. destruct (Z.ltb_spec n 10).
    + split; [constructor; auto; unfold is_dec; lia|]. split; [discriminate|]. reflexivity.
    + rewrite Nat2Z.inj_succ, Z.pow_succ_r in H by lia.
      pose proof (Z.mod_pos_bound n 10 ltac:(lia)). pose proof (Z.div_mod n 10 ltac:(lia)).
      destruct (IH (n / 10) (n mod 10 :: acc)) as (I1 & I2 & I3).
      * split; [apply Z.div_pos; lia|]. apply Z.div_lt_upper_bound; lia.
      * constructor; auto. unfold is_dec. lia.
      * split; [exact I1|]. split.
        { destruct f; [|intros _; apply I2; discriminate]. cbn [digits_aux]. discriminate. }
        rewrite I3. unfold dec_value. cbn [fold_left]. f_equal. lia.
Qed.

Lemma digits_spec n : 0 <= n -> Forall is_dec (digits n) /\ digits n <> [] /\ dec_value (digits n) 0 = n.
Proof.
  intro H. unfold digits. set (f := S (Z.to_nat (Z.log2 n))).
  assert (B : 0 <= n < 2 ^ Z.of_nat f).
  { split; [exact H|]. unfold f. rewrite Nat2Z.inj_succ, Z2Nat.id by apply Z.log2_nonneg.
    destruct (Z.eq_dec n 0) as [->|]; [reflexivity|]. apply Z.log2_spec. lia. }
  destruct (digits_aux_spec f n [] B (Forall_nil _)) as (A1 & A2 & A3).
  split; [exact A1|]. split; [apply A2; discriminate|]. exact A3.
Qed.

(** ** int(str(z)) *)
Definition no_space (l : list ascii) : Prop := Forall (fun a => is_space a = false) l.

Lemma drop_spaces_id l : no_space l -> drop_spaces l = l.
Proof. destruct 1 as [|a l H]; [reflexivity|]. cbn [drop_spaces]. now rewrite H. Qed.

Lemma strip_id l : no_space l -> strip l = l.
Proof.
  intro H. unfold strip. rewrite (drop_spaces_id l H). rewrite drop_spaces_id; [apply rev_involutive|].
  apply Forall_forall. intros a Ha. apply (proj1 (Forall_forall _ _) H). now apply in_rev.
Qed.

Definition Z_chars (z : Z) : list ascii :=
  if z <? 0 then "-"%char :: map digit_char (digits (- z)) else map digit_char (digits z).

Lemma str_of_Z_chars z : str_of_Z z = string_of_list_ascii (Z_chars z).
Proof. unfold str_of_Z, Z_chars, string_of_chars. destruct (z <? 0); reflexivity. Qed.

Lemma digits_chars n : 0 <= n ->
  no_space (map digit_char (digits n)) /\ Forall (fun a => Ascii.eqb a "d" = false) (map digit_char (digits n)).
Proof.
  intro H. destruct (digits_spec n H) as (D & _). split; apply Forall_map; (eapply Forall_impl; [|exact D]);
    intros d Hd; destruct (digit_char_spec d Hd) as (E1 & E2 & E3 & E4 & E5 & E6); cbn beta; auto.
Qed.

Lemma Z_chars_plain z : no_space (Z_chars z) /\ Forall (fun a => Ascii.eqb a "d" = false) (Z_chars z) /\ Z_chars z <> [].
Proof.
  unfold Z_chars. destruct (Z.ltb_spec z 0) as [L|L].
  - destruct (digits_chars (- z) ltac:(lia)). repeat split; try (constructor; auto). discriminate.
  - destruct (digits_chars z L). repeat split; auto. destruct (digits_spec z L) as (_ & N & _).
    destruct (digits z); [congruence|discriminate].
Qed.

Lemma py_int_str z : py_int (str_of_Z z) = Some z.
Proof.
  rewrite str_of_Z_chars. unfold py_int. rewrite list_ascii_of_string_of_list_ascii.
  destruct (Z_chars_plain z) as (S & _). rewrite strip_id by exact S. clear S. unfold Z_chars.
  destruct (Z.ltb_spec z 0) as [L|L].
  - destruct (digits_spec (- z) ltac:(lia)) as (D & N & V). cbn [Ascii.eqb Bool.eqb]. unfold read_unsigned.
    rewrite read_digits_dec by auto. rewrite V. cbn [option_map]. f_equal. lia.
  - destruct (digits_spec z L) as (D & N & V). destruct (digits z) as [|d ds] eqn:E; [congruence|].
    cbn [map]. inversion D; subst. destruct (digit_char_spec d) as (E1 & E2 & E3 & E4 & E5 & _); auto. rewrite E4, E5.
    change (digit_char d :: map digit_char ds) with (map digit_char (d :: ds)). unfold read_unsigned.
    rewrite read_digits_dec by auto. congruence.
Qed.

(** ** factorial: the table never changes the answer *)
Fixpoint fact (n : nat) : Z := match n with O => 1 | S m => Z.of_nat n * fact m end.
Definition factZ (z : Z) : Z := fact (Z.to_nat z).

Definition fm_ok (m : fmemo) : Prop := Forall (fun kv => snd kv = factZ (fst kv)) m.

Lemma fm_get_ok m n v : fm_ok m -> fm_get m n = Some v -> v = factZ n.
Proof.
  induction 1 as [|[k w] m H Hm IH]; [discriminate|]. cbn [fm_get]. destruct (Z.eqb_spec k n) as [->|].
  - intro E. inversion E; subst. exact H.
  - exact IH.
Qed.

Lemma factorial_aux_ok f : forall n m, n <= Z.of_nat f + 1 -> fm_ok m ->
  exists m', factorial_aux f n m = (factZ n, m') /\ fm_ok m'.
Proof.
  assert (Base : forall n m, n <= 1 -> fm_ok m -> fm_ok ((n, 1) :: m) /\ factZ n = 1).
  { intros n m H M. assert (F : factZ n = 1).
    { unfold factZ. destruct (Z.to_nat n) as [|[|k]] eqn:E; try reflexivity. lia. }
    split; [|exact F]. constructor; auto. }
  induction f as [|f IH]; intros n m H M; cbn [factorial_aux].
  - destruct (fm_get m n) as [v|] eqn:G.
    + rewrite (fm_get_ok m n v M G). eauto.
    + destruct (Z.ltb_spec 1 n); [lia|]. destruct (Base n m) as [B1 B2]; auto. rewrite B2. eauto.
  - destruct (fm_get m n) as [v|] eqn:G.
    + rewrite (fm_get_ok m n v M G). eauto.
    + destruct (Z.ltb_spec 1 n).
      * destruct (IH (n - 1) m) as (m' & E & M'); [lia|auto|]. rewrite E.
        assert (F : n * factZ (n - 1) = factZ n).
        { unfold factZ. replace (Z.to_nat n) with (S (Z.to_nat (n - 1))) by lia. cbn [fact].
          rewrite Nat2Z.inj_succ, Z2Nat.id by lia. f_equal. lia. }
        rewrite F. eexists. split; [reflexivity|]. constructor; auto.
      * destruct (Base n m) as [B1 B2]; auto. rewrite B2. eauto.
Qed.

Lemma factorial_ok n m : fm_ok m -> exists m', factorial n m = (factZ n, m') /\ fm_ok m'.
Proof. apply factorial_aux_ok. lia. Qed.

(** after any calls *)
Lemma factorial_after ns n :
  fst (factorial (Z.of_nat n) (fold_left (fun m k => snd (factorial k m)) ns [])) = fact n.
Proof.
  assert (K : forall m, fm_ok m -> fm_ok (fold_left (fun m k => snd (factorial k m)) ns m)).
  { induction ns as [|k ns IH]; intros m M; [exact M|]. cbn [fold_left]. apply IH.
    destruct (factorial_ok k m M) as [m' [E M']]. rewrite E. exact M'. }
  destruct (factorial_ok (Z.of_nat n) _ (K [] (Forall_nil _))) as [m' [E _]]. rewrite E. cbn [fst].
  unfold factZ. rewrite Nat2Z.id. reflexivity.
Qed.
