(** Facts about the notation [n * D * m] and the text of labels. *)
From Coq Require Import String Ascii List ZArith Bool Lia.
From Verif Require Import PyBase Num Val Sorting RVModel OutModel UtilModel Obj RollModel PrintModel AltModel Spec PrintSpec NumFacts CmpFacts
  UtilFacts OutFacts RollObjFacts.
Import ListNotations.
Open Scope string_scope.
Open Scope list_scope.
Open Scope Z_scope.

(** ** The notation for rolls *)

Lemma D_single c m M : D_mul c m M = roll c m None M.
Proof. reflexivity. Qed.

Lemma D_plain c n m M : is_meta_seq n = false -> is_meta_rv n = false -> D_mul_mul c n m M = roll c n (Some m) M.
Proof. destruct n as [[n|s]|s|l|l|l|x|b| ]; intros A B; try discriminate; reflexivity. Qed.

Lemma D_seq c zs m M : D_mul_mul c (OSeq (map vint zs)) m M = roll c (OSeq (map vint zs)) (Some m) M.
Proof.
  unfold D_mul_mul, sbind, slift. cbn [times_D meta_sum]. rewrite RollObjFacts.seq_sum_ints. cbn [bind times_die].
  rewrite !roll_stages, !roll_args_some by reflexivity. destruct (die_norm m) as [d|]; [|reflexivity]. cbn [bind].
  change (count_norm (OV (vint (sumZ zs)))) with (@Ok obj (oint (sumZ zs))).
  change (count_norm (OSeq (map vint zs))) with (@Ok obj (OSeq (map vint zs))). cbn [bind fst snd].
  unfold roll_body.
  destruct d as [[[z'|m' e']|s']|s'|[|a l']|[|a l']|l'|x'|b'| ]; try reflexivity;
    cbn [oint vint as_count as_die]; unfold roll_core, sbind, slift; cbn [roll_count meta_sum];
    match goal with |- context [to_die c ?d] => destruct (to_die c d); [|reflexivity] end;
    unfold sbind, slift; rewrite RollObjFacts.seq_sum_ints; reflexivity.
Qed.

(** ** The text of labels *)

Lemma app_nil_s (s : string) : (s ++ "" = s)%string.
Proof. induction s as [|a s IH]; [reflexivity|]. cbn. now rewrite IH. Qed.

Lemma plain_label ftext s : s <> CONST_COEF ->
  label_text ftext (s_str s) = if numeral s then String """" (s ++ String """" "") else s.
Proof.
  intros N. unfold label_text, label_repr. change (s_sorted (s_str s)) with [(s, NI 1)].
  cbn [filter fst last_coeff]. destruct (String.eqb_spec s CONST_COEF); [contradiction|]. cbn [negb map String.concat].
  change (pair_text ftext (s, NI 1)) with s. now rewrite app_nil_s.
Qed.

Lemma skip_all ds : Forall is_dec ds -> skip_digits (string_of_chars (map digit_char ds)) = "".
Proof.
  induction 1 as [|d ds D F IH]; [reflexivity|]. cbn [map string_of_chars string_of_list_ascii skip_digits].
  destruct (digit_char_spec d D) as [E _]. rewrite E. exact IH.
Qed.

Lemma numeral_int z : numeral (str_of_Z z) = true.
Proof.
  assert (P : forall n, 0 <= n -> digits1 (string_of_chars (map digit_char (digits n))) = Some "" /\
    drop_minus (string_of_chars (map digit_char (digits n))) = string_of_chars (map digit_char (digits n))).
  { intros n N. destruct (digits_spec n N) as [F [L _]]. destruct (digits n) as [|d ds]; [congruence|].
    cbn [map string_of_chars string_of_list_ascii].
    inversion F as [|? ? D F']; subst. destruct (digit_char_spec d D) as [E [_ [_ [E4 _]]]]. 
    change (string_of_list_ascii (map digit_char ds)) with (string_of_chars (map digit_char ds)). cbn [digits1]. rewrite E. split; [now rewrite (skip_all ds F')|].
    cbn [drop_minus]. now rewrite E4. }
  unfold numeral, str_of_Z. destruct (Z.ltb_spec z 0) as [H|H].
  - destruct (P (- z) ltac:(lia)) as [E _].
    change (drop_minus (String "-" (string_of_chars (map digit_char (digits (- z)))))) with (string_of_chars (map digit_char (digits (- z)))).
    rewrite E. reflexivity.
  - destruct (P z H) as [E X]. rewrite X, E. reflexivity.
Qed.

Lemma int_first z : exists a r, str_of_Z z = String a r /\ a <> """"%char.
Proof.
  unfold str_of_Z. destruct (Z.ltb_spec z 0) as [H|H]; [exists "-"%char; eexists; split; [reflexivity|discriminate]|].
  destruct (digits_spec z H) as [F [L _]]. destruct (digits z) as [|d ds]; [congruence|]. inversion F as [|? ? D F']; subst.
  cbn [map string_of_chars string_of_list_ascii]. eexists. eexists. split; [reflexivity|].
  intros X. destruct (digit_char_spec d D) as [E _]. rewrite X in E. discriminate.
Qed.

Theorem number_or_label ftext z s : s <> CONST_COEF -> label_text ftext (s_str s) <> str_of_Z z.
Proof.
  intros N. rewrite (plain_label ftext s N). destruct (numeral s) eqn:E.
  - destruct (int_first z) as [a [r [-> A]]]. intros X. injection X as X _. now rewrite X in A.
  - intros ->. rewrite numeral_int in E. discriminate.
Qed.

Lemma append_length (s t : string) : (String.length (s ++ t) = String.length s + String.length t)%nat.
Proof. induction s as [|a s IH]; [reflexivity|]. cbn. now rewrite IH. Qed.

(** no quotation marks *)
Fixpoint unquoted (s : string) : Prop := match s with EmptyString => True | String a r => a <> """"%char /\ unquoted r end.

Lemma app_inj_s (s t u : string) : (s ++ u = t ++ u)%string -> s = t.
Proof.
  revert t. induction s as [|a s IH]; intros [|b t] H.
  - reflexivity.
  - exfalso. cbn in H. assert (L : String.length u = String.length (String b (t ++ u))) by now rewrite <- H.
    cbn in L. rewrite append_length in L. lia.
  - exfalso. cbn in H. assert (L : String.length u = String.length (String a (s ++ u))) by now rewrite H.
    cbn in L. rewrite append_length in L. lia.
  - cbn in H. injection H as -> H. now rewrite (IH t H).
Qed.

Theorem plain_labels_differ ftext s t : s <> CONST_COEF -> t <> CONST_COEF -> unquoted s -> unquoted t ->
  label_text ftext (s_str s) = label_text ftext (s_str t) -> s = t.
Proof.
  intros S T Us Ut. rewrite !plain_label by assumption. destruct (numeral s), (numeral t); intros H.
  - injection H as H. exact (app_inj_s _ _ _ H).
  - subst t. now destruct Ut.
  - subst s. now destruct Us.
  - exact H.
Qed.

Lemma plain_distinct ftext x :
  (forall s, In (VS s) (vals x) -> exists t, s = s_str t /\ t <> CONST_COEF /\ unquoted t) -> distinct_text (label_text ftext) x.
Proof.
  intros H s t Is It E. destruct (H s Is) as [u [-> [U1 U2]]], (H t It) as [v [-> [V1 V2]]].
  apply plain_labels_differ in E; try assumption. subst v. unfold veqb. now rewrite (lw_refl _ vcmp_lawful).
Qed.

Lemma D_several c n m M : (is_meta_seq n = false /\ is_meta_rv n = false) \/ (exists zs, n = OSeq (map vint zs)) ->
  D_mul_mul c n m M = roll c n (Some m) M.
Proof. intros [[A B]|[zs ->]]; [now apply D_plain|apply D_seq]. Qed.

(** ** Texts that read as numbers *)

Definition dig (a : ascii) : Prop := In a (list_ascii_of_string "0123456789").

Lemma dig_is a : is_digit a = true <-> dig a.
Proof.
  split.
  - intros H. destruct a as [[|] [|] [|] [|] [|] [|] [|] [|]]; vm_compute in H; try discriminate H; unfold dig; cbn; tauto.
  - intros H. unfold dig in H. cbn in H. repeat (destruct H as [<-|H]; [reflexivity|]). destruct H.
Qed.

Lemma skip_split s : exists ds, s = (ds ++ skip_digits s)%string /\ Forall dig (list_ascii_of_string ds).
Proof.
  induction s as [|a s IH]; [exists ""%string; split; [reflexivity|constructor]|]. cbn [skip_digits].
  destruct (is_digit a) eqn:E; [|exists ""%string; split; [reflexivity|constructor]].
  destruct IH as (ds & H & F). exists (String a ds). split; [cbn [append]; now rewrite <- H|].
  constructor; [now apply dig_is|exact F].
Qed.

Lemma skip_digits_app ds x : Forall dig (list_ascii_of_string ds) -> skip_digits (ds ++ x) = skip_digits x.
Proof.
  induction ds as [|a ds IH]; intros F; [reflexivity|]. inversion F as [|? ? D F']; subst.
  cbn [append skip_digits]. apply dig_is in D. rewrite D. now apply IH.
Qed.

Lemma at_end_spec s : at_end s = true <-> s = ""%string \/ s = String "010" "".
Proof.
  split; [|intros [->| ->]; reflexivity].
  destruct s as [|a [|b s]]; [now left| |];
    destruct a as [[|] [|] [|] [|] [|] [|] [|] [|]]; intros H; try discriminate H; now right.
Qed.

Lemma digits1_spec s r : digits1 s = Some r <-> exists ds, digit_text ds /\ s = (ds ++ r)%string /\ skip_digits r = r.
Proof.
  assert (K : forall s, skip_digits (skip_digits s) = skip_digits s).
  { induction s0 as [|a s0 IH]; [reflexivity|]. cbn [skip_digits]. destruct (is_digit a) eqn:E; [exact IH|].
    cbn [skip_digits]. now rewrite E. }
  split.
  - destruct s as [|a s]; [discriminate|]. cbn [digits1]. destruct (is_digit a) eqn:E; [|discriminate]. intros H. injection H as <-.
    destruct (skip_split s) as (ds & H & F). exists (String a ds). split.
    + split; [discriminate|]. constructor; [now apply dig_is|exact F].
    + split; [cbn [append]; now rewrite <- H|apply K].
  - intros (ds & [N F] & -> & S). destruct ds as [|a ds]; [contradiction|]. inversion F as [|? ? D F']; subst.
    cbn [append digits1]. apply dig_is in D. rewrite D. now rewrite (skip_digits_app ds r F'), S.
Qed.

Lemma end_skip s : s = ""%string \/ s = String "010" "" -> skip_digits s = s.
Proof. now intros [->| ->]. Qed.

Theorem numeral_spec s : numeral s = true <-> number_text s.
Proof.
  unfold numeral. split.
  - intros H. destruct (digits1 (drop_minus s)) as [r|] eqn:E; [|discriminate H].
    apply digits1_spec in E. destruct E as (ds & D & E & _).
    assert (exists sign, (sign = "" \/ sign = "-")%string /\ s = (sign ++ drop_minus s)%string) as (sign & S & ES).
    { destruct s as [|a s]; [exists ""%string; now split; [left|]|]. cbn [drop_minus]. destruct (Ascii.eqb_spec a "-").
      - subst a. exists "-"%string. split; [now right|reflexivity].
      - exists ""%string. split; [now left|reflexivity]. }
    rewrite ES, E. apply orb_prop in H. destruct H as [H|H].
    + apply at_end_spec in H. apply (number_text_intro sign ds "" r S D (or_introl eq_refl) H).
    + destruct r as [|a r]; [discriminate H|]. apply andb_prop in H. destruct H as [HA H]. apply Ascii.eqb_eq in HA. subst a.
      destruct (digits1 r) as [r'|] eqn:E1; [|discriminate H]. apply digits1_spec in E1. destruct E1 as (f & DF & -> & _).
      apply at_end_spec in H. change (String "." (f ++ r')) with (String "." f ++ r')%string.
      apply (number_text_intro sign ds (String "." f) r' S D); [right; now exists f|exact H].
  - intros [sign ds decimals feed S D C F].
    assert (DM : forall x, drop_minus (sign ++ ds ++ x)%string = (ds ++ x)%string).
    { intros x. destruct S as [->| ->]; [|reflexivity]. destruct D as [N FD]. destruct ds as [|a ds]; [contradiction|].
      inversion FD as [|? ? DA _]; subst. cbn [append drop_minus]. destruct (Ascii.eqb_spec a "-"); [|reflexivity].
      subst a. unfold dig in DA. cbn in DA. repeat (destruct DA as [DA|DA]; [discriminate DA|]). destruct DA. }
    rewrite DM. assert (SK : skip_digits (decimals ++ feed) = (decimals ++ feed)%string).
    { destruct C as [->|(f & _ & ->)]; [now apply end_skip|reflexivity]. }
    assert (E : digits1 (ds ++ decimals ++ feed)%string = Some (decimals ++ feed)%string).
    { apply digits1_spec. now exists ds. }
    rewrite E. destruct C as [->|(f & DF & ->)]; cbn [append].
    + rewrite (proj2 (at_end_spec feed) F). reflexivity.
    + assert (E1 : digits1 (f ++ feed)%string = Some feed).
      { apply digits1_spec. exists f. split; [exact DF|]. split; [reflexivity|now apply end_skip]. }
      rewrite E1, (proj2 (at_end_spec feed) F). reflexivity.
Qed.
