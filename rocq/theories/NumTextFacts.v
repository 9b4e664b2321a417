(** Numbers in texts. *)
From Coq Require Import String Ascii List ZArith QArith Qabs Bool Lia Lqa.
From Verif Require Import PyBase Num Val RVModel UtilModel Obj RollModel Spec PrintSpec NumSpec RoundFacts UtilFacts RollObjFacts.
Import ListNotations.
Open Scope Z_scope.

(** ** Python's int *)

Lemma dec_digit_is a : dec_digit a = if is_digit a then Some (digit_val a) else None.
Proof.
  unfold dec_digit, is_digit, digit_val.
  destruct (Nat.leb_spec 48 (nat_of_ascii a)), (Nat.leb_spec (nat_of_ascii a) 57); cbn [andb];
    destruct (Z.leb_spec 48 (Z.of_nat (nat_of_ascii a))), (Z.leb_spec (Z.of_nat (nat_of_ascii a)) 57); cbn [andb];
    try reflexivity; lia.
Qed.

Lemma blank_is a : blank a <-> is_space a = true.
Proof.
  unfold blank, is_space. set (n := nat_of_ascii a). split.
  - intros H. cbn [In] in H. repeat (destruct H as [<-|H]; [reflexivity|]). contradiction.
  - intros H. cbn [In]. destruct (Nat.eqb_spec n 32); [subst n; lia|]. cbn [orb] in H.
    apply orb_true_iff in H. destruct H as [H|H]; apply andb_true_iff in H; destruct H as [H1 H2];
      apply Nat.leb_le in H1; apply Nat.leb_le in H2; lia.
Qed.

Lemma digit_not_under a d : dec_digit a = Some d -> Ascii.eqb a "_" = false.
Proof. intros H. destruct (Ascii.eqb_spec a "_"); [subst; discriminate|reflexivity]. Qed.

Lemma read_app l : forall acc prev r z, read_digits acc prev l = Some z -> r <> [] ->
  read_digits acc prev (l ++ r) = read_digits z true r.
Proof.
  induction l as [|a l IH]; intros acc prev r z H N; cbn [read_digits app] in *.
  - destruct prev; [now injection H as <-|discriminate].
  - destruct (is_digit a); [now apply IH|]. destruct (Ascii.eqb a "_" && prev); [now apply IH|discriminate].
Qed.

Lemma grouped_reads l z : grouped l z -> read_digits 0 false l = Some z.
Proof.
  induction 1 as [a d D|l z a d G IH D|l z a d G IH D]; rewrite dec_digit_is in D; destruct (is_digit a) eqn:E; try discriminate; injection D as <-.
  - cbn [read_digits]. now rewrite E.
  - rewrite (read_app _ _ _ _ _ IH) by discriminate. cbn [read_digits]. now rewrite E.
  - rewrite (read_app _ _ _ _ _ IH) by discriminate. cbn [read_digits]. now rewrite E.
Qed.

Lemma reads_grouped l : forall acc prev z,
  read_digits acc prev l = Some z ->
  forall p, (prev = true -> grouped p acc) -> (prev = false -> p = [] /\ acc = 0 \/ exists q, p = q ++ ["_"%char] /\ grouped q acc) ->
  grouped (p ++ l) z.
Proof.
  induction l as [|a l IH]; intros acc prev z H p P1 P2; cbn [read_digits] in H.
  - destruct prev; [|discriminate]. injection H as <-. rewrite app_nil_r. now apply P1.
  - destruct (is_digit a) eqn:E.
    + assert (D : dec_digit a = Some (digit_val a)) by now rewrite dec_digit_is, E.
      change (a :: l) with ([a] ++ l). rewrite app_assoc. apply (IH _ _ _ H); [|discriminate]. intros _.
      destruct prev.
      * apply gr_more; auto.
      * destruct (P2 eq_refl) as [[-> ->]|[q [-> G]]].
        -- rewrite Z.mul_0_r. now apply gr_one.
        -- rewrite <- app_assoc. now apply gr_under.
    + destruct (Ascii.eqb_spec a "_"); [|discriminate]. destruct prev; [|discriminate]. subst a.
      change ("_"%char :: l) with (["_"%char] ++ l). rewrite app_assoc. apply (IH _ _ _ H); [discriminate|].
      intros _. right. exists p. split; [reflexivity|now apply P1].
Qed.

Lemma grouped_iff l z : grouped l z <-> read_unsigned l = Some z.
Proof.
  split; [apply grouped_reads|]. intros H. apply (reads_grouped l 0 false z H []); [discriminate|]. intros _. now left.
Qed.

Lemma drop_spaces_split l : exists b, l = b ++ drop_spaces l /\ Forall blank b /\
  match drop_spaces l with [] => True | a :: _ => is_space a = false end.
Proof.
  induction l as [|a l IH]; [exists []; repeat constructor|]. cbn [drop_spaces]. destruct (is_space a) eqn:E.
  - destruct IH as (b & E1 & F & H). exists (a :: b). split; [cbn [app]; congruence|]. split; [constructor; [now apply blank_is|exact F]|exact H].
  - exists []. split; [reflexivity|]. split; [constructor|exact E].
Qed.
Lemma drop_spaces_app b l : Forall blank b -> drop_spaces (b ++ l) = drop_spaces l.
Proof. induction 1 as [|a b H Hb IH]; [reflexivity|]. cbn [app drop_spaces]. apply blank_is in H. now rewrite H. Qed.
Lemma drop_spaces_keep a l : is_space a = false -> drop_spaces (a :: l) = a :: l.
Proof. intros H. cbn [drop_spaces]. now rewrite H. Qed.

Lemma strip_split l : exists b a, l = b ++ strip l ++ a /\ Forall blank b /\ Forall blank a.
Proof.
  destruct (drop_spaces_split l) as (b & E & F & _). destruct (drop_spaces_split (rev (drop_spaces l))) as (a & E' & F' & _).
  exists b, (rev a). split; [|split; [exact F|now apply Forall_rev]].
  unfold strip. rewrite <- rev_app_distr, <- E', rev_involutive. exact E.
Qed.

(** what has no blank at its ends is left alone *)
Lemma strip_core b m a : Forall blank b -> Forall blank a -> m <> [] -> is_space (hd "x"%char m) = false -> is_space (last m "x"%char) = false ->
  strip (b ++ m ++ a) = m.
Proof.
  intros B A N H L. unfold strip. rewrite (drop_spaces_app b _ B).
  destruct m as [|x m]; [congruence|]. cbn [hd] in H. cbn [app]. rewrite drop_spaces_keep by exact H.
  change (x :: m ++ a) with ((x :: m) ++ a). rewrite rev_app_distr, drop_spaces_app by now apply Forall_rev.
  destruct (exists_last (l := x :: m)) as (m' & y & E); [discriminate|]. rewrite E in *. rewrite last_last in L.
  rewrite rev_app_distr. cbn [rev app]. rewrite drop_spaces_keep by exact L. cbn [rev]. now rewrite rev_involutive.
Qed.

Lemma last_app_ne {A} (l m : list A) d : m <> [] -> last (l ++ m) d = last m d.
Proof.
  intros N. destruct (exists_last N) as (m' & y & ->). rewrite app_assoc. now rewrite !last_last.
Qed.

Lemma grouped_ends l z : grouped l z -> exists a m b, l = a :: m /\ l = b ++ [last l "x"%char] /\
  is_digit a = true /\ is_digit (last l "x"%char) = true.
Proof.
  assert (D : forall a d, dec_digit a = Some d -> is_digit a = true) by (intros a d; rewrite dec_digit_is; now destruct (is_digit a)).
  induction 1 as [a d H|l z a d G (x & m & b & E1 & E2 & D1 & D2) H|l z a d G (x & m & b & E1 & E2 & D1 & D2) H].
  - exists a, [], []. cbn. rewrite (D a d H). now repeat split.
  - exists x, (m ++ [a]), l. rewrite last_last. rewrite E1 at 1. rewrite D1, (D a d H). now repeat split.
  - exists x, (m ++ ["_"%char; a]), (l ++ ["_"%char]). rewrite (last_app_ne l ["_"%char; a] "x"%char) by discriminate. cbn [last].
    rewrite <- app_assoc. rewrite D1, (D a d H). split; [now rewrite E1 at 1|]. now repeat split.
Qed.

Lemma digit_facts a : is_digit a = true -> is_space a = false /\ Ascii.eqb a "-" = false /\ Ascii.eqb a "+" = false /\ Ascii.eqb a "d" = false.
Proof.
  intros H. split; [|split; [|split]].
  - unfold is_digit in H. unfold is_space. set (n := nat_of_ascii a) in *. apply andb_true_iff in H. destruct H as [H1 H2].
    apply Nat.leb_le in H1. apply Nat.leb_le in H2. 
    destruct (Nat.eqb_spec n 32); [lia|]. destruct (Nat.leb_spec n 13); [lia|]. destruct (Nat.leb_spec n 31); [lia|].
    now rewrite !andb_false_r.
  - destruct (Ascii.eqb_spec a "-"); [subst; discriminate|reflexivity].
  - destruct (Ascii.eqb_spec a "+"); [subst; discriminate|reflexivity].
  - destruct (Ascii.eqb_spec a "d"); [subst; discriminate|reflexivity].
Qed.

Lemma py_int_iff s z : py_int s = Some z <-> int_text (list_ascii_of_string s) z.
Proof.
  unfold py_int. split.
  - intros H. destruct (strip_split (list_ascii_of_string s)) as (b & a & E & B & A).
    destruct (strip (list_ascii_of_string s)) as [|x l] eqn:S; [discriminate|].
    destruct (Ascii.eqb_spec x "-") as [->|N1].
    + destruct (read_unsigned l) as [n|] eqn:R; [|discriminate]. cbn in H. injection H as <-. apply grouped_iff in R.
      exists b, ["-"%char], l, a, n. split; [exact E|]. split; [exact B|]. split; [exact A|]. split; [exact R|]. right. now split.
    + destruct (Ascii.eqb_spec x "+") as [->|N2].
      * apply grouped_iff in H. exists b, ["+"%char], l, a, z. split; [exact E|]. split; [exact B|]. split; [exact A|]. split; [exact H|]. left. auto.
      * apply grouped_iff in H. exists b, [], (x :: l), a, z. split; [exact E|]. split; [exact B|]. split; [exact A|]. split; [exact H|]. left. auto.
  - intros (b & sg & ds & a & n & E & B & A & G & Hs). rewrite E.
    pose proof (grouped_ends _ _ G) as (x & m & b' & E1 & _ & D1 & D2). pose proof (digit_facts _ D1) as (S1 & M1 & P1 & _).
    pose proof (digit_facts _ D2) as (S2 & _). apply grouped_iff in G.
    assert (N : ds <> []) by (rewrite E1; discriminate).
    assert (L : is_space (last (sg ++ ds) "x"%char) = false) by now rewrite last_app_ne.
    rewrite (app_assoc sg).
    assert (F : is_space (hd "x"%char (sg ++ ds)) = false).
    { destruct Hs as [[[->| ->] _]|[-> _]]; [rewrite E1; exact S1|reflexivity|reflexivity]. }
    rewrite (strip_core b (sg ++ ds) a B A) by (try assumption; intros X; apply app_eq_nil in X; tauto).
    destruct Hs as [[[->| ->] ->]|[-> ->]]; cbn [app].
    + rewrite E1 at 1. rewrite M1, P1. rewrite <- E1. exact G.
    + exact G.
    + cbn. now rewrite G.
Qed.

(** ** Dice notation *)

Lemma split_join l : exists w ws, split_d l = w :: ws /\ Forall (fun a => Ascii.eqb a "d" = false) w /\
  (ws = [] /\ l = w \/ exists r, l = w ++ "d"%char :: r /\ split_d r = ws).
Proof.
  induction l as [|a l (w & ws & E & F & H)]; [exists [], []; split; [reflexivity|]; split; [constructor|]; now left|].
  cbn [split_d]. rewrite E. destruct (Ascii.eqb a "d") eqn:D.
  - exists [], (w :: ws). split; [reflexivity|]. split; [constructor|]. right. exists l.
    apply Ascii.eqb_eq in D. subst a. split; [reflexivity|exact E].
  - exists (a :: w), ws. split; [reflexivity|]. split; [now constructor|].
    destruct H as [[-> ->]|(r & -> & R)]; [left; now split|right; exists r; now split].
Qed.

Lemma int_text_no_d l z : int_text l z -> Forall (fun a => Ascii.eqb a "d" = false) l.
Proof.
  intros (b & sg & ds & a & n & -> & B & A & G & Hs).
  assert (S : forall l, Forall blank l -> Forall (fun a => Ascii.eqb a "d" = false) l).
  { intros l. apply Forall_impl. intros x X. destruct (Ascii.eqb_spec x "d"); [subst; apply blank_is in X; discriminate|reflexivity]. }
  apply Forall_app. split; [now apply S|]. apply Forall_app. split; [destruct Hs as [[[->| ->] _]|[-> _]]; repeat constructor|].
  apply Forall_app. split; [|now apply S].
  assert (D : forall a d, dec_digit a = Some d -> Ascii.eqb a "d" = false).
  { intros x d X. destruct (Ascii.eqb_spec x "d"); [subst; discriminate|reflexivity]. }
  clear - G D. induction G; [repeat constructor; eauto| |]; apply Forall_app; (split; [assumption|]); repeat constructor; eauto.
Qed.

Lemma parse_dice s n m : dice_text s n m <-> parse_roll s = Ok (n, m).
Proof.
  unfold parse_roll. split.
  - intros (a & b & E & A & B). rewrite E.
    assert (Da : Forall (fun a => Ascii.eqb a "d" = false) a) by (destruct A as [[-> _]|A]; [constructor|exact (int_text_no_d _ _ A)]).
    rewrite (split_d_two a b Da (int_text_no_d _ _ B)).
    assert (I : forall l z, int_text l z -> py_int (string_of_list_ascii l) = Some z).
    { intros l z H. apply py_int_iff. now rewrite list_ascii_of_string_of_list_ascii. }
    destruct A as [[-> ->]|A].
    + cbn [bind]. now rewrite (I _ _ B).
    + assert (Na : a <> []).
      { intros ->. destruct A as (? & ? & ds & ? & ? & X & _ & _ & G & _). symmetry in X.
        apply app_eq_nil in X. destruct X as [_ X]. apply app_eq_nil in X. destruct X as [_ X]. apply app_eq_nil in X. destruct X as [-> _].
        apply grouped_ends in G. destruct G as (? & ? & ? & X & _). discriminate. }
      rewrite (I _ _ A). destruct a; [congruence|]. cbn [bind]. now rewrite (I _ _ B).
  - intros H. destruct (split_join (list_ascii_of_string s)) as (w & ws & E & F & C). rewrite E in H.
    destruct C as [[-> C]|(r & C & R)]; [discriminate|].
    destruct ws as [|w2 [|w3 ws]]; [discriminate| |discriminate].
    destruct (split_join r) as (v & vs & E2 & F2 & C2). rewrite R in E2. injection E2 as <- <-.
    destruct C2 as [[_ ->]|(r2 & _ & X)]; [|destruct (split_join r2) as (? & ? & Y & _); congruence].
    exists w, w2. split; [exact C|].
    assert (I : forall l z, py_int (string_of_list_ascii l) = Some z -> int_text l z).
    { intros l z X. apply py_int_iff in X. now rewrite list_ascii_of_string_of_list_ascii in X. }
    destruct w as [|x w].
    + cbn [bind] in H. destruct (py_int (string_of_list_ascii w2)) eqn:P; [|discriminate]. injection H as <- <-. split; [left; now split|now apply I].
    + destruct (py_int (string_of_list_ascii (x :: w))) eqn:P1; [|discriminate]. cbn [bind] in H.
      destruct (py_int (string_of_list_ascii w2)) eqn:P; [|discriminate]. injection H as <- <-. split; [right; now apply I|now apply I].
Qed.

Lemma parse_error s e : parse_roll s = Err e -> e = ValueErr.
Proof.
  unfold parse_roll. destruct (split_d _) as [|w [|w2 [|w3 ws]]]; try congruence.
  destruct w as [|x w].
  - cbn [bind]. destruct (py_int _); congruence.
  - destruct (py_int _); cbn [bind]; [destruct (py_int _)|]; congruence.
Qed.

Theorem roll_texts c s M :
  (forall n m, dice_text s n m -> roll c (OStr s) None M = roll c (oint n) (Some (oint m)) M) /\
  ((forall n m, ~ dice_text s n m) -> roll c (OStr s) None M = (Err ValueErr, M)).
Proof.
  split.
  - intros n m H. apply parse_dice in H. unfold roll, roll_args, roll_args0. now rewrite H.
  - intros H. destruct (parse_roll s) as [[n m]|e] eqn:E; [apply parse_dice in E; now apply H in E|].
    pose proof (parse_error _ _ E). subst e. unfold roll, roll_args, roll_args0. now rewrite E.
Qed.
