(** C65, C66: the lexer. *)
From Coq Require Import String Ascii Bool List.
From Verif Require Import LexModel LexSpec LexFacts.
Import ListNotations.
Open Scope string_scope.

(** The pieces, in order, are the whole text, and each is what it is said to
    be: a token with a text of its kind, something that may be dropped, or a
    character that starts nothing. *)
Theorem C65_partition : forall s ps e, lex s = (ps, e) ->
  whole_text ps = s /\ Forall piece_ok ps.
Proof. intros s ps e E. pose proof (lex_partition s) as H. rewrite E in H. exact H. Qed.
Print Assumptions C65_partition.

(** If the text is accepted, the tokens handed to the parser and the dropped
    stretches make up the text: nothing else was lost. *)
Theorem C65_accepted : forall s ts, scan s = Some ts ->
  exists ps, ts = tokens_of ps /\ whole_text ps = s /\ Forall piece_ok ps /\
    (forall c, ~ In (Illegal c) ps).
Proof.
  intros s ts E. destruct (scan_pieces s ts E) as [ps [_ [H1 [H2 [H3 H4]]]]].
  exists ps. now repeat split.
Qed.
Print Assumptions C65_accepted.

(** The contents of a string reach the parser completely, and the scan resumes
    after the closing quote as if the string had not been there. *)
Theorem C65_strings : forall body rest, string_body body ->
  exists ts, scan (String cQUOTE (body ++ String cQUOTE rest)) = option_map (app ts) (scan rest) /\
    Forall string_token ts /\ String.concat "" (map snd ts) = body.
Proof. exact scan_string. Qed.
Print Assumptions C65_strings.

(** A string that is never closed is refused. *)
Theorem C65_open_string : forall body, string_body body -> scan (String cQUOTE body) = None.
Proof. exact scan_open_string. Qed.
Print Assumptions C65_open_string.

(** Kinds of lower-case words. *)
Theorem C66_word_kinds : forall w, a_word lower_letter w ->
  (word_type w = tD_OP <-> w = "d") /\
  (forall t, keyword w t -> word_type w = t) /\
  (word_type w = tLOWERNAME <-> w <> "d" /\ forall t, ~ keyword w t).
Proof.
  intros w Hw. unfold word_type. pose proof (find_reserved w) as F.
  destruct (String.eqb_spec w "d") as [->|N].
  - split; [tauto|]. split; [intros t K; inversion K|]. split; [discriminate|tauto].
  - destruct (find (fun kv => String.eqb (fst kv) w) reserved) as [[k t]|].
    + split; [split; [intros ->; inversion F|contradiction]|].
      split; [intros t' K; inversion F; subst; inversion K; reflexivity|].
      split; [intros ->; inversion F|intros [_ K]; destruct (K t F)].
    + split; [split; [discriminate|contradiction]|].
      split; [intros t K; destruct (F t K)|]. split; [intros _; split; assumption|reflexivity].
Qed.
Print Assumptions C66_word_kinds.

(** In any text, every word token is a maximal run of lower-case letters and
    its type depends on the word alone. *)
Theorem C66_maximal : forall s a t w b,
  fst (lex s) = (a ++ Token (t, w) :: b)%list -> word_token t = true ->
  t = word_type w /\ a_word lower_letter w /\
  (forall c x, whole_text b = String c x -> ~ lower_letter c) /\
  (forall c x, whole_text a = x ++ String c "" -> ~ lower_letter c).
Proof.
  intros s a t w b E Ht. destruct (word_maximal a Initial s t w b E Ht) as [H1 [H2 [H3 [_ H5]]]].
  exact (conj H1 (conj H2 (conj H3 H5))).
Qed.
Print Assumptions C66_maximal.

(** Conversely, every maximal word at the front of a text becomes one token. *)
Theorem C66_word_read : forall w r, a_word lower_letter w ->
  (forall c x, r = String c x -> ~ lower_letter c) ->
  scan (w ++ r) = option_map (cons (word_type w, w)) (scan r).
Proof. exact scan_word. Qed.
Print Assumptions C66_word_read.

Example C65_example :
  scan "output 2d6+dd ""hp [A] [x]"" \note\ named" =
  Some [(tOUTPUT, "output"); (tNUMBER, "2"); (tD_OP, "d"); (tNUMBER, "6"); (tPLUS, "+");
        (tLOWERNAME, "dd"); (tINSTRING_ANY, "hp "); (tINSTRING_VAR, "[A]"); (tINSTRING_ANY, " ");
        (tINSTRING_NONVAR, "[x]"); (tNAMED, "named")].
Proof. reflexivity. Qed.

Example C66_example : scan "outputs" = Some [(tLOWERNAME, "outputs")] /\ scan "3 $ 4" = None.
Proof. split; reflexivity. Qed.
