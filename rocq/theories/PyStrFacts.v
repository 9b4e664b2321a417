(** Strings: what their tokens are, where their Python literals end, and what
    the literals stand for. *)
From Coq Require Import String Ascii Bool List Arith Lia.
From Verif Require Import PyBase LexModel LexSpec LexFacts GramModel ParseModel SynSpec ParseSound NameSpec
  ResolveModel ResolveGen CompileFacts PySpec PyDet PyTrans PyLexFacts PyReady PyToks PyRead StrSpec.
Import ListNotations.
Open Scope string_scope.
Open Scope list_scope.

(** ** The tokens of a string *)

Lemma var_some : forall x s, a_word upper_letter x -> m_var ("[" ++ x ++ "]" ++ s)%string <> None.
Proof.
  intros x s [N A] E. change (match m_plus is_upper_ (x ++ ("]" ++ s))%string with
          | Some (a, String d r) => if Ascii.eqb d "]" then Some (String "[" (a ++ String d ""), r) else None
          | _ => None
          end = None) in E.
  rewrite (m_plus_app is_upper_ x ("]" ++ s)) in E.
  - cbn in E. discriminate.
  - exact N.
  - refine (all_chars_impl _ _ _ _ A). intros c. apply is_upper_iff.
  - intros c r X. cbn in X. injection X as <- <-. reflexivity.
Qed.

Lemma nonvar_first : forall s v st r, lex_step Instring s = Some (LexModel.Token (tINSTRING_NONVAR, v), st, r) ->
  m_var s = None.
Proof.
  intros s v st r E. destruct (m_var s) as [[a b]|] eqn:M; [|reflexivity].
  destruct s as [|c s]; [discriminate|].
  assert (C : c = "["%char).
  { unfold m_var in M. destruct (Ascii.eqb_spec c "["); [assumption|discriminate]. }
  subst c. unfold lex_step in E. cbn [ignored] in E. unfold rules, rules_instring in E.
  cbn [first_match] in E. rewrite M in E.
  replace (m_lit (String cQUOTE "") (String "[" s)) with (@None (string * string)) in E by reflexivity.
  cbn in E. discriminate.
Qed.

Lemma filled_text : forall v w s r, all_chars string_char w -> filled v s r -> filled v (w ++ s) (w ++ r).
Proof.
  induction w; intros s r A F; [exact F|]. apply all_chars_cons in A. destruct A as [[_ [_ A]] B].
  cbn [append]. apply fi_char; [|now apply IHw]. intros x s' _ X. injection X as X _. contradiction.
Qed.

Definition part_value (v : string -> string) (p : part) : string :=
  match p with PAny s | PNonvar s => s | PVar x => v x end.
Definition parts_value (v : string -> string) (ps : list part) : string := join "" (map (part_value v) ps).

Lemma parts_value_cons : forall v p ps, parts_value v (p :: ps) = (part_value v p ++ parts_value v ps)%string.
Proof.
  intros. unfold parts_value. cbn [map]. unfold join.
  destruct (map (part_value v) ps); cbn; [|reflexivity]. symmetry. apply sapp_nil.
Qed.

Lemma string_parts_lex : forall n body rest, String.length body <= n -> between_quotes body ->
  exists ps, lex_from Instring (body ++ String cQUOTE rest) =
      ((map LexModel.Token (map part_tok ps) ++ Skipped (String cQUOTE "") :: fst (lex_from Initial rest))%list,
       snd (lex_from Initial rest)) /\
    Forall good (map part_tok ps) /\ (forall v, filled v body (parts_value v ps)) /\
    join "" (map (fun p => snd (part_tok p)) ps) = body.
Proof.
  assert (Z : forall rest, exists ps, lex_from Instring ("" ++ String cQUOTE rest) =
      ((map LexModel.Token (map part_tok ps) ++ Skipped (String cQUOTE "") :: fst (lex_from Initial rest))%list,
       snd (lex_from Initial rest)) /\
    Forall good (map part_tok ps) /\ (forall v, filled v "" (parts_value v ps)) /\
    join "" (map (fun p => snd (part_tok p)) ps) = "").
  { intros rest. exists []. cbn [append map app].
    rewrite (lex_from_step _ _ _ _ _ (eq_refl : lex_step Instring (String cQUOTE rest) =
      Some (Skipped (String cQUOTE ""), Initial, rest))).
    repeat split; constructor. }
  induction n; intros body rest Hl Hb.
  - destruct body; [|cbn in Hl; lia]. apply Z.
  - destruct body as [|c body]; [apply Z|].
    pose proof Hb as Hb'. apply all_chars_cons in Hb'. destruct Hb' as [[N Q] _].
    destruct (instring_step c (body ++ String cQUOTE rest) N Q) as [t [v [r [Es [Ht [Hv [Hn Hq]]]]]]].
    change (String c (body ++ String cQUOTE rest))%string with (String c body ++ String cQUOTE rest)%string in *.
    destruct (prefix_split _ _ _ _ Hv Hq) as [b' [Eb Er]].
    assert (Lb : String.length b' <= n).
    { assert (K : String.length (String c body) = String.length v + String.length b')
        by (rewrite Eb; apply slen_app).
      destruct v; [congruence|]. cbn in K, Hl. lia. }
    assert (Bb : between_quotes b').
    { rewrite Eb in Hb. apply all_chars_app in Hb. exact (proj2 Hb). }
    destruct (IHn b' rest Lb Bb) as [ps [E1 [E2 [E3 E4]]]].
    assert (P : exists p, (t, v) = part_tok p /\ good (part_tok p) /\
                forall f, filled f (String c body) (part_value f p ++ parts_value f ps)).
    { destruct Ht as [Kt Tt]. cbn [fst snd] in Kt, Tt.
      destruct Kt as [ -> | [ -> | -> ] ]; inversion Tt; subst;
        try (match goal with K : keyword _ _ |- _ => inversion K end).
      - exists (PAny v). split; [reflexivity|split; [exact Tt|]]. intros f. rewrite Eb.
        apply filled_text; [|apply E3]. match goal with X : a_word _ v |- _ => exact (proj2 X) end.
      - match goal with X : a_word _ ?u |- _ => exists (PVar u); split; [reflexivity|split; [exact Tt|]];
          intros f; rewrite Eb; rewrite !PyLexFacts.sapp_assoc; apply fi_var; [exact X|apply E3] end.
      - match goal with X : all_chars _ ?u |- _ => exists (PNonvar ("[" ++ u)); split; [reflexivity|split; [exact Tt|]];
          intros f; cbn [part_value]; rewrite Eb; rewrite !PyLexFacts.sapp_assoc end.
        cbn [append]. apply fi_char; [|apply filled_text; [assumption|apply E3]].
        intros x s' Wx Ex. apply (var_some x (s' ++ String cQUOTE rest) Wx).
        pose proof (nonvar_first _ _ _ _ Es) as M. rewrite Eb in M.
        replace ("[" ++ x ++ "]" ++ s' ++ String cQUOTE rest)%string
          with (("[" ++ x ++ "]" ++ s') ++ String cQUOTE rest)%string
          by (rewrite !PyLexFacts.sapp_assoc; reflexivity).
        rewrite <- Ex. exact M. }
    destruct P as [p [Ep [Gp Fp]]]. exists (p :: ps).
    rewrite (lex_from_step _ _ _ _ _ Es), Er, E1. cbn [fst snd map app].
    split; [now rewrite Ep|]. split; [now constructor|]. split.
    + intros f. rewrite parts_value_cons. apply Fp.
    + unfold join in *. rewrite concat_cons, E4. rewrite <- Ep. symmetry. exact Eb.
Qed.

Lemma scan_parts : forall body rest, between_quotes body ->
  exists ps, scan (String cQUOTE (body ++ String cQUOTE rest)) = option_map (app (map part_tok ps)) (scan rest) /\
    Forall good (map part_tok ps) /\ (forall v, filled v body (parts_value v ps)) /\
    join "" (map (fun p => snd (part_tok p)) ps) = body.
Proof.
  intros body rest Hb. destruct (string_parts_lex _ body rest (le_n _) Hb) as [ps [E1 [E2 [E3 E4]]]].
  exists ps. split; [|now repeat split].
  unfold scan, lex_ok.
  change (lex (String cQUOTE (body ++ String cQUOTE rest)))
    with (lex_from Initial (String cQUOTE (body ++ String cQUOTE rest))).
  change (lex rest) with (lex_from Initial rest).
  rewrite (lex_from_step _ _ _ _ _ (eq_refl : lex_step Initial (String cQUOTE (body ++ String cQUOTE rest)) =
    Some (Skipped (String cQUOTE ""), Instring, (body ++ String cQUOTE rest)%string))).
  rewrite E1. destruct (lex_from Initial rest) as [qs e]. cbn [fst snd].
  set (ts := map part_tok ps) in *.
  assert (I : illegals_of (Skipped (String cQUOTE "") :: map LexModel.Token ts ++ Skipped (String cQUOTE "") :: qs)
              = illegals_of qs).
  { change (illegals_of (map LexModel.Token ts ++ Skipped (String cQUOTE "") :: qs) = illegals_of qs).
    rewrite illegals_of_map. reflexivity. }
  assert (J : tokens_of (Skipped (String cQUOTE "") :: map LexModel.Token ts ++ Skipped (String cQUOTE "") :: qs)
              = ts ++ tokens_of qs).
  { change (tokens_of (map LexModel.Token ts ++ Skipped (String cQUOTE "") :: qs) = ts ++ tokens_of qs).
    rewrite tokens_of_app, tokens_of_map. reflexivity. }
  rewrite I, J. destruct (illegals_of qs); [destruct e|]; reflexivity.
Qed.

(** ** Where the literal ends, and what it stands for *)

Lemma all_join : forall (P : ascii -> Prop) ss, all_chars P (join "" ss) -> Forall (all_chars P) ss.
Proof.
  induction ss; intros A; [constructor|]. unfold join in A. rewrite concat_cons in A.
  apply all_chars_app in A. destruct A as [A B]. constructor; [exact A|now apply IHss].
Qed.

Lemma quiet_plain : forall s, quiet s -> forallb plain_char (list_ascii_of_string s) = true.
Proof.
  intros s Q. refine (chars_forallb _ _ s _ Q). intros c [A [B C]]. unfold plain_char.
  destruct (Ascii.eqb_spec c c_backslash); [contradiction|].
  destruct (Ascii.eqb_spec c c_return); [contradiction|].
  destruct (Ascii.eqb_spec c c_nul); [contradiction|]. reflexivity.
Qed.

Lemma quiet_parts : forall ps body, join "" (map (fun p => snd (part_tok p)) ps) = body -> quiet body ->
  Forall good (map part_tok ps) -> forallb ok_part ps = true.
Proof.
  intros ps body E Q G. apply parts_ready; [exact G|]. rewrite <- E in Q. apply all_join in Q.
  apply forallb_forall. intros p I. rewrite Forall_forall in Q.
  specialize (Q (snd (part_tok p)) (in_map (fun p => snd (part_tok p)) ps p I)). destruct p; cbn [part_tok snd plain_part] in *.
  - now apply quiet_plain.
  - now apply quiet_plain.
  - reflexivity.
Qed.

Lemma var_field : forall fl x, identifier x = true -> mem x py_keywords = false ->
  py_expression (if fl_vars fl then "vars['" ++ x ++ "']" else x)%string (variable fl x).
Proof.
  intros fl x I K. exists (pt_var fl x). split; [apply lexes_all, lex_var, I|].
  rewrite <- (app_nil_r (pt_var fl x)). apply (lift 7); [lia|lia| |apply stops_end].
  apply read_var; [now apply name_ok|apply stops_end].
Qed.

Lemma formatted_app : forall val a b r s, formatted val a r -> formatted val b s ->
  formatted val (a ++ b) (r ++ s).
Proof.
  intros val a b r s F G. induction F.
  - exact G.
  - cbn [app append]. now constructor.
  - cbn [app]. rewrite PyLexFacts.sapp_assoc. now constructor.
Qed.

Lemma formatted_text : forall val s, formatted val (text_pieces s) s.
Proof. induction s; [constructor|]. cbn. now constructor. Qed.

Lemma formatted_parts : forall fl val ps, Forall good (map part_tok ps) ->
  formatted val (flat_map (part_pieces fl) ps) (parts_value (fun x => val (variable fl x)) ps).
Proof.
  induction ps as [|p ps IH]; intros G; [constructor|]. rewrite parts_value_cons. cbn [flat_map].
  inversion G as [|? ? Gp Gs]; subst. apply formatted_app; [|now apply IH].
  destruct p; cbn [part_pieces part_value].
  - apply formatted_text.
  - apply formatted_text.
  - assert (W : a_word upper_letter v).
    { unfold good in Gp. cbn [part_tok fst snd] in Gp. remember ("[" ++ v ++ "]")%string as w eqn:EW.
      inversion Gp; subst; [match goal with K : keyword _ _ |- _ => inversion K end|].
      match goal with X : ("[" ++ ?u ++ "]")%string = _ |- _ =>
        apply (f_equal ParseModel.inner) in X; rewrite !inner_var in X; now subst v end. }
    rewrite <- (LexFacts.sapp_nil (val (variable fl v))). constructor; [|constructor].
    apply var_field; [now apply upper_identifier|now apply upper_not_keyword].
Qed.

Theorem literal_exact : forall fl body rest st, between_quotes body -> quiet body ->
  exists ps content pieces,
    scan (String cQUOTE (body ++ String cQUOTE rest)) = option_map (app (map part_tok ps)) (scan rest) /\
    resolve_node fl (string_node ps) st = Ok (("f" ++ quote ++ content ++ quote)%string, st) /\
    (forall r, py_lex (("f" ++ quote ++ content ++ quote) ++ r) = option_map (cons (PF content)) (py_lex r)) /\
    fpieces content = Some pieces /\
    forall val, exists value, formatted val pieces value /\ filled (fun x => val (variable fl x)) body value.
Proof.
  intros fl body rest st B Q. destruct (scan_parts body rest B) as [ps [S [G [F J]]]].
  pose proof (quiet_parts ps body J Q G) as OK.
  exists ps, (join "" (map (gen_part fl) ps)), (flat_map (part_pieces fl) ps).
  split; [exact S|]. split; [apply str_gen|]. split; [|split].
  - intros r. exact (lex_str fl ps OK r).
  - now apply fpieces_parts.
  - intros val. exists (parts_value (fun x => val (variable fl x)) ps).
    split; [now apply formatted_parts|apply F].
Qed.

(** Both readings of a text are unique. *)
Lemma formatted_det : forall val ps r r', formatted val ps r -> formatted val ps r' -> r = r'.
Proof.
  intros val ps r r' F. revert r'. induction F; intros r' G; inversion G; subst.
  - reflexivity.
  - f_equal. now apply IHF.
  - f_equal; [|now apply IHF]. f_equal. eapply py_expression_det; eassumption.
Qed.

(** ** A backslash in front of the closing quote *)

Definition no_quote (s : string) : Prop := all_chars (fun c => c <> c_dquote) s.

Lemma close_open : forall n s, String.length s <= n -> no_quote s -> py_close c_dquote s = None.
Proof.
  induction n; intros s L N; (destruct s as [|c s]; [reflexivity|]); cbn [String.length] in L; [lia|].
  apply all_chars_cons in N. destruct N as [C N]. cbn [py_close].
  destruct (Ascii.eqb_spec c c_dquote); [contradiction|].
  destruct (_ || _); [reflexivity|]. rewrite (IHn s) by (lia || exact N).
  destruct (Ascii.eqb c c_backslash); [|reflexivity]. destruct s as [|d s]; [reflexivity|].
  cbn [String.length] in L. apply all_chars_cons in N. rewrite (IHn s) by (lia || exact (proj2 N)). reflexivity.
Qed.

Lemma close_backslash : forall s r, string_chars c_dquote s = true -> no_quote r ->
  py_close c_dquote (s ++ String c_backslash (String c_dquote r)) = None.
Proof.
  induction s as [|c s]; intros r K N.
  - cbn [append]. cbn [py_close]. rewrite (close_open (String.length r) r (le_n _) N). reflexivity.
  - unfold string_chars in K. cbn [list_ascii_of_string forallb] in K. apply andb_true_iff in K. destruct K as [K1 K2].
    cbn [append py_close]. apply negb_true_iff in K1. apply orb_false_iff in K1. destruct K1 as [K1 Kb].
    apply orb_false_iff in K1. destruct K1 as [K1 Kn]. apply orb_false_iff in K1. destruct K1 as [K1 Kr].
    apply orb_false_iff in K1. destruct K1 as [Kq Kl]. rewrite Kq, Kl, Kr, Kn, Kb. cbn [orb].
    rewrite (IHs r K2 N). reflexivity.
Qed.

Lemma double_app : forall c a b, double_char c (a ++ b) = (double_char c a ++ double_char c b)%string.
Proof. induction a; intros b; [reflexivity|]. cbn. rewrite IHa. now destruct (Ascii.eqb c a). Qed.

Lemma scan_any : forall body rest, a_word string_char body ->
  scan (String cQUOTE (body ++ String cQUOTE rest)) = option_map (cons (part_tok (PAny body))) (scan rest).
Proof.
  intros body rest [N A]. 
  assert (E : lex_step Instring (body ++ String cQUOTE rest)
     = Some (LexModel.Token (tINSTRING_ANY, body), Instring, String cQUOTE rest)).
  { destruct body as [|c b]; [congruence|]. pose proof A as A'. apply all_chars_cons in A'. destruct A' as [[C1 [C2 C3]] A2].
    assert (E : m_plus is_body ((String c b) ++ String cQUOTE rest)%string = Some (String c b, String cQUOTE rest)).
    { apply m_plus_app; [discriminate| |].
      - refine (all_chars_impl _ _ _ _ A). intros x. apply is_body_iff.
      - intros x r X. injection X as <- <-. reflexivity. }
    unfold lex_step. cbn [append]. cbn [ignored]. unfold rules, rules_instring. cbn [first_match].
    cbn [append] in E. rewrite E.
    assert (Q : m_lit (String cQUOTE "") (String c (b ++ String cQUOTE rest))%string = None).
    { cbn [m_lit]. destruct (Ascii.eqb_spec cQUOTE c); [congruence|reflexivity]. }
    rewrite Q. assert (V : m_var (String c (b ++ String cQUOTE rest))%string = None).
    { unfold m_var. destruct (Ascii.eqb_spec c "["); [contradiction|reflexivity]. }
    rewrite V. assert (W : m_nonvar (String c (b ++ String cQUOTE rest))%string = None).
    { unfold m_nonvar. destruct (Ascii.eqb_spec c "["); [contradiction|reflexivity]. }
    rewrite W. reflexivity. }
  unfold scan, lex_ok.
  change (lex (String cQUOTE (body ++ String cQUOTE rest)))
    with (lex_from Initial (String cQUOTE (body ++ String cQUOTE rest))).
  change (lex rest) with (lex_from Initial rest).
  rewrite (lex_from_step _ _ _ _ _ (eq_refl : lex_step Initial (String cQUOTE (body ++ String cQUOTE rest)) =
    Some (Skipped (String cQUOTE ""), Instring, (body ++ String cQUOTE rest)%string))).
  rewrite (lex_from_step _ _ _ _ _ E).
  rewrite (lex_from_step _ _ _ _ _ (eq_refl : lex_step Instring (String cQUOTE rest) =
      Some (Skipped (String cQUOTE ""), Initial, rest))).
  destruct (lex_from Initial rest) as [qs e]. cbn [fst snd].
  change (illegals_of (Skipped (String cQUOTE "") :: LexModel.Token (tINSTRING_ANY, body) :: Skipped (String cQUOTE "") :: qs))
    with (illegals_of qs).
  change (tokens_of (Skipped (String cQUOTE "") :: LexModel.Token (tINSTRING_ANY, body) :: Skipped (String cQUOTE "") :: qs))
    with ((tINSTRING_ANY, body) :: tokens_of qs).
  destruct (illegals_of qs); [destruct e|]; reflexivity.
Qed.

Theorem literal_open : forall fl body rest st, all_chars string_char body -> quiet body ->
  let body' := (body ++ String c_backslash "")%string in
  scan (String cQUOTE (body' ++ String cQUOTE rest)) = option_map (cons (part_tok (PAny body'))) (scan rest) /\
  exists lit, resolve_node fl (string_node [PAny body']) st = Ok (lit, st) /\
    forall r, no_quote r -> py_lex (lit ++ r) = None.
Proof.
  intros fl body rest st A Q body'. split.
  - apply scan_any. split; [unfold body'; now destruct body|].
    apply all_chars_app. split; [exact A|]. apply all_chars_cons. split; [|apply all_chars_nil].
    repeat split; discriminate.
  - exists (gen_str fl [PAny body']). split; [exact (str_gen fl [PAny body'] st)|]. intros r N.
    change (gen_str fl [PAny body'] ++ r)%string with
      (String "f" (String c_dquote ((double_char "}" (double_char "{" body') ++ quote) ++ r))).
    rewrite lex_eq. cbn [lex_one Ascii.eqb Bool.eqb andb].
    change (Ascii.eqb "f" " ") with false. change (Ascii.eqb "f" "#") with false. cbn [lex_one].
    change (py_letter "f") with true. change (Ascii.eqb "f" "f" && Ascii.eqb c_dquote c_dquote) with true. cbn match.
    unfold body'. rewrite !double_app.
    change (double_char "}" (double_char "{" (String c_backslash ""))) with (String c_backslash "").
    rewrite !PyLexFacts.sapp_assoc.
    change (String c_backslash "" ++ quote ++ r)%string with (String c_backslash (String c_dquote r)).
    rewrite close_backslash; [reflexivity| |exact N].
    apply double_sc, double_sc. apply body_plain; [exact A|now apply quiet_plain].
Qed.

(** ** Comments end the line *)

Lemma span_more : forall p s a b r, span p s = (a, b) ->
  match r with EmptyString => True | String c _ => p c = false end ->
  span p (s ++ r)%string = (a, b ++ r)%string.
Proof.
  induction s as [|c s]; intros a b r E N.
  - cbn in E. injection E as <- <-. cbn [append]. destruct r as [|d r]; [reflexivity|]. cbn [span]. now rewrite N.
  - cbn [append span] in *. destruct (p c).
    + destruct (span p s) as [x y] eqn:F. injection E as <- <-. now rewrite (IHs x y r eq_refl N).
    + injection E as <- <-. reflexivity.
Qed.

Lemma close_more : forall q n s a b r, String.length s <= n -> py_close q s = Some (a, b) ->
  py_close q (s ++ r)%string = Some (a, b ++ r)%string.
Proof.
  induction n; intros s a b r L E; (destruct s as [|c s]; [discriminate|]); cbn [String.length] in L; [lia|].
  cbn [append py_close] in *. destruct (Ascii.eqb c q).
  - injection E as <- <-. reflexivity.
  - destruct (_ || _); [discriminate|]. destruct (Ascii.eqb c c_backslash).
    + destruct s as [|d s]; [discriminate|]. cbn [append]. cbn [String.length] in L.
      destruct (py_close q s) as [[x y]|] eqn:F; [|discriminate]. injection E as <- <-.
      rewrite (IHn s x y r) by (lia || exact F). reflexivity.
    + destruct (py_close q s) as [[x y]|] eqn:F; [|discriminate]. injection E as <- <-.
      rewrite (IHn s x y r) by (lia || exact F). reflexivity.
Qed.

Lemma lex_op_more : forall c s t b r, lex_op c s = Some (t, b) ->
  lex_op c (s ++ String "#" r)%string = Some (t, b ++ String "#" r)%string.
Proof.
  intros c s t b r E. unfold lex_op in *. destruct s as [|d s].
  - cbn [append]. assert (H : mem (String c (String "#" "")) two_char_ops = false).
    { destruct c as [[] [] [] [] [] [] [] []]; reflexivity. }
    rewrite H. destruct (mem (String c "") one_char_ops); [|discriminate]. now injection E as <- <-.
  - cbn [append]. destruct (mem (String c (String d "")) two_char_ops).
    + now injection E as <- <-.
    + destruct (mem (String c "") one_char_ops); [|discriminate]. now injection E as <- <-.
Qed.

Lemma lex_one_more : forall s t b r, lex_one s = Some (t, b) ->
  lex_one (s ++ String "#" r)%string = Some (t, b ++ String "#" r)%string.
Proof.
  intros s t b r E. destruct s as [|c s]; [discriminate|]. cbn [append]. unfold lex_one in *.
  destruct (py_letter c).
  - assert (W : (let '(w, b) := span py_idchar (String c s) in Some (PN w, b)) = Some (t, b) ->
        (let '(w, b) := span py_idchar (String c (s ++ String "#" r)) in Some (PN w, b)) = Some (t, b ++ String "#" r)%string).
    { intros X. destruct (span py_idchar (String c s)) as [x y] eqn:F. injection X as <- <-.
      change (String c (s ++ String "#" r))%string with (String c s ++ String "#" r)%string.
      now rewrite (span_more py_idchar _ x y _ F). }
    destruct s as [|d s]; cbn [append].
    + change (Ascii.eqb "#" c_dquote) with false. rewrite andb_false_r. apply W. exact E.
    + destruct (Ascii.eqb c "f" && Ascii.eqb d c_dquote).
      * destruct (py_close c_dquote s) as [[x y]|] eqn:F; [|discriminate]. injection E as <- <-.
        now rewrite (close_more _ _ s x y _ (le_n _) F).
      * apply W. exact E.
  - destruct (py_digit c).
    + destruct (span py_digit (String c s)) as [x y] eqn:F.
      change (String c (s ++ String "#" r))%string with (String c s ++ String "#" r)%string.
      rewrite (span_more py_digit _ x y _ F) by reflexivity.
      destruct y as [|d y]; cbn [append].
      * injection E as <- <-. reflexivity.
      * destruct (Ascii.eqb d ".").
        -- destruct (span py_digit y) as [u v] eqn:G. injection E as <- <-.
           now rewrite (span_more py_digit _ u v _ G).
        -- now injection E as <- <-.
    + destruct (Ascii.eqb c c_dquote || Ascii.eqb c c_squote).
      * destruct (py_close c s) as [[x y]|] eqn:F; [|discriminate]. injection E as <- <-.
        now rewrite (close_more _ _ s x y _ (le_n _) F).
      * now apply lex_op_more.
Qed.

Lemma lex_comment : forall n s ts r, String.length s <= n -> py_lex s = Some ts ->
  py_lex (s ++ String "#" r)%string = Some ts.
Proof.
  induction n; intros s ts r L E; (destruct s as [|c s]; [injection E as <-; reflexivity|]);
    cbn [String.length] in L; [lia|].
  cbn [append]. rewrite lex_eq in *. destruct (Ascii.eqb c " ").
  - apply IHn; [lia|exact E].
  - destruct (Ascii.eqb c "#"); [exact E|].
    destruct (lex_one (String c s)) as [[t b]|] eqn:O; [|discriminate].
    pose proof (lex_one_shrinks _ _ _ O) as Sh. cbn [String.length] in Sh.
    apply (lex_one_more _ _ _ r) in O. cbn [append] in O. rewrite O.
    destruct (py_lex b) as [ts'|] eqn:B; [|discriminate]. cbn [option_map] in *.
    rewrite (IHn b ts') by (lia || exact B). exact E.
Qed.
