(** Proofs about how far tokens reach and about blanks and comments. *)
From Coq Require Import String Ascii Bool List Arith Lia.
From Verif Require Import LexModel LexSpec LexFacts ReadSpec.
Import ListNotations.
Open Scope string_scope.

(** ** Tokens outside of strings *)

Lemma digit_classes : forall c, is_digit c = true -> Ascii.eqb c cBACK = false /\ ignored Initial c = false.
Proof.
  intros c. destruct c as [[|] [|] [|] [|] [|] [|] [|] [|]]; intros H;
    try (vm_compute in H; discriminate H); repeat split; reflexivity.
Qed.
Lemma upper_classes : forall c, is_upper_ c = true ->
  Ascii.eqb c cBACK = false /\ ignored Initial c = false /\ is_digit c = false /\ is_lower c = false /\
  Ascii.eqb cQUOTE c = false /\ Ascii.eqb cNL c = false.
Proof.
  intros c. destruct c as [[|] [|] [|] [|] [|] [|] [|] [|]]; intros H;
    try (vm_compute in H; discriminate H); repeat split; reflexivity.
Qed.
Lemma not_class (p : ascii -> bool) (q : ascii -> Prop) r : (forall c, p c = true <-> q c) ->
  (forall c x, r = String c x -> ~ q c) -> forall c x, r = String c x -> p c = false.
Proof. intros I H c x E. destruct (p c) eqn:P; [|reflexivity]. exfalso. apply (H c x E). now apply I. Qed.

Lemma number_step : forall w r, a_word digit w -> (forall c x, r = String c x -> ~ digit c) ->
  lex_step Initial (w ++ r) = Some (Token (tNUMBER, w), Initial, r).
Proof.
  intros w r [Hn Hw] Hr.
  assert (Hw' : all_chars (fun c => is_digit c = true) w)
    by exact (all_chars_impl _ _ _ (fun c => proj2 (is_digit_iff c)) Hw).
  pose proof (m_plus_app is_digit w r Hn Hw' (not_class _ _ _ is_digit_iff Hr)) as M.
  destruct w as [|c w]; [congruence|]. apply all_chars_cons in Hw'. destruct Hw' as [Lc _].
  destruct (digit_classes c Lc) as [B I]. cbn [append] in *. cbn [lex_step]. rewrite I. cbn [rules].
  assert (F : first_match rules_initial (String c (w ++ r)) = Some (String c w, r, Emit (fun _ => tNUMBER))).
  { unfold rules_initial. cbn [first_match]. unfold m_comment at 1. rewrite B. rewrite M. reflexivity. }
  rewrite F. reflexivity.
Qed.
Lemma upper_step : forall w r, a_word upper_letter w -> (forall c x, r = String c x -> ~ upper_letter c) ->
  lex_step Initial (w ++ r) = Some (Token (tUPPERNAME, w), Initial, r).
Proof.
  intros w r [Hn Hw] Hr.
  assert (Hw' : all_chars (fun c => is_upper_ c = true) w)
    by exact (all_chars_impl _ _ _ (fun c => proj2 (is_upper_iff c)) Hw).
  pose proof (m_plus_app is_upper_ w r Hn Hw' (not_class _ _ _ is_upper_iff Hr)) as M.
  destruct w as [|c w]; [congruence|]. apply all_chars_cons in Hw'. destruct Hw' as [Lc _].
  destruct (upper_classes c Lc) as [B [I [D [L [Q N]]]]]. cbn [append] in *. cbn [lex_step]. rewrite I. cbn [rules].
  assert (F : first_match rules_initial (String c (w ++ r)) = Some (String c w, r, Emit (fun _ => tUPPERNAME))).
  { unfold rules_initial. cbn [first_match]. unfold m_comment at 1. rewrite B.
    unfold m_plus at 1. rewrite D. unfold m_plus at 1. rewrite L. cbn [m_lit]. rewrite Q. unfold m_plus at 1. rewrite N.
    rewrite M. reflexivity. }
  rewrite F. reflexivity.
Qed.
Lemma keyword_word s t : keyword s t -> a_word lower_letter s /\ word_type s = t /\ word_token t = true.
Proof.
  assert (W : forall s, s <> "" -> forallb is_lower (chars s) = true -> a_word lower_letter s).
  { intros x N F. split; [exact N|]. unfold all_chars. apply Forall_forall. intros c Hc. rewrite forallb_forall in F. apply is_lower_iff, F, Hc. }
  intro K. destruct K; (split; [apply W; [discriminate|reflexivity]|split; reflexivity]).
Qed.

Lemma token_step t s r : token_text t s -> outside t = true -> ends_there t r ->
  lex_step Initial (s ++ r) = Some (Token (t, s), Initial, r).
Proof.
  intros T O N. unfold ends_there in N.
  destruct T as [ | | | | | | | | | | | | | | | | | | | | | | | |s W|s W| |s t K|s W D K|s W|v W|s W]; try discriminate O; try reflexivity.
  - destruct r as [|c r]; [reflexivity|]. specialize (N c r eq_refl). cbn [longer] in N. cbn [append].
    destruct c as [[|] [|] [|] [|] [|] [|] [|] [|]]; try reflexivity. exfalso. apply N. reflexivity.
  - destruct r as [|c r]; [reflexivity|]. specialize (N c r eq_refl). cbn [longer] in N. cbn [append].
    destruct c as [[|] [|] [|] [|] [|] [|] [|] [|]]; try reflexivity. exfalso. apply N. reflexivity.
  - exact (number_step s r W N).
  - exact (upper_step s r W N).
  - apply (lex_word_step "d" r); [|exact N]. split; [discriminate|]. constructor; [|constructor]. now apply is_lower_iff.
  - destruct (keyword_word s t K) as [A [E _]]. rewrite <- E. apply lex_word_step; [exact A|].
    intros c x Ex L. apply (N c x Ex). destruct K; exact L.
  - assert (E : word_type s = tLOWERNAME).
    { unfold word_type. destruct (String.eqb s "d") eqn:Ed; [apply String.eqb_eq in Ed; contradiction|].
      pose proof (find_reserved s) as F. destruct (find (fun kv => String.eqb (fst kv) s) reserved) as [[k t]|]; [|reflexivity].
      exfalso. exact (K _ F). }
    rewrite <- E. apply lex_word_step; [exact W|exact N].
Qed.
Lemma token_read t s r : token_text t s -> outside t = true -> ends_there t r ->
  scan (s ++ r) = option_map (cons (t, s)) (scan r).
Proof. intros T O N. rewrite (scan_step _ _ _ (token_step t s r T O N)). reflexivity. Qed.

(** ** Pieces of strings *)

Lemma var_none w r : all_chars (fun c => is_body c = true) w -> (forall c x, r = String c x -> is_body c = false) ->
  (forall v x, a_word upper_letter v -> w <> v ++ "]" ++ x) -> m_var ("[" ++ w ++ r) = None.
Proof.
  intros B E N. unfold m_var. cbn [append]. change (Ascii.eqb "[" "[") with true. cbv iota.
  destruct (m_plus is_upper_ (w ++ r)) as [[a [|d r0]]|] eqn:M; try reflexivity.
  destruct (Ascii.eqb d "]") eqn:D; [|reflexivity]. apply Ascii.eqb_eq in D. subst d. exfalso.
  destruct (m_plus_spec _ _ _ _ M) as [H1 [H2 [H3 _]]].
  assert (A : a_word upper_letter a) by (split; [exact H2|]; exact (all_chars_impl _ _ _ (fun c => proj1 (is_upper_iff c)) H3)).
  assert (P : exists x, w = a ++ "]" ++ x).
  { clear M A N H2. revert a H1 H3. induction w as [|c w IH]; intros a H1 H3.
    - destruct a as [|c a]; cbn [append] in H1.
      + pose proof (E _ _ (eq_sym H1)) as K. discriminate K.
      + pose proof (E _ _ (eq_sym H1)) as K. apply all_chars_cons in H3. destruct H3 as [U _]. exfalso. clear -K U.
        destruct c as [[|] [|] [|] [|] [|] [|] [|] [|]]; vm_compute in K, U; discriminate.
    - apply all_chars_cons in B. destruct B as [Bc B]. destruct a as [|c' a]; cbn [append] in H1.
      + injection H1 as H1a H1b. exists w. rewrite <- H1a. reflexivity.
      + injection H1 as H1a H1b. subst c'. apply all_chars_cons in H3. destruct H3 as [_ H3].
        destruct (IH B a H1b H3) as [x Hx]. exists x. rewrite Hx. reflexivity. }
  destruct P as [x Hx]. exact (N a x A Hx).
Qed.

Lemma string_step t s r : writable (t, s) -> outside t = false -> ends_there t r ->
  lex_step Instring (s ++ r) = Some (Token (t, s), Instring, r).
Proof.
  intros [T V] O N. cbn [fst snd] in T, V. unfold ends_there in N.
  destruct T as [ | | | | | | | | | | | | | | | | | | | | | | | |s W|s W| |s t K|s W D K|s W|v W|s W]; try discriminate O.
  - destruct K; discriminate O.
  - destruct W as [W0 W]. assert (W' : all_chars (fun c => is_body c = true) s) by exact (all_chars_impl _ _ _ (fun c => proj2 (is_body_iff c)) W).
    pose proof (m_plus_app is_body s r W0 W' (not_class _ _ _ is_body_iff N)) as M.
    destruct s as [|c s]; [congruence|]. apply all_chars_cons in W'. destruct W' as [B _].
    cbn [append] in *. cbn [lex_step ignored rules].
    assert (F : first_match rules_instring (String c (s ++ r)) = Some (String c s, r, Emit (fun _ => tINSTRING_ANY))).
    { assert (Q : Ascii.eqb cQUOTE c = false /\ Ascii.eqb c "[" = false).
      { clear -B. destruct c as [[|] [|] [|] [|] [|] [|] [|] [|]]; try (vm_compute in B; discriminate B); split; reflexivity. }
      destruct Q as [Q1 Q2]. unfold rules_instring. cbn [first_match m_lit]. rewrite Q1. unfold m_var at 1. rewrite Q2.
      unfold m_nonvar at 1. rewrite Q2. rewrite M. reflexivity. }
    rewrite F. reflexivity.
  - destruct W as [W0 W]. assert (W' : all_chars (fun c => is_upper_ c = true) v) by exact (all_chars_impl _ _ _ (fun c => proj2 (is_upper_iff c)) W).
    assert (M : m_var (("[" ++ v ++ "]") ++ r) = Some ("[" ++ v ++ "]", r)).
    { rewrite !sapp_assoc. unfold m_var. cbn [append]. change (Ascii.eqb "[" "[") with true. cbv iota.
      rewrite (m_plus_app is_upper_ v (String "]" r) W0 W'); [reflexivity|]. intros c x E. injection E as <- _. reflexivity. }
    cbn [append] in *. cbn [lex_step ignored rules].
    assert (F : first_match rules_instring (String "[" ((v ++ "]") ++ r)) = Some (String "[" (v ++ "]"), r, Emit (fun _ => tINSTRING_VAR))).
    { unfold rules_instring. cbn [first_match]. change (m_lit (String cQUOTE "") (String "[" ((v ++ "]") ++ r))) with (@None (string * string)).
      cbv iota. rewrite M. reflexivity. }
    rewrite F. reflexivity.
  - assert (W' : all_chars (fun c => is_body c = true) s) by exact (all_chars_impl _ _ _ (fun c => proj2 (is_body_iff c)) W).
    pose proof (not_class _ _ _ is_body_iff N) as N'.
    assert (M : m_var ("[" ++ s ++ r) = None).
    { apply var_none; [exact W'|exact N'|]. intros v x A E. apply (V eq_refl v x A). rewrite E. reflexivity. }
    pose proof (span_app is_body s r W' N') as P.
    cbn [append] in *. cbn [lex_step ignored rules].
    assert (F : first_match rules_instring (String "[" (s ++ r)) = Some (String "[" s, r, Emit (fun _ => tINSTRING_NONVAR))).
    { unfold rules_instring. cbn [first_match]. change (m_lit (String cQUOTE "") (String "[" (s ++ r))) with (@None (string * string)).
      cbv iota. rewrite M. unfold m_nonvar. change (Ascii.eqb "[" "[") with true. cbv iota. rewrite P. reflexivity. }
    rewrite F. reflexivity.
Qed.

(** ** A token that was read is as long as possible *)

Lemma m_lit_none_two x y c s r : m_lit (String x (String y "")) (String x (String c r)) = None -> s = String c r -> c <> y.
Proof.
  intros H _ E. subst y. cbn [m_lit] in H. rewrite !Ascii.eqb_refl in H. discriminate.
Qed.
Lemma first_lit rs s v r a m0 a0 : first_match ((m0, a0) :: rs) s = Some (v, r, a) ->
  (m0 s = Some (v, r) /\ a0 = a) \/ (m0 s = None /\ first_match rs s = Some (v, r, a)).
Proof. cbn [first_match]. destruct (m0 s) as [[v' r']|]; intro H; [left; injection H as <- <- <-; auto|right; auto]. Qed.

Lemma token_ends s t v st' r : lex_step Initial s = Some (Token (t, v), st', r) -> ends_there t r.
Proof.
  destruct s as [|c s]; cbn [lex_step]; [discriminate|]. destruct (ignored Initial c); [discriminate|]. cbn [rules].
  destruct (first_match rules_initial (String c s)) as [[[v' r'] [f|nx]]|] eqn:F; try discriminate.
  intro E. injection E as Et Ev _ Er. subst v' r'. unfold rules_initial in F.
  apply first_lit in F. destruct F as [[F Ef]|[_ F]]; [discriminate|].
  apply first_lit in F. destruct F as [[F Ef]|[_ F]].
  { injection Ef as <-. subst t. destruct (m_plus_spec _ _ _ _ F) as [_ [_ [_ K]]]. intros x y Ex L. apply is_digit_iff in L. rewrite (K x y Ex) in L. discriminate. }
  apply first_lit in F. destruct F as [[F Ef]|[_ F]].
  { injection Ef as <-. destruct (m_plus_spec _ _ _ _ F) as [_ [_ [_ K]]]. intros x y Ex L.
    assert (L' : is_lower x = true).
    { apply is_lower_iff. subst t. unfold word_type in L. destruct (String.eqb v "d"); [exact L|].
      pose proof (find_reserved v) as R. destruct (find (fun kv => String.eqb (fst kv) v) reserved) as [[k t]|]; [destruct R; exact L|exact L]. }
    rewrite (K x y Ex) in L'. discriminate. }
  apply first_lit in F. destruct F as [[F Ef]|[_ F]]; [discriminate|].
  apply first_lit in F. destruct F as [[F Ef]|[_ F]]; [discriminate|].
  apply first_lit in F. destruct F as [[F Ef]|[_ F]].
  { injection Ef as <-. subst t. destruct (m_plus_spec _ _ _ _ F) as [_ [_ [_ K]]]. intros x y Ex L. apply is_upper_iff in L. rewrite (K x y Ex) in L. discriminate. }
  unfold lit in F.
  apply first_lit in F. destruct F as [[F Ef]|[Nd F]]; [injection Ef as <-; subst t; intros x y _ L; exact L|].
  do 3 (apply first_lit in F; destruct F as [[F Ef]|[_ F]]; [injection Ef as <-; subst t; intros x y _ L; exact L|]).
  apply first_lit in F. destruct F as [[F Ef]|[Ne F]]; [injection Ef as <-; subst t; intros x y _ L; exact L|].
  do 3 (apply first_lit in F; destruct F as [[F Ef]|[_ F]]; [injection Ef as <-; subst t; intros x y _ L; exact L|]).
  apply first_lit in F. destruct F as [[F Ef]|[_ F]].
  { injection Ef as <-. subst t. destruct (m_lit_spec _ _ _ _ F) as [-> Es]. cbn [append] in Es. injection Es as <- <-.
    intros x y -> L. cbn [longer] in L. subst x. discriminate Nd. }
  do 13 (apply first_lit in F; destruct F as [[F Ef]|[_ F]]; [injection Ef as <-; subst t; intros x y _ L; exact L|]).
  apply first_lit in F. destruct F as [[F Ef]|[_ F]].
  { injection Ef as <-. subst t. destruct (m_lit_spec _ _ _ _ F) as [-> Es]. cbn [append] in Es. injection Es as <- <-.
    intros x y -> L. cbn [longer] in L. subst x. discriminate Ne. }
  apply first_lit in F. destruct F as [[F Ef]|[_ F]]; [injection Ef as <-; subst t; intros x y _ L; exact L|]. discriminate F.
Qed.

Lemma string_ends s t v st' r : lex_step Instring s = Some (Token (t, v), st', r) ->
  st' = Instring /\ writable (t, v) /\ outside t = false /\ ends_there t r.
Proof.
  intro E. pose proof (lex_step_spec _ _ _ _ _ E) as [_ [_ T]]. cbn [piece_ok] in T. revert E.
  destruct s as [|c s]; cbn [lex_step]; [discriminate|]. cbn [ignored rules].
  destruct (first_match rules_instring (String c s)) as [[[v' r'] [f|nx]]|] eqn:F; try discriminate.
  intro E. injection E as Et Ev <- Er. subst v' r'. split; [reflexivity|]. unfold rules_instring in F.
  apply first_lit in F. destruct F as [[F Ef]|[_ F]]; [discriminate|].
  apply first_lit in F. destruct F as [[F Ef]|[Nv F]].
  { injection Ef as <-. subst t. split; [split; [exact T|discriminate]|]. split; [reflexivity|]. intros x y _ L. exact L. }
  apply first_lit in F. destruct F as [[F Ef]|[_ F]].
  { injection Ef as <-. subst t. unfold m_nonvar in F. destruct (Ascii.eqb c "[") eqn:Ec; [|discriminate]. apply Ascii.eqb_eq in Ec. subst c.
    destruct (span is_body s) as [a b] eqn:Es. injection F as <- <-. destruct (span_spec _ _ _ _ Es) as [H1 [H2 H3]].
    split; [split; [exact T|]|].
    - cbn [fst snd]. intros _ v x [A0 A] Ea. cbn [append] in Ea. injection Ea as Ea.
      assert (M : m_var (String "[" s) = Some (String "[" (v ++ "]"), x ++ b)).
      { unfold m_var. change (Ascii.eqb "[" "[") with true. cbv iota. rewrite <- H1, Ea, !sapp_assoc. cbn [append].
        rewrite (m_plus_app is_upper_ v (String "]" (x ++ b)) A0); [reflexivity| |intros d y E; injection E as <- _; reflexivity].
        exact (all_chars_impl _ _ _ (fun c => proj2 (is_upper_iff c)) A). }
      rewrite M in Nv. discriminate.
    - split; [reflexivity|]. intros x y Ex L. apply is_body_iff in L. rewrite (H3 x y Ex) in L. discriminate. }
  apply first_lit in F. destruct F as [[F Ef]|[_ F]]; [|discriminate].
  injection Ef as <-. subst t. split; [split; [exact T|discriminate]|]. split; [reflexivity|].
  destruct (m_plus_spec _ _ _ _ F) as [_ [_ [_ K]]]. intros x y Ex L. apply is_body_iff in L. rewrite (K x y Ex) in L. discriminate.
Qed.

(** ** Reading from a state on *)

Definition scan_from (st : lstate) (s : string) : option (list tok) :=
  let '(ps, e) := lex_from st s in
  match illegals_of ps, e with [], Initial => Some (tokens_of ps) | _, _ => None end.
Lemma scan_is s : scan s = scan_from Initial s.
Proof.
  unfold scan, lex_ok, scan_from. change (lex s) with (lex_from Initial s). destruct (lex_from Initial s) as [ps e]. cbn [fst].
  destruct (illegals_of ps), e; reflexivity.
Qed.
Lemma scan_from_step st s p st' r : lex_step st s = Some (p, st', r) ->
  scan_from st s = match p with Token t => option_map (cons t) (scan_from st' r) | Skipped _ => scan_from st' r | Illegal _ => None end.
Proof.
  intro E. unfold scan_from. rewrite (lex_from_step _ _ _ _ _ E). destruct (lex_from st' r) as [ps e]. cbn [fst snd].
  destruct p as [t|v|c]; unfold illegals_of, tokens_of; cbn [flat_map app].
  - destruct (flat_map _ ps); [destruct e; reflexivity|reflexivity].
  - reflexivity.
  - reflexivity.
Qed.

(** ** Blanks and comments *)

Lemma space_read c r : c = " "%char \/ c = cTAB -> scan_from Initial (String c r) = scan_from Initial r.
Proof.
  intros [-> | ->].
  - exact (scan_from_step Initial (String " " r) (Skipped " ") Initial r eq_refl).
  - exact (scan_from_step Initial (String cTAB r) (Skipped (String cTAB "")) Initial r eq_refl).
Qed.
Lemma newlines_step v r : a_word (fun c => c = cNL) v -> (forall c x, r = String c x -> c <> cNL) ->
  lex_step Initial (v ++ r) = Some (Skipped v, Initial, r).
Proof.
  intros [V0 V] N. assert (V' : all_chars (fun c => Ascii.eqb cNL c = true) v).
  { apply (all_chars_impl _ _ _ (fun c (E : c = cNL) => eq_trans (f_equal (Ascii.eqb cNL) E) (Ascii.eqb_refl cNL)) V). }
  assert (M : m_plus (Ascii.eqb cNL) (v ++ r) = Some (v, r)).
  { apply m_plus_app; [exact V0|exact V'|]. intros c x E. destruct (Ascii.eqb cNL c) eqn:C; [|reflexivity]. apply Ascii.eqb_eq in C.
    exfalso. apply (N c x E). congruence. }
  destruct v as [|c v]; [congruence|]. inversion V as [|? ? Vc _]. subst c. cbn [append] in *. cbn [lex_step].
  change (ignored Initial cNL) with false. cbv iota. cbn [rules].
  assert (F : first_match rules_initial (String cNL (v ++ r)) = Some (String cNL v, r, Drop None)).
  { unfold rules_initial. cbn [first_match]. change (m_comment (String cNL (v ++ r))) with (@None (string * string)).
    change (m_plus is_digit (String cNL (v ++ r))) with (@None (string * string)).
    change (m_plus is_lower (String cNL (v ++ r))) with (@None (string * string)).
    change (m_lit (String cQUOTE "") (String cNL (v ++ r))) with (@None (string * string)). cbv iota. rewrite M. reflexivity. }
  rewrite F. reflexivity.
Qed.
Lemma split_newlines s : exists v r, s = v ++ r /\ all_chars (fun c => c = cNL) v /\ (forall c x, r = String c x -> c <> cNL).
Proof.
  destruct (span (Ascii.eqb cNL) s) as [v r] eqn:E. destruct (span_spec _ _ _ _ E) as [H1 [H2 H3]]. exists v, r.
  split; [congruence|]. split.
  - apply (all_chars_impl _ _ _ (fun c (H : Ascii.eqb cNL c = true) => eq_sym (proj1 (Ascii.eqb_eq cNL c) H)) H2).
  - intros c x Ex Ec. subst c. specialize (H3 _ _ Ex). rewrite Ascii.eqb_refl in H3. discriminate.
Qed.
Lemma newlines_read v : all_chars (fun c => c = cNL) v -> forall s, scan_from Initial (v ++ s) = scan_from Initial s.
Proof.
  intros V s. destruct (split_newlines s) as [v' [r [-> [V' N]]]]. rewrite <- sapp_assoc.
  assert (X : forall u, all_chars (fun c => c = cNL) u -> scan_from Initial (u ++ r) = scan_from Initial r).
  { intros [|c u] U; [reflexivity|]. 
    assert (W : a_word (fun c => c = cNL) (String c u)) by (split; [discriminate|exact U]).
    pose proof (newlines_step (String c u) r W N) as St. exact (scan_from_step _ _ _ _ _ St). }
  rewrite (X (v ++ v')), (X v'); [reflexivity|exact V'|]. now apply all_chars_app.
Qed.
Lemma comment_step s r : all_chars (fun c => c <> cBACK) s ->
  lex_step Initial (String cBACK (s ++ String cBACK "") ++ r) = Some (Skipped (String cBACK (s ++ String cBACK "")), Initial, r).
Proof.
  intro H. assert (E : (String cBACK (s ++ String cBACK "") ++ r = String cBACK (s ++ String cBACK r))%string).
  { cbn [append]. rewrite sapp_assoc. reflexivity. }
  rewrite E. cbn [lex_step]. change (ignored Initial cBACK) with false. cbv iota. cbn [rules].
  assert (F : first_match rules_initial (String cBACK (s ++ String cBACK r)) = Some (String cBACK (s ++ String cBACK ""), r, Drop None)).
  { unfold rules_initial. cbn [first_match]. unfold m_comment at 1. rewrite Ascii.eqb_refl, (through_app _ _ _ H). reflexivity. }
  rewrite F. reflexivity.
Qed.
Lemma layout_read g : layout g -> forall r, scan_from Initial (g ++ r) = scan_from Initial r.
Proof.
  induction 1 as [ | | |s H|a b _ IHa _ IHb]; intro r.
  - apply space_read. now left.
  - apply space_read. now right.
  - apply (newlines_read (String cNL "")). constructor; [reflexivity|constructor].
  - rewrite (scan_from_step _ _ _ _ _ (comment_step s r H)). reflexivity.
  - rewrite sapp_assoc, IHa, IHb. reflexivity.
Qed.

(** The first character of blanks and comments belongs to no token. *)
Lemma layout_first g : layout g -> exists c x, g = String c x /\ forall t, outside t = true -> ~ longer t c.
Proof.
  assert (X : forall c, c = " "%char \/ c = cTAB \/ c = cNL \/ c = cBACK -> forall t, outside t = true -> ~ longer t c).
  { intros c Hc t O L. assert (C : is_digit c = false /\ is_lower c = false /\ is_upper_ c = false /\ c <> "."%char /\ c <> "="%char).
    { destruct Hc as [-> |[-> |[-> | ->]]]; repeat split; discriminate. }
    destruct C as [C1 [C2 [C3 [C4 C5]]]].
    destruct t; cbn [longer] in L; try exact L; try discriminate O;
      try (apply is_digit_iff in L; congruence); try (apply is_lower_iff in L; congruence); try (apply is_upper_iff in L; congruence); congruence. }
  induction 1 as [ | | |s H|a b _ IHa _ _].
  - exists " "%char, "". split; [reflexivity|]. apply X. auto.
  - exists cTAB, "". split; [reflexivity|]. apply X. auto.
  - exists cNL, "". split; [reflexivity|]. apply X. auto.
  - eexists cBACK, _. split; [reflexivity|]. apply X. auto.
  - destruct IHa as [c [x [-> H]]]. exists c, (x ++ b). split; [reflexivity|exact H].
Qed.
Lemma ends_app t r g b : ends_there t r -> layout g -> outside t = true -> ends_there t (r ++ g ++ b).
Proof.
  intros E L O c x Ex. destruct r as [|d r].
  - destruct (layout_first g L) as [c' [x' [-> H]]]. cbn [append] in Ex. injection Ex as <- _. exact (H t O).
  - cbn [append] in Ex. injection Ex as <- _. exact (E d r eq_refl).
Qed.
Lemma ends_string t r g : r <> "" -> ends_there t r -> ends_there t (r ++ g).
Proof. intros N E c x Ex. destruct r as [|d r]; [congruence|]. cbn [append] in Ex. injection Ex as <- _. exact (E d r eq_refl). Qed.

Theorem gap_read g : layout g -> forall n st a b ta, String.length a <= n -> scan_from st a = Some ta ->
  scan_from st (a ++ g ++ b) = option_map (app ta) (scan_from Initial b).
Proof.
  intros L. induction n as [|n IH]; intros st a b ta Ln E.
  { destruct a; [|cbn in Ln; lia]. destruct st; [|discriminate E]. injection E as <-. cbn [append]. rewrite (layout_read g L). destruct (scan_from Initial b); reflexivity. }
  destruct (lex_step st a) as [[[p st'] r]|] eqn:S.
  2: { apply lex_step_none in S. subst a. destruct st; [|discriminate E]. injection E as <-. cbn [append]. rewrite (layout_read g L). destruct (scan_from Initial b); reflexivity. }
  pose proof (lex_step_shorter _ _ _ _ _ S) as Sh. pose proof (lex_step_spec _ _ _ _ _ S) as [Sa [Sn Sk]].
  rewrite (scan_from_step _ _ _ _ _ S) in E. destruct p as [[t v]|v|c]; [| |discriminate].
  - destruct (scan_from st' r) as [tr|] eqn:Er; [|discriminate]. injection E as <-. cbn [piece_text piece_ok] in Sa, Sk.
    assert (St : lex_step st (a ++ g ++ b) = Some (Token (t, v), st', r ++ g ++ b)).
    { rewrite <- Sa, sapp_assoc. destruct st.
      - assert (O : outside t = true /\ st' = Initial).
        { pose proof (lex_step_spec _ _ _ _ _ S) as _. destruct st'.
          - split; [|reflexivity]. destruct (outside t) eqn:O; [reflexivity|]. exfalso. apply (step_to_initial _ _ _ _ _ S).
            destruct t; try discriminate O; auto.
          - exfalso. clear -S. destruct a as [|c s]; cbn [lex_step] in S; [discriminate|]. destruct (ignored Initial c); [discriminate|].
            destruct (first_match (rules Initial) (String c s)) as [[[v' r'] [f|nx]]|]; discriminate. }
        destruct O as [O ->]. apply token_step; [exact Sk|exact O|]. apply ends_app; [exact (token_ends _ _ _ _ _ S)|exact L|exact O].
      - destruct (string_ends _ _ _ _ _ S) as [-> [W [O N]]]. apply string_step; [exact W|exact O|]. apply ends_string; [|exact N].
        intros ->. discriminate Er. }
    rewrite (scan_from_step _ _ _ _ _ St). rewrite (IH st' r b tr); [|lia|exact Er]. destruct (scan_from Initial b); reflexivity.
  - cbn [piece_text piece_ok] in Sa, Sk.
    assert (St : scan_from st (a ++ g ++ b) = scan_from st' (r ++ g ++ b)).
    { rewrite <- Sa, sapp_assoc. destruct st.
      - destruct Sk as [ | |v V|s C|].
        + assert (st' = Initial) as -> by (rewrite <- Sa in S; cbn in S; injection S as <-; reflexivity). apply space_read. now left.
        + assert (st' = Initial) as -> by (rewrite <- Sa in S; cbn in S; injection S as <-; reflexivity). apply space_read. now right.
        + assert (st' = Initial) as ->.
          { rewrite <- Sa in S. destruct (split_newlines (v ++ r)) as [v' [r' [E' [V' N']]]]. rewrite E' in S.
            assert (V0 : v' <> "").
            { intros ->. destruct V as [V0 V]. destruct v as [|c v]; [congruence|]. cbn [append] in E'. inversion V as [|? ? Vc _]. exact (N' _ _ (eq_sym E') Vc). }
            rewrite (newlines_step v' r' (conj V0 V') N') in S. injection S as _ <- _. reflexivity. }
          apply newlines_read. apply V.
        + assert (st' = Initial) as -> by (rewrite <- Sa, (comment_step s r C) in S; injection S as <-; reflexivity).
          rewrite (scan_from_step _ _ _ _ _ (comment_step s (r ++ g ++ b) C)). reflexivity.
        + assert (st' = Instring) as -> by (rewrite <- Sa in S; cbn in S; injection S as <-; reflexivity).
          apply (scan_from_step Initial (String cQUOTE (r ++ g ++ b)) (Skipped (String cQUOTE "")) Instring). reflexivity.
      - assert (Q : v = String cQUOTE "" /\ st' = Initial).
        { clear -S. destruct a as [|c s]; cbn [lex_step] in S; [discriminate|]. cbn [ignored rules] in S.
          destruct (first_match rules_instring (String c s)) as [[[v' r'] [f|nx]]|] eqn:F; try discriminate. injection S as <- <- <-.
          unfold rules_instring in F. apply first_lit in F. destruct F as [[F Ef]|[_ F]].
          { injection Ef as <-. destruct (m_lit_spec _ _ _ _ F) as [-> _]. auto. }
          do 3 (apply first_lit in F; destruct F as [[F Ef]|[_ F]]; [discriminate|]). discriminate F. }
        destruct Q as [-> ->]. apply (scan_from_step Instring (String cQUOTE (r ++ g ++ b)) (Skipped (String cQUOTE "")) Initial). reflexivity. }
    rewrite St. exact (IH st' r b ta ltac:(lia) E).
Qed.
Theorem scan_gap a g b ta : layout g -> scan a = Some ta -> scan (a ++ g ++ b) = option_map (app ta) (scan b).
Proof. intros L E. rewrite scan_is in *. rewrite (scan_is b). exact (gap_read g L _ Initial a b ta (le_n _) E). Qed.

(** ** Writing *)

Lemma space_layout : layout " ". Proof. constructor. Qed.
Lemma write_read t r : writable t -> scan (write t ++ " " ++ r) = option_map (cons t) (scan r).
Proof.
  intro W. unfold write. destruct t as [t s]. cbn [fst snd]. destruct (outside t) eqn:O.
  - rewrite (token_read t s (" " ++ r)); [|apply W|exact O|].
    + rewrite !scan_is, (layout_read " " space_layout). reflexivity.
    + apply (ends_app t "" " " r); [intros c x E; discriminate E|constructor|exact O].
  - rewrite !scan_is. unfold quoted. cbn [append].
    transitivity (scan_from Instring ((s ++ String cQUOTE "") ++ " " ++ r)).
    { exact (scan_from_step Initial (String cQUOTE ((s ++ String cQUOTE "") ++ " " ++ r)) (Skipped (String cQUOTE "")) Instring _ eq_refl). }
    rewrite sapp_assoc. cbn [append].
    assert (N : ends_there t (String cQUOTE (String " " r))).
    { intros c x E. injection E as <- _. intro K. destruct W as [W _]. cbn [fst snd] in W.
      destruct t; try discriminate O; cbn [longer] in K; try exact K; destruct K as [_ [K _]]; apply K; reflexivity. }
    rewrite (scan_from_step _ _ _ _ _ (string_step t s _ W O N)).
    rewrite (scan_from_step Instring (String cQUOTE (String " " r)) (Skipped (String cQUOTE "")) Initial (String " " r) eq_refl).
    rewrite (space_read " " r (or_introl eq_refl)). reflexivity.
Qed.
Theorem written_read ts : Forall writable ts -> scan (written ts) = Some ts.
Proof. induction 1 as [|t ts W _ IH]; [reflexivity|]. cbn [written]. rewrite (write_read t _ W), IH. reflexivity. Qed.
Lemma scan_writable_from n st s ts : String.length s <= n -> scan_from st s = Some ts -> Forall writable ts.
Proof.
  revert st s ts. induction n as [|n IH]; intros st s ts Ln E.
  { destruct s; [|cbn in Ln; lia]. destruct st; [|discriminate E]. injection E as <-. constructor. }
  destruct (lex_step st s) as [[[p st'] r]|] eqn:S.
  2: { apply lex_step_none in S. subst s. destruct st; [|discriminate E]. injection E as <-. constructor. }
  pose proof (lex_step_shorter _ _ _ _ _ S) as Sh. pose proof (lex_step_spec _ _ _ _ _ S) as [_ [_ Sk]].
  rewrite (scan_from_step _ _ _ _ _ S) in E. destruct p as [[t v]|v|c]; [| |discriminate].
  - destruct (scan_from st' r) as [tr|] eqn:Er; [|discriminate]. injection E as <-. constructor; [|exact (IH st' r tr ltac:(lia) Er)].
    destruct st.
    + split; [exact Sk|]. cbn [fst snd]. intros -> v0 x _ _. destruct st'.
      * apply (step_to_initial _ _ _ _ _ S). auto.
      * clear -S. destruct s as [|c s]; cbn [lex_step] in S; [discriminate|]. destruct (ignored Initial c); [discriminate|].
        destruct (first_match (rules Initial) (String c s)) as [[[v' r'] [f|nx]]|]; discriminate.
    + apply (string_ends _ _ _ _ _ S).
  - exact (IH st' r ts ltac:(lia) E).
Qed.
Theorem scan_writable s ts : scan s = Some ts -> Forall writable ts.
Proof. rewrite scan_is. apply (scan_writable_from _ _ _ _ (le_n _)). Qed.

(** ** Every token of a text reaches as far as possible *)

Lemma pieces_longest a : forall st s t w b, fst (lex_from st s) = (a ++ Token (t, w) :: b)%list ->
  token_text t w /\ ends_there t (whole_text b).
Proof.
  induction a as [|p a IH]; intros st s t w b E.
  - destruct (lex_step st s) as [[[q st'] r]|] eqn:S.
    + rewrite (lex_from_step _ _ _ _ _ S) in E. cbn [fst app] in E. injection E as -> <-.
      pose proof (lex_step_spec _ _ _ _ _ S) as [_ [_ Sk]]. split; [exact Sk|].
      pose proof (lex_loop_spec (String.length r) st' r _ _ (le_n _) (surjective_pairing _)) as [Hw _].
      fold (lex_from st' r) in Hw. rewrite Hw. destruct st; [exact (token_ends _ _ _ _ _ S)|apply (string_ends _ _ _ _ _ S)].
    + apply lex_step_none in S. subst s. discriminate E.
  - destruct (lex_step st s) as [[[q st'] r]|] eqn:S.
    + rewrite (lex_from_step _ _ _ _ _ S) in E. cbn [fst app] in E. injection E as _ E. exact (IH _ _ _ _ _ E).
    + apply lex_step_none in S. subst s. discriminate E.
Qed.

(** ** Programs *)
From Verif Require Import PyBase GramModel ParseModel ResolveModel.

Lemma blank_reads_nothing n : forall s, String.length s <= n -> is_blank s = true -> scan_from Initial s = Some [] \/ scan_from Initial s = None.
Proof.
  induction n as [|n IH]; intros s Ln B; [destruct s; [left; reflexivity|cbn in Ln; lia]|].
  destruct (lex_step Initial s) as [[[p st'] r]|] eqn:S; [|apply lex_step_none in S; subst s; left; reflexivity].
  pose proof (lex_step_shorter _ _ _ _ _ S) as Sh. pose proof (lex_step_spec _ _ _ _ _ S) as [Sa [Sn Sk]].
  rewrite (scan_from_step _ _ _ _ _ S).
  assert (X : forall u x, is_blank (u ++ x) = true -> is_blank x = true).
  { induction u as [|c u IHu]; intros x H; [exact H|]. cbn [append is_blank] in H. apply andb_prop in H. apply IHu, H. }
  destruct s as [|c s]; [discriminate S|]. cbn [is_blank] in B. apply andb_prop in B. destruct B as [Bc B].
  assert (C : c = " "%char \/ c = cTAB \/ c = cNL \/ lex_step Initial (String c s) = Some (Illegal c, Initial, s)).
  { clear -Bc. destruct c as [[|] [|] [|] [|] [|] [|] [|] [|]]; try (vm_compute in Bc; discriminate Bc);
      first [left; reflexivity | right; left; reflexivity | right; right; left; reflexivity | right; right; right; reflexivity]. }
  assert (R : is_blank r = true).
  { apply (X (piece_text p)). rewrite Sa. cbn [is_blank]. rewrite Bc, B. reflexivity. }
  destruct C as [-> |[-> |[-> |C]]].
  - cbn in S. injection S as <- <- <-. apply IH; [cbn in Ln; lia|exact R].
  - cbn in S. injection S as <- <- <-. apply IH; [cbn in Ln; lia|exact R].
  - destruct (split_newlines (String cNL s)) as [v [r' [E [V N]]]]. rewrite E in S.
    assert (V0 : v <> "") by (intros ->; cbn [append] in E; exact (N _ _ (eq_sym E) eq_refl)).
    rewrite (newlines_step v r' (conj V0 V) N) in S. injection S as <- <- <-. apply IH; [lia|exact R].
  - rewrite C in S. injection S as <- <- <-. right. reflexivity.
Qed.
Definition compile_tokens (fl : flags) (o : option (list tok)) : res string :=
  match o with
  | None => Err AssertErr
  | Some ts => v <- parse ts ;; match v with VNode n => resolve fl n | _ => Err AssertErr end
  end.
Lemma nothing_refused fl : compile_tokens fl (Some []) = Err AssertErr.
Proof. cbn [compile_tokens]. change (parse []) with (Ok (VNode (Node MULTILINE_CODE []))). cbn [bind]. destruct fl as [v o x c]. destruct v, c; reflexivity. Qed.
Theorem compile_scan fl src : compile fl src = compile_tokens fl (scan src).
Proof.
  unfold compile. destruct (is_blank src) eqn:B; [|reflexivity]. rewrite scan_is.
  destruct (blank_reads_nothing _ src (le_n _) B) as [-> | ->]; [rewrite nothing_refused; reflexivity|reflexivity].
Qed.
Theorem layout_irrelevant fl a g h b ta : scan a = Some ta -> layout g -> layout h -> compile fl (a ++ g ++ b) = compile fl (a ++ h ++ b).
Proof. intros E G H. rewrite !compile_scan, (scan_gap a g b ta G E), (scan_gap a h b ta H E). reflexivity. Qed.
