(** Proofs about the lexer of LexModel.v. *)
From Coq Require Import String Ascii Bool List Arith Lia.
From Verif Require Import LexModel LexSpec.
Import ListNotations.
Open Scope string_scope.

(** ** Strings *)

Lemma sapp_assoc : forall a b c, (a ++ b) ++ c = a ++ (b ++ c).
Proof. induction a; simpl; intros; [reflexivity|]. now rewrite IHa. Qed.

Lemma sapp_nil : forall a, a ++ "" = a.
Proof. induction a; simpl; [reflexivity|]. now rewrite IHa. Qed.

Lemma slen_app : forall a b, String.length (a ++ b) = String.length a + String.length b.
Proof. induction a; simpl; intros; [reflexivity|]. now rewrite IHa. Qed.

Lemma chars_app : forall a b, chars (a ++ b) = (chars a ++ chars b)%list.
Proof. unfold chars. induction a; simpl; intros; [reflexivity|]. now rewrite IHa. Qed.

Lemma all_chars_cons : forall p c s, all_chars p (String c s) <-> p c /\ all_chars p s.
Proof.
  unfold all_chars, chars. cbn [list_ascii_of_string]. intros. split.
  - intros H. inversion H; subst. now split.
  - intros [H1 H2]. now constructor.
Qed.

Lemma all_chars_nil : forall p, all_chars p "".
Proof. intros. constructor. Qed.

Lemma all_chars_app : forall p a b, all_chars p (a ++ b) <-> all_chars p a /\ all_chars p b.
Proof. intros. unfold all_chars. rewrite chars_app. apply Forall_app. Qed.

Lemma concat_cons : forall a l, String.concat "" (a :: l) = a ++ String.concat "" l.
Proof. intros. destruct l; simpl; [now rewrite sapp_nil|reflexivity]. Qed.

Lemma whole_cons : forall p ps, whole_text (p :: ps) = piece_text p ++ whole_text ps.
Proof. intros. unfold whole_text. cbn [map]. apply concat_cons. Qed.

Lemma whole_app : forall a b, whole_text (a ++ b) = whole_text a ++ whole_text b.
Proof.
  induction a; intros; [reflexivity|]. cbn [app]. rewrite !whole_cons, IHa.
  symmetry. apply sapp_assoc.
Qed.

(** ** Character classes *)

Lemma is_lower_iff : forall c, is_lower c = true <-> lower_letter c.
Proof.
  intros. unfold lower_letter, chars. split; intros H.
  - destruct c as [[|] [|] [|] [|] [|] [|] [|] [|]];
      try (vm_compute in H; discriminate H); vm_compute; tauto.
  - cbn [list_ascii_of_string] in H. repeat (destruct H as [<-|H]; [reflexivity|]). destruct H.
Qed.

Lemma is_upper_iff : forall c, is_upper_ c = true <-> upper_letter c.
Proof.
  intros. unfold upper_letter, chars. split; intros H.
  - destruct c as [[|] [|] [|] [|] [|] [|] [|] [|]];
      try (vm_compute in H; discriminate H); vm_compute; tauto.
  - cbn [list_ascii_of_string] in H. repeat (destruct H as [<-|H]; [reflexivity|]). destruct H.
Qed.

Lemma is_digit_iff : forall c, is_digit c = true <-> digit c.
Proof.
  intros. unfold digit, chars. split; intros H.
  - destruct c as [[|] [|] [|] [|] [|] [|] [|] [|]];
      try (vm_compute in H; discriminate H); vm_compute; tauto.
  - cbn [list_ascii_of_string] in H. repeat (destruct H as [<-|H]; [reflexivity|]). destruct H.
Qed.

Lemma is_body_iff : forall c, is_body c = true <-> string_char c.
Proof.
  intros. unfold is_body, string_char.
  destruct (Ascii.eqb_spec c cNL), (Ascii.eqb_spec c cQUOTE), (Ascii.eqb_spec c "[");
    cbn [orb negb]; split; intros H; try discriminate H; try reflexivity; try tauto.
Qed.

(** ** Matchers *)

Lemma span_spec : forall p s a b, span p s = (a, b) ->
  a ++ b = s /\ all_chars (fun c => p c = true) a /\
  (forall c r, b = String c r -> p c = false).
Proof.
  induction s; intros a' b'; cbn [span].
  - intros E. injection E as <- <-. repeat split; [apply all_chars_nil|discriminate].
  - destruct (p a) eqn:Pa.
    + destruct (span p s) as [x y] eqn:Es. intros E. injection E as <- <-.
      destruct (IHs _ _ eq_refl) as [H1 [H2 H3]]. cbn [append]. rewrite H1.
      repeat split; [|exact H3]. apply all_chars_cons. now split.
    + intros E. injection E as <- <-. repeat split; [apply all_chars_nil|].
      intros c r E. injection E as <- <-. exact Pa.
Qed.

Lemma span_app : forall p a b, all_chars (fun c => p c = true) a ->
  (forall c r, b = String c r -> p c = false) -> span p (a ++ b) = (a, b).
Proof.
  induction a; intros b Ha Hb; cbn [append span].
  - destruct b as [|c r]; [reflexivity|]. cbn [span]. now rewrite (Hb c r eq_refl).
  - apply all_chars_cons in Ha. destruct Ha as [Pa Ha]. rewrite Pa, (IHa b Ha Hb). reflexivity.
Qed.

Lemma m_plus_spec : forall p s v r, m_plus p s = Some (v, r) ->
  v ++ r = s /\ v <> "" /\ all_chars (fun c => p c = true) v /\
  (forall c r', r = String c r' -> p c = false).
Proof.
  unfold m_plus. intros p [|c s] v r; [discriminate|]. destruct (p c) eqn:Pc; [|discriminate].
  intros E. assert (E' : span p (String c s) = (v, r)) by congruence. clear E. rename E' into E.
  destruct (span_spec _ _ _ _ E) as [H1 [H2 H3]].
  repeat split; try assumption. cbn [span] in E. rewrite Pc in E.
  destruct (span p s). injection E as <- _. discriminate.
Qed.

Lemma m_plus_app : forall p a b, a <> "" -> all_chars (fun c => p c = true) a ->
  (forall c r, b = String c r -> p c = false) -> m_plus p (a ++ b) = Some (a, b).
Proof.
  intros p [|c a] b Hn Ha Hb; [congruence|]. rewrite <- (span_app p (String c a) b Ha Hb).
  apply all_chars_cons in Ha. destruct Ha as [Pc _].
  cbn [append m_plus]. now rewrite Pc.
Qed.

Lemma m_lit_spec : forall l s v r, m_lit l s = Some (v, r) -> v = l /\ v ++ r = s.
Proof.
  induction l; intros s v r; cbn [m_lit].
  - intros E. injection E as <- <-. now split.
  - destruct s as [|d s]; [discriminate|]. destruct (Ascii.eqb_spec a d) as [<-|]; [|discriminate].
    destruct (m_lit l s) as [[x y]|] eqn:E; [|discriminate]. intros K. injection K as <- <-.
    destruct (IHl _ _ _ E) as [-> <-]. now split.
Qed.

Lemma m_lit_app : forall l s, m_lit l (l ++ s) = Some (l, s).
Proof.
  induction l; intros; cbn [m_lit append]; [reflexivity|]. now rewrite Ascii.eqb_refl, IHl.
Qed.

Lemma through_spec : forall c s v r, through c s = Some (v, r) ->
  exists b, v = b ++ String c "" /\ v ++ r = s /\ all_chars (fun x => x <> c) b.
Proof.
  induction s; intros v r; cbn [through]; [discriminate|].
  destruct (Ascii.eqb_spec c a) as [<-|N].
  - intros E. injection E as <- <-. exists "". repeat split. apply all_chars_nil.
  - destruct (through c s) as [[x y]|] eqn:E; [|discriminate]. intros K. injection K as <- <-.
    destruct (IHs _ _ eq_refl) as [b [-> [<- H]]]. exists (String a b). repeat split.
    apply all_chars_cons. split; [congruence|assumption].
Qed.

Lemma through_app : forall c b r, all_chars (fun x => x <> c) b ->
  through c (b ++ String c r) = Some (b ++ String c "", r).
Proof.
  induction b; intros r H; cbn [append through].
  - now rewrite Ascii.eqb_refl.
  - apply all_chars_cons in H. destruct H as [N H]. rewrite (IHb r H).
    destruct (Ascii.eqb_spec c a); [congruence|reflexivity].
Qed.

Lemma m_comment_spec : forall s v r, m_comment s = Some (v, r) ->
  exists b, v = String cBACK (b ++ String cBACK "") /\ v ++ r = s /\
            all_chars (fun x => x <> cBACK) b.
Proof.
  unfold m_comment. intros [|c s] v r; [discriminate|].
  destruct (Ascii.eqb_spec c cBACK) as [->|]; [|discriminate].
  destruct (through cBACK s) as [[x y]|] eqn:E; [|discriminate]. intros K.
  assert (v = String cBACK x /\ r = y) as [-> ->] by (split; congruence).
  destruct (through_spec _ _ _ _ E) as [b [-> [<- H]]]. exists b. now repeat split.
Qed.

Lemma m_var_spec : forall s v r, m_var s = Some (v, r) ->
  exists w, v = "[" ++ w ++ "]" /\ v ++ r = s /\ w <> "" /\
            all_chars (fun c => is_upper_ c = true) w.
Proof.
  unfold m_var. intros [|c s] v r; [discriminate|].
  destruct (Ascii.eqb_spec c "[") as [->|]; [|discriminate].
  destruct (m_plus is_upper_ s) as [[x [|d y]]|] eqn:E; [discriminate| |discriminate].
  destruct (Ascii.eqb_spec d "]") as [->|]; [|discriminate]. intros K.
  assert (v = String "[" (x ++ "]") /\ r = y) as [-> ->] by (split; congruence).
  destruct (m_plus_spec _ _ _ _ E) as [<- [Hn [Hw _]]]. exists x. repeat split; try assumption.
  cbn [append]. f_equal. rewrite sapp_assoc. reflexivity.
Qed.

Lemma m_nonvar_spec : forall s v r, m_nonvar s = Some (v, r) ->
  exists w, v = "[" ++ w /\ v ++ r = s /\ all_chars (fun c => is_body c = true) w.
Proof.
  unfold m_nonvar. intros [|c s] v r; [discriminate|].
  destruct (Ascii.eqb_spec c "[") as [->|]; [|discriminate].
  destruct (span is_body s) as [x y] eqn:E. intros K.
  assert (v = String "[" x /\ r = y) as [-> ->] by (split; congruence).
  destruct (span_spec _ _ _ _ E) as [<- [H _]]. exists x. now repeat split.
Qed.

(** ** Every rule keeps its promise *)

Definition rule_ok (r : rule) : Prop :=
  forall s v rest, fst r s = Some (v, rest) ->
    v ++ rest = s /\ v <> "" /\
    match snd r with Emit f => token_text (f v) v | Drop _ => ignorable v end.

Lemma all_chars_impl : forall (p q : ascii -> Prop) s, (forall c, p c -> q c) ->
  all_chars p s -> all_chars q s.
Proof. intros p q s H. unfold all_chars. apply Forall_impl. exact H. Qed.

Lemma lit_ok : forall t l, l <> "" -> token_text t l -> rule_ok (lit t l).
Proof.
  intros t l Hn Ht s v r E. cbn [fst snd lit] in *. destruct (m_lit_spec _ _ _ _ E) as [-> H].
  now repeat split.
Qed.

Lemma quote_ok : forall st, rule_ok (m_lit (String cQUOTE ""), Drop st).
Proof.
  intros st s v r E. cbn [fst snd] in *. destruct (m_lit_spec _ _ _ _ E) as [-> H].
  repeat split; [exact H|discriminate|apply i_quote].
Qed.

Lemma plus_ok : forall p (q : ascii -> Prop) f, (forall c, p c = true -> q c) ->
  (forall s, a_word q s -> token_text (f s) s) -> rule_ok (m_plus p, Emit f).
Proof.
  intros p q f Hp Hf s v r E. cbn [fst snd] in *.
  destruct (m_plus_spec _ _ _ _ E) as [H1 [H2 [H3 _]]]. repeat split; try assumption.
  apply Hf. split; [assumption|]. exact (all_chars_impl _ _ _ Hp H3).
Qed.

Lemma find_reserved : forall w,
  match find (fun kv => String.eqb (fst kv) w) reserved with
  | Some (_, t) => keyword w t
  | None => forall t, ~ keyword w t
  end.
Proof.
  intros w. unfold reserved. cbn [find fst].
  repeat (match goal with |- context [String.eqb ?k w] =>
            destruct (String.eqb_spec k w) as [E|]; [subst w; constructor|] end).
  intros t K. inversion K; subst; congruence.
Qed.

Lemma word_type_text : forall w, a_word lower_letter w -> token_text (word_type w) w.
Proof.
  intros w Hw. unfold word_type. destruct (String.eqb_spec w "d") as [->|N]; [constructor|].
  pose proof (find_reserved w) as F.
  destruct (find (fun kv => String.eqb (fst kv) w) reserved) as [[k t]|].
  - now apply x_keyword.
  - now apply x_lower.
Qed.

Lemma rules_ok : forall st, Forall rule_ok (rules st).
Proof.
  intros [|]; cbn [rules].
  - unfold rules_initial.
    apply Forall_cons. { intros s v r E. cbn [fst snd] in *.
      destruct (m_comment_spec _ _ _ E) as [b [-> [H Hb]]].
      repeat split; [exact H|discriminate|now apply i_comment]. }
    apply Forall_cons. { apply (plus_ok _ digit); [apply is_digit_iff|]. intros. now apply x_number. }
    apply Forall_cons. { apply (plus_ok _ lower_letter); [apply is_lower_iff|]. apply word_type_text. }
    apply Forall_cons. { apply quote_ok. }
    apply Forall_cons. { intros s v r E. cbn [fst snd] in *.
      destruct (m_plus_spec _ _ _ _ E) as [H1 [H2 [H3 _]]]. repeat split; try assumption.
      apply i_newlines. split; [assumption|]. apply (all_chars_impl _ _ _ (fun c K => eq_sym (proj1 (Ascii.eqb_eq _ _) K)) H3). }
    apply Forall_cons. { apply (plus_ok _ upper_letter); [apply is_upper_iff|]. intros. now apply x_upper. }
    repeat (apply Forall_cons; [apply lit_ok; [discriminate|constructor]|]).
    apply Forall_nil.
  - unfold rules_instring.
    apply Forall_cons. { apply quote_ok. }
    apply Forall_cons. { intros s v r E. cbn [fst snd] in *.
      destruct (m_var_spec _ _ _ E) as [w [-> [H [Hn Hw]]]].
      repeat split; [exact H|discriminate|]. apply x_var. split; [exact Hn|].
      apply (all_chars_impl _ _ _ (fun c => proj1 (is_upper_iff c)) Hw). }
    apply Forall_cons. { intros s v r E. cbn [fst snd] in *.
      destruct (m_nonvar_spec _ _ _ E) as [w [-> [H Hw]]].
      repeat split; [exact H|discriminate|]. apply x_nonvar.
      apply (all_chars_impl _ _ _ (fun c => proj1 (is_body_iff c)) Hw). }
    apply Forall_cons. { apply (plus_ok _ string_char); [apply is_body_iff|]. intros. now apply x_any. }
    apply Forall_nil.
Qed.

Lemma first_match_some : forall rs s v r a, first_match rs s = Some (v, r, a) ->
  exists m, In (m, a) rs /\ m s = Some (v, r).
Proof.
  induction rs as [|[m b] rs IH]; intros s v r a; cbn [first_match]; [discriminate|].
  destruct (m s) as [[v' r']|] eqn:E.
  - intros K. injection K as <- <- <-. exists m. split; [now left|exact E].
  - intros K. destruct (IH _ _ _ _ K) as [m' [H1 H2]]. exists m'. split; [now right|exact H2].
Qed.

Lemma first_match_none : forall rs s, first_match rs s = None ->
  forall m a, In (m, a) rs -> m s = None.
Proof.
  induction rs as [|[m b] rs IH]; intros s; cbn [first_match]; [intros _ m a []|].
  destruct (m s) as [[v' r']|] eqn:E; [discriminate|].
  intros K m' a' [H|H]; [congruence|exact (IH _ K _ _ H)].
Qed.

Lemma lit1_none : forall (x c : ascii) s, m_lit (String x "") (String c s) = None -> c <> x.
Proof.
  intros x c s. cbn [m_lit]. destruct (Ascii.eqb_spec x c); [discriminate|congruence].
Qed.

Lemma plus_none : forall p c s, m_plus p (String c s) = None -> p c = false.
Proof. intros p c s. cbn [m_plus]. destruct (p c); [discriminate|reflexivity]. Qed.

Lemma illegal_ok : forall st c s, ignored st c = false ->
  first_match (rules st) (String c s) = None -> alien c \/ c = cNL \/ c = cBACK.
Proof.
  intros [|] c s Hi Hn; cbn [rules] in Hn; pose proof (first_match_none _ _ Hn) as F; clear Hn.
  - left. unfold alien. cbn [ignored] in Hi. apply orb_false_iff in Hi. destruct Hi as [Hsp Htab].
    assert (P : forall p a, In (m_plus p, a) rules_initial -> p c = false)
      by (intros p a Hin; exact (plus_none p c s (F _ _ Hin))).
    assert (L : forall x t, In (lit t (String x "")) rules_initial -> c <> x)
      by (intros x t Hin; exact (lit1_none x c s (F _ _ Hin))).
    split; [|split; [|split; [|split; [|split; [|split]]]]].
    + rewrite <- is_lower_iff. rewrite (P is_lower (Emit word_type)) by (cbn; tauto). discriminate.
    + rewrite <- is_upper_iff. rewrite (P is_upper_ (Emit (fun _ => tUPPERNAME))) by (cbn; tauto). discriminate.
    + rewrite <- is_digit_iff. rewrite (P is_digit (Emit (fun _ => tNUMBER))) by (cbn; tauto). discriminate.
    + unfold chars. cbn [list_ascii_of_string In].
      intros H. destruct H as [H|H]; [subst c; discriminate Hsp|].
      repeat match type of H with
      | _ \/ _ => destruct H as [H|H]
      end; try contradiction; subst c;
      match goal with |- False =>
        first [ exact (L "+"%char tPLUS ltac:(unfold rules_initial; cbn [In]; tauto) eq_refl)
              | exact (L "-"%char tMINUS ltac:(unfold rules_initial; cbn [In]; tauto) eq_refl)
              | exact (L "*"%char tTIMES ltac:(unfold rules_initial; cbn [In]; tauto) eq_refl)
              | exact (L "/"%char tDIVIDE ltac:(unfold rules_initial; cbn [In]; tauto) eq_refl)
              | exact (L "^"%char tPOWER ltac:(unfold rules_initial; cbn [In]; tauto) eq_refl)
              | exact (L ":"%char tCOLON ltac:(unfold rules_initial; cbn [In]; tauto) eq_refl)
              | exact (L "<"%char tLESS ltac:(unfold rules_initial; cbn [In]; tauto) eq_refl)
              | exact (L ">"%char tGREATER ltac:(unfold rules_initial; cbn [In]; tauto) eq_refl)
              | exact (L "="%char tEQUALS ltac:(unfold rules_initial; cbn [In]; tauto) eq_refl)
              | exact (L "@"%char tAT ltac:(unfold rules_initial; cbn [In]; tauto) eq_refl)
              | exact (L "#"%char tHASH ltac:(unfold rules_initial; cbn [In]; tauto) eq_refl)
              | exact (L "|"%char tOR ltac:(unfold rules_initial; cbn [In]; tauto) eq_refl)
              | exact (L "&"%char tAND ltac:(unfold rules_initial; cbn [In]; tauto) eq_refl)
              | exact (L "!"%char tEXCLAMATION ltac:(unfold rules_initial; cbn [In]; tauto) eq_refl)
              | exact (L "."%char tDOT ltac:(unfold rules_initial; cbn [In]; tauto) eq_refl)
              | exact (L ","%char tCOMMA ltac:(unfold rules_initial; cbn [In]; tauto) eq_refl)
              | exact (L "("%char tLPAREN ltac:(unfold rules_initial; cbn [In]; tauto) eq_refl)
              | exact (L ")"%char tRPAREN ltac:(unfold rules_initial; cbn [In]; tauto) eq_refl)
              | exact (L "{"%char tLBRACE ltac:(unfold rules_initial; cbn [In]; tauto) eq_refl)
              | exact (L "}"%char tRBRACE ltac:(unfold rules_initial; cbn [In]; tauto) eq_refl)
              | exact (L "["%char tLBRACKET ltac:(unfold rules_initial; cbn [In]; tauto) eq_refl)
              | exact (L "]"%char tRBRACKET ltac:(unfold rules_initial; cbn [In]; tauto) eq_refl) ]
      end.
    + intros ->. discriminate Htab.
    + exact (lit1_none cQUOTE c s (F _ (Drop (Some Instring)) ltac:(unfold rules_initial; cbn [In]; tauto))).
    + intros ->. pose proof (P (Ascii.eqb cNL) (Drop None) ltac:(unfold rules_initial; cbn [In]; tauto)) as K.
      discriminate K.
  - right; left.
    pose proof (lit1_none cQUOTE c s (F _ (Drop (Some Initial)) ltac:(unfold rules_instring; cbn [In]; tauto))) as Q.
    pose proof (plus_none _ c s (F (m_plus is_body) (Emit (fun _ => tINSTRING_ANY)) ltac:(unfold rules_instring; cbn [In]; tauto))) as B.
    assert (V : c <> "["%char).
    { intros ->. pose proof (F m_nonvar (Emit (fun _ => tINSTRING_NONVAR)) ltac:(unfold rules_instring; cbn [In]; tauto)) as K.
      unfold m_nonvar in K. change (Ascii.eqb "[" "[") with true in K. cbv iota in K. destruct (span is_body s). discriminate K. }
    unfold is_body in B. apply negb_false_iff in B.
    apply orb_true_iff in B. destruct B as [B|B]; [|apply Ascii.eqb_eq in B; congruence].
    apply orb_true_iff in B. destruct B as [B|B]; apply Ascii.eqb_eq in B; congruence.
Qed.

(** One turn of the loop: it consumes something, and what it says about it is
    right. *)
Lemma lex_step_spec : forall st s p st' r, lex_step st s = Some (p, st', r) ->
  piece_text p ++ r = s /\ piece_text p <> "" /\ piece_ok p.
Proof.
  intros st [|c s] p st' r; cbn [lex_step]; [discriminate|].
  destruct (ignored st c) eqn:Ei.
  - intros E. injection E as <- <- <-. cbn [piece_text piece_ok append].
    repeat split; [discriminate|]. destruct st; cbn [ignored] in Ei; [|discriminate].
    apply orb_true_iff in Ei. destruct Ei as [Ei|Ei]; apply Ascii.eqb_eq in Ei; subst c; constructor.
  - destruct (first_match (rules st) (String c s)) as [[[v rr] a]|] eqn:Em.
    + destruct (first_match_some _ _ _ _ _ Em) as [m [Hin Hm]].
      pose proof (proj1 (Forall_forall _ _) (rules_ok st) _ Hin _ _ _ Hm) as [H1 [H2 H3]].
      cbn [snd] in H3.
      destruct a as [f|nx]; intros E; injection E as <- <- <-; cbn [piece_text piece_ok];
        now repeat split.
    + intros E. injection E as <- <- <-. cbn [piece_text piece_ok append].
      repeat split; [discriminate|]. exact (illegal_ok _ _ _ Ei Em).
Qed.

Lemma lex_step_none : forall st s, lex_step st s = None -> s = "".
Proof.
  intros st [|c s]; cbn [lex_step]; [reflexivity|]. destruct (ignored st c); [discriminate|].
  destruct (first_match (rules st) (String c s)) as [[[v r] [f|nx]]|]; discriminate.
Qed.

Lemma lex_step_shorter : forall st s p st' r, lex_step st s = Some (p, st', r) ->
  String.length r < String.length s.
Proof.
  intros st s p st' r E. destruct (lex_step_spec _ _ _ _ _ E) as [<- [Hn _]].
  rewrite slen_app. destruct (piece_text p); [congruence|]. cbn. lia.
Qed.

Lemma lex_loop_spec : forall fuel st s ps e, String.length s <= fuel ->
  lex_loop fuel st s = (ps, e) -> whole_text ps = s /\ Forall piece_ok ps.
Proof.
  induction fuel; intros st s ps e Hf; cbn [lex_loop].
  - destruct s; [|cbn in Hf; lia]. intros E. injection E as <- <-. split; [reflexivity|constructor].
  - destruct (lex_step st s) as [[[p st'] r]|] eqn:Es.
    + pose proof (lex_step_shorter _ _ _ _ _ Es).
      destruct (lex_loop fuel st' r) as [ps' e'] eqn:El. intros E. injection E as <- <-.
      destruct (lex_step_spec _ _ _ _ _ Es) as [H1 [H2 H3]].
      destruct (IHfuel st' r ps' e' ltac:(lia) El) as [H4 H5].
      rewrite whole_cons, H4. split; [exact H1|now constructor].
    + intros E. injection E as <- <-. apply lex_step_none in Es. subst s.
      split; [reflexivity|constructor].
Qed.

Lemma lex_partition : forall s, whole_text (fst (lex s)) = s /\ Forall piece_ok (fst (lex s)).
Proof.
  intros s. unfold lex. destruct (lex_loop (String.length s) Initial s) as [ps e] eqn:E.
  exact (lex_loop_spec _ _ _ _ _ (le_n _) E).
Qed.

(** More fuel changes nothing. *)
Lemma lex_loop_fuel : forall f1 f2 st s, String.length s <= f1 -> String.length s <= f2 ->
  lex_loop f1 st s = lex_loop f2 st s.
Proof.
  induction f1; intros f2 st s H1 H2.
  - destruct s; [|cbn in H1; lia]. destruct f2; reflexivity.
  - destruct f2.
    + destruct s; [|cbn in H2; lia]. reflexivity.
    + cbn [lex_loop]. destruct (lex_step st s) as [[[p st'] r]|] eqn:Es; [|reflexivity].
      pose proof (lex_step_shorter _ _ _ _ _ Es). rewrite (IHf1 f2 st' r) by lia. reflexivity.
Qed.

(** The scan of a text from a given state. *)
Definition lex_from (st : lstate) (s : string) : list piece * lstate :=
  lex_loop (String.length s) st s.

Lemma lex_from_step : forall st s p st' r, lex_step st s = Some (p, st', r) ->
  lex_from st s = (p :: fst (lex_from st' r), snd (lex_from st' r)).
Proof.
  intros st s p st' r E. pose proof (lex_step_shorter _ _ _ _ _ E) as L. unfold lex_from.
  destruct (String.length s) as [|n] eqn:En; [lia|]. cbn [lex_loop]. rewrite E.
  rewrite (lex_loop_fuel n (String.length r) st' r) by lia.
  destruct (lex_loop (String.length r) st' r). reflexivity.
Qed.

Lemma no_illegal_no_piece : forall ps, illegals_of ps = [] -> forall c, ~ In (Illegal c) ps.
Proof.
  induction ps as [|[t|s|c'] ps IH]; cbn; intros E c H; try contradiction; try discriminate;
    destruct H as [H|H]; try discriminate; exact (IH E c H).
Qed.

Lemma scan_pieces : forall s ts, scan s = Some ts ->
  exists ps, lex s = (ps, Initial) /\ ts = tokens_of ps /\
    whole_text ps = s /\ Forall piece_ok ps /\ (forall c, ~ In (Illegal c) ps).
Proof.
  intros s ts. unfold scan, lex_ok. destruct (lex s) as [ps e] eqn:E.
  destruct (illegals_of ps) eqn:Ei; [|discriminate]. destruct e; [|discriminate].
  cbn [fst]. intros K. injection K as <-. exists ps.
  pose proof (lex_partition s) as [H1 H2]. rewrite E in H1, H2. cbn [fst] in H1, H2.
  repeat split; try assumption. now apply no_illegal_no_piece.
Qed.

(** ** Words *)

Lemma lower_classes : forall c, is_lower c = true ->
  Ascii.eqb c cBACK = false /\ is_digit c = false /\ ignored Initial c = false /\
  is_upper_ c = false.
Proof.
  intros c. destruct c as [[|] [|] [|] [|] [|] [|] [|] [|]]; intros H;
    try (vm_compute in H; discriminate H); repeat split; reflexivity.
Qed.

Lemma lex_word_step : forall w r, a_word lower_letter w ->
  (forall c x, r = String c x -> ~ lower_letter c) ->
  lex_step Initial (w ++ r) = Some (Token (word_type w, w), Initial, r).
Proof.
  intros w r [Hn Hw] Hr.
  assert (Hw' : all_chars (fun c => is_lower c = true) w)
    by exact (all_chars_impl _ _ _ (fun c => proj2 (is_lower_iff c)) Hw).
  assert (Hr' : forall c x, r = String c x -> is_lower c = false).
  { intros c x E. destruct (is_lower c) eqn:L; [|reflexivity].
    exfalso. apply (Hr c x E). now apply is_lower_iff. }
  pose proof (m_plus_app is_lower w r Hn Hw' Hr') as M.
  destruct w as [|c w]; [congruence|]. apply all_chars_cons in Hw'. destruct Hw' as [Lc _].
  destruct (lower_classes c Lc) as [B [D [I U]]].
  cbn [append] in *. cbn [lex_step]. rewrite I. cbn [rules].
  assert (F : first_match rules_initial (String c (w ++ r)) = Some (String c w, r, Emit word_type)).
  { unfold rules_initial. cbn [first_match]. unfold m_comment at 1. rewrite B.
    unfold m_plus at 1. rewrite D. rewrite M. reflexivity. }
  rewrite F. reflexivity.
Qed.

(** The types a lower-case word can get. *)
Definition word_token (t : tt) : bool :=
  match t with
  | tLOWERNAME | tD_OP | tOUTPUT | tFUNCTION | tLOOP | tOVER | tNAMED | tSET | tTO | tIF
  | tELSE | tRESULT => true
  | _ => false
  end.

Lemma word_token_text : forall t w, token_text t w -> word_token t = true ->
  a_word lower_letter w.
Proof.
  intros t w H Ht.
  assert (A : forall s, s <> "" -> forallb is_lower (chars s) = true -> a_word lower_letter s).
  { intros s Hn E. split; [exact Hn|]. unfold all_chars. apply Forall_forall. intros x Hx.
    apply is_lower_iff. exact (proj1 (forallb_forall _ _) E x Hx). }
  inversion H; subst; try discriminate Ht; try assumption.
  - apply A; [discriminate|reflexivity].
  - match goal with K : keyword _ _ |- _ => inversion K; subst end; apply A; try discriminate; reflexivity.
Qed.

Lemma word_step_inv : forall st s t w st' r,
  lex_step st s = Some (Token (t, w), st', r) -> word_token t = true ->
  st = Initial /\ st' = Initial /\ t = word_type w /\
  (forall c x, r = String c x -> ~ lower_letter c).
Proof.
  intros st [|c s] t w st' r; cbn [lex_step]; [discriminate|].
  destruct (ignored st c); [discriminate|].
  destruct (first_match (rules st) (String c s)) as [[[v rr] [f|nx]]|] eqn:Em; try discriminate.
  intros E Ht. assert (f v = t /\ v = w /\ st = st' /\ rr = r) as [<- [<- [<- <-]]] by (repeat split; congruence).
  destruct (first_match_some _ _ _ _ _ Em) as [m [Hin Hm]].
  destruct st; cbn [rules] in Hin.
  - split; [reflexivity|split; [reflexivity|]].
    unfold rules_initial in Hin. cbn [In] in Hin. unfold lit in Hin.
    repeat (destruct Hin as [Hin|Hin]; [first [discriminate Hin | injection Hin as <- <-; try discriminate Ht]|]);
      try contradiction.
    split; [reflexivity|]. destruct (m_plus_spec _ _ _ _ Hm) as [_ [_ [_ K]]].
    intros x y Ex L. apply is_lower_iff in L. rewrite (K x y Ex) in L. discriminate L.
  - exfalso. unfold rules_instring in Hin. cbn [In] in Hin.
    repeat (destruct Hin as [Hin|Hin]; [first [discriminate Hin | injection Hin as <- <-; try discriminate Ht]|]);
      try contradiction.
Qed.

(** No piece other than a word or a piece of a string ends with a lower-case
    letter. *)
Lemma ends_lower : forall p x c, piece_ok p -> piece_text p = x ++ String c "" -> lower_letter c ->
  match p with
  | Token (t, _) => word_token t = true \/ t = tINSTRING_ANY \/ t = tINSTRING_VAR \/ t = tINSTRING_NONVAR
  | _ => False
  end.
Proof.
  assert (LastIn : forall (P : ascii -> Prop) s x c, all_chars P s -> s = x ++ String c "" -> P c).
  { intros P s x c H ->. apply all_chars_app in H. destruct H as [_ H]. now apply all_chars_cons in H. }
  assert (One : forall a x c, String a "" = x ++ String c "" -> a = c).
  { intros a [|b x] c E; cbn in E; [congruence|]. injection E as _ E. destruct x; discriminate E. }
  assert (Two : forall a b x c, String a (String b "") = x ++ String c "" -> b = c).
  { intros a b [|d x] c E; cbn in E; [discriminate|]. injection E as _ E. exact (One _ _ _ E). }
  assert (Snoc : forall y a x c, y ++ String a "" = x ++ String c "" -> a = c).
  { induction y; intros b [|d x] c E; cbn [append] in E.
    - congruence.
    - injection E as _ E. destruct x; discriminate E.
    - injection E as _ E. destruct y; discriminate E.
    - injection E as _ E. exact (IHy _ _ _ E). }
  assert (D : forall c, digit c -> ~ lower_letter c).
  { intros c Hd L. apply is_digit_iff in Hd. apply is_lower_iff in L.
    destruct (lower_classes c L) as [_ [K _]]. congruence. }
  assert (U : forall c, upper_letter c -> ~ lower_letter c).
  { intros c Hd L. apply is_upper_iff in Hd. apply is_lower_iff in L.
    destruct (lower_classes c L) as [_ [_ [_ K]]]. congruence. }
  assert (X : forall c, lower_letter c -> is_lower c = false -> False).
  { intros c L Hc. apply is_lower_iff in L. congruence. }
  intros [[t v]|v|a] x c Hok E L; cbn [piece_ok piece_text] in *.
  - revert E. inversion Hok; subst; intros E; try (left; reflexivity); try tauto;
      try (exfalso; apply One in E; subst c; exact (X _ L eq_refl));
      try (exfalso; apply Two in E; subst c; exact (X _ L eq_refl)).
    + exfalso. match goal with K : a_word _ _ |- _ => destruct K as [_ K]; exact (D _ (LastIn _ _ _ _ K E) L) end.
    + exfalso. match goal with K : a_word _ _ |- _ => destruct K as [_ K]; exact (U _ (LastIn _ _ _ _ K E) L) end.
    + left. match goal with K : keyword _ _ |- _ => inversion K; reflexivity end.
  - revert E. inversion Hok; subst; intros E; try (apply One in E; subst c; exact (X _ L eq_refl)).
    + match goal with K : a_word _ _ |- _ => destruct K as [_ K];
        pose proof (LastIn _ _ _ _ K E) as Kc; cbv beta in Kc; subst c; exact (X _ L eq_refl) end.
    + change (String cBACK (s ++ String cBACK "")) with ((String cBACK s) ++ String cBACK "") in E.
      apply Snoc in E. subst c. exact (X _ L eq_refl).
  - apply One in E. subst a. destruct Hok as [[K _]|[K|K]].
    + exact (K L).
    + subst c. exact (X _ L eq_refl).
    + subst c. exact (X _ L eq_refl).
Qed.

Lemma step_to_initial : forall st s t v r, lex_step st s = Some (Token (t, v), Initial, r) ->
  t = tINSTRING_ANY \/ t = tINSTRING_VAR \/ t = tINSTRING_NONVAR -> False.
Proof.
  intros st [|c s] t v r; cbn [lex_step]; [discriminate|].
  destruct (ignored st c); [discriminate|].
  destruct (first_match (rules st) (String c s)) as [[[v' rr] [f|nx]]|] eqn:Em; try discriminate.
  intros E Ht. assert (f v' = t /\ v' = v /\ st = Initial) as [Ef [-> ->]] by (repeat split; congruence).
  destruct (first_match_some _ _ _ _ _ Em) as [m [Hin Hm]]. cbn [rules] in Hin.
  pose proof (proj1 (Forall_forall _ _) (rules_ok Initial) _ Hin _ _ _ Hm) as [_ [_ K]].
  cbn [snd] in K.
  assert (W : forall w t', word_type w = t' -> t' <> tINSTRING_ANY /\ t' <> tINSTRING_VAR /\ t' <> tINSTRING_NONVAR).
  { intros w t' <-. unfold word_type. destruct (String.eqb w "d"); [repeat split; discriminate|].
    pose proof (find_reserved w) as F.
    destruct (find (fun kv => String.eqb (fst kv) w) reserved) as [[k t']|];
      [inversion F; repeat split; discriminate|repeat split; discriminate]. }
  unfold rules_initial in Hin. cbn [In] in Hin. unfold lit in Hin.
  repeat (destruct Hin as [Hin|Hin];
    [first [discriminate Hin | injection Hin as <- <-; try (subst t; destruct Ht as [Ht|[Ht|Ht]]; discriminate Ht)]|]);
    try contradiction.
  destruct (W _ _ Ef) as [W1 [W2 W3]]. destruct Ht as [Ht|[Ht|Ht]]; contradiction.
Qed.

Lemma snoc_app : forall (x p q : string) c, p ++ q = x ++ String c "" -> q <> "" ->
  exists y, q = y ++ String c "".
Proof.
  intros x p. revert x. induction p; intros x q c E Hn; cbn [append] in E.
  - now exists x.
  - destruct x as [|d x]; cbn [append] in E.
    + injection E as _ E. destruct p; cbn in E; [subst q; congruence|discriminate E].
    + injection E as _ E. exact (IHp _ _ _ E Hn).
Qed.

(** A word in the output is maximal on both sides. *)
Lemma word_maximal : forall a st s t w b, fst (lex_from st s) = (a ++ Token (t, w) :: b)%list ->
  word_token t = true ->
  t = word_type w /\ a_word lower_letter w /\
  (forall c x, whole_text b = String c x -> ~ lower_letter c) /\
  (a = [] -> st = Initial) /\
  (forall c x, whole_text a = x ++ String c "" -> ~ lower_letter c).
Proof.
  induction a as [|p a IH]; intros st s t w b E Ht.
  - destruct (lex_step st s) as [[[q st'] r]|] eqn:Es.
    + rewrite (lex_from_step _ _ _ _ _ Es) in E. cbn [fst app] in E. injection E as -> <-.
      destruct (word_step_inv _ _ _ _ _ _ Es Ht) as [-> [-> [-> Hr]]].
      destruct (lex_step_spec _ _ _ _ _ Es) as [_ [_ Hok]]. cbn [piece_ok] in Hok.
      pose proof (lex_loop_spec (String.length r) Initial r _ _ (le_n _) (surjective_pairing _)) as [Hw _].
      fold (lex_from Initial r) in Hw.
      split; [reflexivity|]. split; [exact (word_token_text _ _ Hok Ht)|].
      split; [rewrite Hw; exact Hr|]. split; [reflexivity|].
      intros c [|d x] Ec; discriminate Ec.
    + apply lex_step_none in Es. subst s. discriminate E.
  - destruct (lex_step st s) as [[[q st'] r]|] eqn:Es.
    + rewrite (lex_from_step _ _ _ _ _ Es) in E. cbn [fst app] in E. injection E as -> E.
      destruct (IH _ _ _ _ _ E Ht) as [H1 [H2 [H3 [H4 H5]]]].
      split; [exact H1|]. split; [exact H2|]. split; [exact H3|]. split; [discriminate|].
      intros c x Ec L. rewrite whole_cons in Ec.
      destruct (lex_step_spec _ _ _ _ _ Es) as [Hs [Hn Hok]].
      destruct a as [|p' a].
      * change (whole_text []) with "" in Ec. rewrite sapp_nil in Ec.
        pose proof (ends_lower _ _ _ Hok Ec L) as K. rewrite (H4 eq_refl) in Es.
        destruct p as [[t' v]|v|e]; try contradiction.
        destruct K as [K|K].
        -- destruct (word_step_inv _ _ _ _ _ _ Es K) as [_ [_ [_ Hr]]].
           pose proof (lex_loop_spec (String.length r) Initial r _ _ (le_n _) (surjective_pairing _)) as [Hw _].
           fold (lex_from Initial r) in Hw. rewrite (H4 eq_refl) in E. rewrite E in Hw. cbn [app] in Hw.
           rewrite whole_cons in Hw. cbn [piece_text] in Hw. destruct H2 as [Hn2 H2].
           destruct w as [|d w]; [congruence|]. apply all_chars_cons in H2. destruct H2 as [Ld _].
           apply (Hr d (w ++ whole_text b)); [symmetry; exact Hw|exact Ld].
        -- exact (step_to_initial _ _ _ _ _ Es K).
      * apply snoc_app in Ec.
        -- destruct Ec as [y Ey]. exact (H5 c y Ey L).
        -- pose proof (lex_loop_spec (String.length r) st' r _ _ (le_n _) (surjective_pairing _)) as [_ Hf].
           fold (lex_from st' r) in Hf. rewrite E in Hf. rewrite whole_cons.
           destruct (lex_step st' r) as [[[q' st''] r'']|] eqn:Es'.
           ++ rewrite (lex_from_step _ _ _ _ _ Es') in E. cbn [fst app] in E. injection E as -> _.
              destruct (lex_step_spec _ _ _ _ _ Es') as [_ [Hn' _]].
              destruct (piece_text p'); [congruence|discriminate].
           ++ apply lex_step_none in Es'. subst r. discriminate E.
    + apply lex_step_none in Es. subst s. discriminate E.
Qed.

(** ** Strings *)

Definition string_token (t : tok) : Prop :=
  (fst t = tINSTRING_ANY \/ fst t = tINSTRING_VAR \/ fst t = tINSTRING_NONVAR) /\
  token_text (fst t) (snd t).

Definition string_body (s : string) : Prop := all_chars (fun c => c <> cNL /\ c <> cQUOTE) s.

Lemma instring_step : forall c s, c <> cNL -> c <> cQUOTE ->
  exists t v r, lex_step Instring (String c s) = Some (Token (t, v), Instring, r) /\
    string_token (t, v) /\ v ++ r = String c s /\ v <> "" /\
    all_chars (fun c => c <> cQUOTE) v.
Proof.
  intros c s Hn Hq.
  assert (U : forall w, all_chars (fun c => is_upper_ c = true) w -> all_chars (fun c => c <> cQUOTE) w).
  { intros w. apply all_chars_impl. intros x Hx ->. discriminate Hx. }
  assert (B : forall w, all_chars (fun c => is_body c = true) w -> all_chars (fun c => c <> cQUOTE) w).
  { intros w. apply all_chars_impl. intros x Hx ->. discriminate Hx. }
  assert (Q : m_lit (String cQUOTE "") (String c s) = None).
  { cbn [m_lit]. destruct (Ascii.eqb_spec cQUOTE c); [congruence|reflexivity]. }
  pose proof (rules_ok Instring) as R. cbn [rules] in R. unfold rules_instring in R.
  unfold lex_step. cbn [ignored rules]. unfold rules_instring. cbn [first_match].
  rewrite Q.
  destruct (m_var (String c s)) as [[v r]|] eqn:Ev.
  - exists tINSTRING_VAR, v, r. inversion R as [|? ? _ R1]; subst. inversion R1 as [|? ? R2 _]; subst.
    destruct (R2 _ _ _ Ev) as [H1 [H2 H3]]. cbn [snd] in H3.
    split; [reflexivity|]. split; [split; [tauto|exact H3]|]. split; [exact H1|]. split; [exact H2|].
    destruct (m_var_spec _ _ _ Ev) as [w [-> [_ [_ Hw]]]].
    cbn [append]. apply all_chars_cons. split; [discriminate|]. apply all_chars_app.
    split; [exact (U _ Hw)|]. apply all_chars_cons. split; [discriminate|apply all_chars_nil].
  - destruct (m_nonvar (String c s)) as [[v r]|] eqn:En.
    + exists tINSTRING_NONVAR, v, r. inversion R as [|? ? _ R1]; subst. inversion R1 as [|? ? _ R2]; subst.
      inversion R2 as [|? ? R3 _]; subst.
      destruct (R3 _ _ _ En) as [H1 [H2 H3]]. cbn [snd] in H3.
      split; [reflexivity|]. split; [split; [tauto|exact H3]|]. split; [exact H1|]. split; [exact H2|].
      destruct (m_nonvar_spec _ _ _ En) as [w [-> [_ Hw]]].
      cbn [append]. apply all_chars_cons. split; [discriminate|exact (B _ Hw)].
    + assert (Hb : is_body c = true).
      { apply is_body_iff. repeat split; try assumption. intros ->.
        unfold m_nonvar in En. change (Ascii.eqb "[" "[") with true in En. cbv iota in En.
        destruct (span is_body s). discriminate En. }
      destruct (m_plus is_body (String c s)) as [[v r]|] eqn:Ep.
      * exists tINSTRING_ANY, v, r. inversion R as [|? ? _ R1]; subst. inversion R1 as [|? ? _ R2]; subst.
        inversion R2 as [|? ? _ R3]; subst. inversion R3 as [|? ? R4 _]; subst.
        destruct (R4 _ _ _ Ep) as [H1 [H2 H3]]. cbn [snd] in H3.
        split; [reflexivity|]. split; [split; [tauto|exact H3]|]. split; [exact H1|]. split; [exact H2|].
        destruct (m_plus_spec _ _ _ _ Ep) as [_ [_ [Hw _]]]. exact (B _ Hw).
      * unfold m_plus in Ep. rewrite Hb in Ep. discriminate Ep.
Qed.

Lemma prefix_split : forall v r b rest, v ++ r = b ++ String cQUOTE rest ->
  all_chars (fun c => c <> cQUOTE) v -> exists b', b = v ++ b' /\ r = b' ++ String cQUOTE rest.
Proof.
  induction v; intros r b rest E H; cbn [append] in *.
  - exists b. now split.
  - apply all_chars_cons in H. destruct H as [Hn H]. destruct b as [|d b]; cbn [append] in E.
    + injection E as E _. congruence.
    + injection E as <- E. destruct (IHv _ _ _ E H) as [b' [-> ->]]. now exists b'.
Qed.

Lemma lex_string : forall n body rest, String.length body <= n -> string_body body ->
  exists ts, lex_from Instring (body ++ String cQUOTE rest) =
      ((map Token ts ++ Skipped (String cQUOTE "") :: fst (lex_from Initial rest))%list,
       snd (lex_from Initial rest)) /\
    Forall string_token ts /\ String.concat "" (map snd ts) = body.
Proof.
  induction n; intros body rest Hl Hb.
  - destruct body; [|cbn in Hl; lia]. exists []. cbn [append map app].
    rewrite (lex_from_step _ _ _ _ _ (eq_refl : lex_step Instring (String cQUOTE rest) =
      Some (Skipped (String cQUOTE ""), Initial, rest))).
    repeat split; constructor.
  - destruct body as [|c body].
    + exists []. cbn [append map app].
      rewrite (lex_from_step _ _ _ _ _ (eq_refl : lex_step Instring (String cQUOTE rest) =
        Some (Skipped (String cQUOTE ""), Initial, rest))).
      repeat split; constructor.
    + pose proof Hb as Hb'. apply all_chars_cons in Hb'. destruct Hb' as [[N Q] _].
      destruct (instring_step c (body ++ String cQUOTE rest) N Q) as [t [v [r [Es [Ht [Hv [Hn Hq]]]]]]].
      change (String c (body ++ String cQUOTE rest)) with (String c body ++ String cQUOTE rest) in *.
      destruct (prefix_split _ _ _ _ Hv Hq) as [b' [Eb Er]].
      assert (Lb : String.length b' <= n).
      { assert (K : String.length (String c body) = String.length v + String.length b')
          by (rewrite Eb; apply slen_app).
        destruct v; [congruence|]. cbn in K, Hl. lia. }
      assert (Bb : string_body b').
      { rewrite Eb in Hb. apply all_chars_app in Hb. exact (proj2 Hb). }
      destruct (IHn b' rest Lb Bb) as [ts [E1 [E2 E3]]].
      exists ((t, v) :: ts). rewrite (lex_from_step _ _ _ _ _ Es), Er, E1. cbn [fst snd map app].
      split; [reflexivity|]. split; [now constructor|]. rewrite concat_cons, E3. symmetry. exact Eb.
Qed.

(** ** Composition of scans *)

Lemma scan_step : forall s p r, lex_step Initial s = Some (p, Initial, r) ->
  scan s = match p with
           | Token t => option_map (cons t) (scan r)
           | Skipped _ => scan r
           | Illegal _ => None
           end.
Proof.
  intros s p r E. unfold scan, lex_ok.
  change (lex s) with (lex_from Initial s). change (lex r) with (lex_from Initial r).
  rewrite (lex_from_step _ _ _ _ _ E).
  destruct (lex_from Initial r) as [ps e]. cbn [fst snd].
  destruct p as [t|v|c]; unfold illegals_of, tokens_of; cbn [flat_map app].
  - destruct (flat_map _ ps); [destruct e; reflexivity|reflexivity].
  - reflexivity.
  - reflexivity.
Qed.

Lemma scan_word : forall w r, a_word lower_letter w ->
  (forall c x, r = String c x -> ~ lower_letter c) ->
  scan (w ++ r) = option_map (cons (word_type w, w)) (scan r).
Proof. intros w r Hw Hr. rewrite (scan_step _ _ _ (lex_word_step w r Hw Hr)). reflexivity. Qed.

Lemma tokens_of_app : forall a b, tokens_of (a ++ b) = (tokens_of a ++ tokens_of b)%list.
Proof. intros. apply flat_map_app. Qed.

Lemma tokens_of_map : forall ts, tokens_of (map Token ts) = ts.
Proof. induction ts; cbn; [reflexivity|]. f_equal. exact IHts. Qed.

Lemma illegals_of_map : forall ts ps, illegals_of (map Token ts ++ ps) = illegals_of ps.
Proof. induction ts; intros; cbn; [reflexivity|]. apply IHts. Qed.

Lemma scan_string : forall body rest, string_body body ->
  exists ts, scan (String cQUOTE (body ++ String cQUOTE rest)) = option_map (app ts) (scan rest) /\
    Forall string_token ts /\ String.concat "" (map snd ts) = body.
Proof.
  intros body rest Hb. destruct (lex_string _ body rest (le_n _) Hb) as [ts [E1 [E2 E3]]].
  exists ts. split; [|now split].
  unfold scan, lex_ok.
  change (lex (String cQUOTE (body ++ String cQUOTE rest)))
    with (lex_from Initial (String cQUOTE (body ++ String cQUOTE rest))).
  change (lex rest) with (lex_from Initial rest).
  rewrite (lex_from_step _ _ _ _ _ (eq_refl : lex_step Initial (String cQUOTE (body ++ String cQUOTE rest)) =
    Some (Skipped (String cQUOTE ""), Instring, body ++ String cQUOTE rest))).
  rewrite E1. destruct (lex_from Initial rest) as [ps e]. cbn [fst snd].
  assert (I : illegals_of (Skipped (String cQUOTE "") :: map Token ts ++ Skipped (String cQUOTE "") :: ps)
              = illegals_of ps).
  { change (illegals_of (map Token ts ++ Skipped (String cQUOTE "") :: ps) = illegals_of ps).
    rewrite illegals_of_map. reflexivity. }
  rewrite I. destruct (illegals_of ps); [destruct e|reflexivity]; [|reflexivity].
  cbn [option_map]. f_equal.
  change (tokens_of (map Token ts ++ Skipped (String cQUOTE "") :: ps) = (ts ++ tokens_of ps)%list).
  rewrite tokens_of_app, tokens_of_map. reflexivity.
Qed.

(** A string left open, or with a newline inside, is always reported. *)
Lemma scan_open_string : forall body, string_body body -> scan (String cQUOTE body) = None.
Proof.
  assert (G : forall n body, String.length body <= n -> string_body body ->
            snd (lex_from Instring body) = Instring).
  { induction n; intros body Hl Hb.
    - destruct body; [reflexivity|cbn in Hl; lia].
    - destruct body as [|c body]; [reflexivity|].
      pose proof Hb as Hb'. apply all_chars_cons in Hb'. destruct Hb' as [[N Q] _].
      destruct (instring_step c body N Q) as [t [v [r [Es [Ht [Hv [Hn Hq]]]]]]].
      rewrite (lex_from_step _ _ _ _ _ Es). cbn [snd]. apply IHn.
      + pose proof (lex_step_shorter _ _ _ _ _ Es) as L. cbn [String.length] in *. lia.
      + unfold string_body in Hb. rewrite <- Hv in Hb. apply all_chars_app in Hb. exact (proj2 Hb). }
  intros body Hb. unfold scan, lex_ok.
  change (lex (String cQUOTE body)) with (lex_from Initial (String cQUOTE body)).
  rewrite (lex_from_step _ _ _ _ _ (eq_refl : lex_step Initial (String cQUOTE body) =
    Some (Skipped (String cQUOTE ""), Instring, body))).
  rewrite (G _ body (le_n _) Hb). destruct (illegals_of _); reflexivity.
Qed.
