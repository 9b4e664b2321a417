(** How generated text splits into Python tokens. *)
From Coq Require Import String Ascii Bool List Arith Lia.
From Verif Require Import PySpec.
Import ListNotations.
Open Scope string_scope.
Open Scope list_scope.

Lemma span_shrinks : forall p s a b, span p s = (a, b) -> String.length b <= String.length s.
Proof.
  intros p s. induction s as [|c s IH]; intros a b H; cbn in H.
  - injection H as <- <-. reflexivity.
  - destruct (p c).
    + destruct (span p s) as [x y] eqn:E. injection H as <- <-. cbn. specialize (IH _ _ eq_refl). lia.
    + injection H as <- <-. reflexivity.
Qed.

Lemma close_shrinks : forall q n s a b, String.length s <= n -> py_close q s = Some (a, b) ->
  String.length b < String.length s.
Proof.
  intros q n. induction n as [|n IH]; intros s a b L H; destruct s as [|c s]; try discriminate; cbn in L; [lia|].
  cbn [py_close] in H. destruct (Ascii.eqb c q).
  - injection H as <- <-. cbn. lia.
  - destruct (Ascii.eqb c c_newline || Ascii.eqb c c_return || Ascii.eqb c c_nul); [discriminate|].
    destruct (Ascii.eqb c c_backslash).
    + destruct s as [|d s]; [discriminate|]. destruct (py_close q s) as [[x y]|] eqn:E; [|discriminate].
      injection H as <- <-. cbn in L. pose proof (IH s x y ltac:(lia) E). cbn. lia.
    + destruct (py_close q s) as [[x y]|] eqn:E; [|discriminate].
      injection H as <- <-. pose proof (IH s x y ltac:(lia) E). cbn. lia.
Qed.

Lemma lex_op_shrinks : forall c r t r', lex_op c r = Some (t, r') -> String.length r' <= String.length r.
Proof.
  intros c r t r' H. unfold lex_op in H.
  destruct r as [|d r]; [|destruct (mem (String c (String d "")) two_char_ops)];
    repeat match type of H with context [if ?b then _ else _] => destruct b end;
    try discriminate; injection H as <- <-; cbn; lia.
Qed.

Lemma lex_one_shrinks : forall s t r, lex_one s = Some (t, r) -> String.length r < String.length s.
Proof.
  intros s t r H. destruct s as [|c s]; [discriminate|]. unfold lex_one in H.
  destruct (py_letter c) eqn:L.
  { assert (W : forall w b, span py_idchar (String c s) = (w, b) -> String.length b < String.length (String c s)).
    { intros w b E. cbn [span] in E. unfold py_idchar in E at 1. rewrite L in E. cbn [orb] in E.
      destruct (span py_idchar s) as [x y] eqn:E2. injection E as <- <-.
      apply span_shrinks in E2. cbn. lia. }
    destruct s as [|d s].
    - destruct (span py_idchar (String c "")) as [w b] eqn:E. injection H as <- <-. exact (W _ _ eq_refl).
    - destruct (Ascii.eqb c "f" && Ascii.eqb d c_dquote).
      + destruct (py_close c_dquote s) as [[x y]|] eqn:E; [|discriminate]. injection H as <- <-.
        apply (close_shrinks _ (String.length s)) in E; [|lia]. cbn. lia.
      + destruct (span py_idchar (String c (String d s))) as [w b] eqn:E. injection H as <- <-. exact (W _ _ eq_refl). }
  destruct (py_digit c) eqn:D.
  { destruct (span py_digit (String c s)) as [w b] eqn:E.
    assert (B : String.length b < String.length (String c s)).
    { cbn [span] in E. rewrite D in E. destruct (span py_digit s) as [x y] eqn:E2. injection E as <- <-.
      apply span_shrinks in E2. cbn. lia. }
    destruct b as [|d b]; [injection H as <- <-; exact B|].
    destruct (Ascii.eqb d ".").
    - destruct (span py_digit b) as [x y] eqn:E2. injection H as <- <-. apply span_shrinks in E2.
      cbn in B |- *. lia.
    - injection H as <- <-. exact B. }
  destruct (Ascii.eqb c c_dquote || Ascii.eqb c c_squote).
  - destruct (py_close c s) as [[x y]|] eqn:E; [|discriminate]. injection H as <- <-.
    apply (close_shrinks _ (String.length s)) in E; [|lia]. cbn. lia.
  - apply lex_op_shrinks in H. cbn. lia.
Qed.

(** Enough fuel is enough. *)
Lemma lex_fuel : forall n m s, String.length s <= n -> String.length s <= m -> py_lex_n n s = py_lex_n m s.
Proof.
  intros n. induction n as [|n IH]; intros m s L M.
  - destruct s; [destruct m; reflexivity|cbn in L; lia].
  - destruct s as [|c s]; [destruct m; reflexivity|]. destruct m as [|m]; [cbn in M; lia|].
    cbn in L, M. cbn [py_lex_n]. destruct (Ascii.eqb c " "); [apply IH; lia|].
    destruct (Ascii.eqb c "#"); [reflexivity|].
    destruct (lex_one (String c s)) as [[t r]|] eqn:E; [|reflexivity].
    apply lex_one_shrinks in E. cbn in E. f_equal. apply IH; lia.
Qed.

Lemma lex_eq : forall c s,
  py_lex (String c s) =
  if Ascii.eqb c " " then py_lex s
  else if Ascii.eqb c "#" then Some []
  else match lex_one (String c s) with
       | Some (t, r) => option_map (cons t) (py_lex r)
       | None => None
       end.
Proof.
  intros c s. unfold py_lex at 1. cbn [String.length py_lex_n].
  destruct (Ascii.eqb c " "); [reflexivity|]. destruct (Ascii.eqb c "#"); [reflexivity|].
  destruct (lex_one (String c s)) as [[t r]|] eqn:E; [|reflexivity].
  apply lex_one_shrinks in E. cbn in E. f_equal. apply lex_fuel; lia.
Qed.

(** ** Single tokens *)

(** The text [s] is the tokens [ts], whatever follows that does not glue to it. *)
Definition apart_from (r : string) : Prop :=
  match r with
  | EmptyString => True
  | String c _ => py_idchar c = false /\ c <> "."%char /\ c <> c_dquote
  end.

Definition lexes (s : string) (ts : list ptok) : Prop :=
  forall r, apart_from r -> py_lex (s ++ r)%string = option_map (app ts) (py_lex r).

(** Text that nothing glues to. *)
Definition lexes_any (s : string) (ts : list ptok) : Prop :=
  forall r, py_lex (s ++ r)%string = option_map (app ts) (py_lex r).

Lemma any_lexes : forall s ts, lexes_any s ts -> lexes s ts.
Proof. intros s ts H r _. apply H. Qed.

Lemma lexes_all : forall s ts, lexes s ts -> py_lex s = Some ts.
Proof.
  intros s ts H. specialize (H "" Logic.I).
  assert (E : (s ++ "")%string = s) by (clear; induction s; cbn; congruence).
  rewrite E in H. rewrite H. cbn. now rewrite app_nil_r.
Qed.

Lemma sapp_assoc : forall a b c : string, ((a ++ b) ++ c)%string = (a ++ (b ++ c))%string.
Proof. induction a; intros; cbn; [reflexivity|now rewrite IHa]. Qed.

Lemma map_app_some : forall A (a b : list A) o,
  option_map (app (a ++ b)) o = option_map (app a) (option_map (app b) o).
Proof. intros A a b [x|]; cbn; [now rewrite app_assoc|reflexivity]. Qed.

(** [s] is followed by [t], which begins with a character that stands apart. *)
Lemma lexes_app : forall s t a b, lexes s a -> lexes t b -> (forall r, apart_from r -> apart_from (t ++ r)%string) ->
  lexes (s ++ t)%string (a ++ b).
Proof.
  intros s t a b S T A r R. rewrite sapp_assoc, S by (now apply A). rewrite T by exact R.
  symmetry. apply map_app_some.
Qed.

Lemma lexes_any_app : forall s t a b, lexes_any s a -> lexes t b -> lexes (s ++ t)%string (a ++ b).
Proof.
  intros s t a b S T r R. rewrite sapp_assoc, S, T by exact R. symmetry. apply map_app_some.
Qed.

Lemma any_any_app : forall s t a b, lexes_any s a -> lexes_any t b -> lexes_any (s ++ t)%string (a ++ b).
Proof.
  intros s t a b S T r. rewrite sapp_assoc, S, T. symmetry. apply map_app_some.
Qed.

(** Text that ends apart from anything. *)
Lemma lexes_close : forall s t a b, lexes s a -> lexes_any t b ->
  (forall r, apart_from (t ++ r)%string) -> lexes_any (s ++ t)%string (a ++ b).
Proof.
  intros s t a b S T A r. rewrite sapp_assoc, S by apply A. rewrite T. symmetry. apply map_app_some.
Qed.

Lemma any_space : forall s ts, lexes_any s ts -> lexes_any (" " ++ s)%string ts.
Proof. intros s ts H r. exact (H r). Qed.

(** Operators and delimiters of one character that begin no longer one. *)
Lemma lex_punct : forall c, In c (list_ascii_of_string "()[]{},;:+-@~&|") ->
  lexes_any (String c "") [PO (String c "")].
Proof.
  intros c H r. cbn [append]. rewrite lex_eq.
  cbn in H. decompose [or] H; try contradiction; subst c; destruct r as [|d r];
    try reflexivity;
    unfold lex_one, lex_op; cbn -[py_lex mem two_char_ops one_char_ops];
    repeat match goal with
    | |- context [mem ?x two_char_ops] =>
        replace (mem x two_char_ops) with false by
          (symmetry; unfold mem, two_char_ops; cbn; now rewrite ?andb_false_r)
    end; reflexivity.
Qed.

(** Any operator before a space. *)
Lemma lex_op_space : forall o, In o (["="; "<"; ">"; "*"] ++ two_char_ops ++ ["+"; "-"; "@"; "&"; "|"]) ->
  lexes_any (o ++ " ")%string [PO o].
Proof.
  intros o H r. cbn in H. decompose [or] H; try contradiction; subst o;
    cbn [append]; rewrite lex_eq; unfold lex_one, lex_op;
    cbn -[py_lex]; reflexivity.
Qed.

(** ** Names *)

Lemma letter_ops : forall c, py_letter c = true -> Ascii.eqb c " " = false /\ Ascii.eqb c "#" = false.
Proof. intros [[] [] [] [] [] [] [] []]; vm_compute; intros H; try discriminate H; split; reflexivity. Qed.

Lemma span_app : forall p a r, forallb p (list_ascii_of_string a) = true ->
  match r with EmptyString => True | String c _ => p c = false end ->
  span p (a ++ r)%string = (a, r).
Proof.
  intros p a r. induction a as [|c a IH]; cbn; intros F R.
  - destruct r as [|c r]; [reflexivity|]. cbn. now rewrite R.
  - apply andb_prop in F. destruct F as [F1 F2]. rewrite F1, (IH F2 R). reflexivity.
Qed.

Definition identifier (s : string) : bool :=
  match s with
  | String c r => py_letter c && forallb py_idchar (list_ascii_of_string r)
  | EmptyString => false
  end.

Lemma identifier_chars : forall s, identifier s = true -> forallb py_idchar (list_ascii_of_string s) = true.
Proof.
  intros [|c r]; cbn; [discriminate|]. intros H. apply andb_prop in H. destruct H as [A B].
  rewrite B. unfold py_idchar. rewrite A. reflexivity.
Qed.

Lemma lex_name : forall s, identifier s = true -> lexes s [PN s].
Proof.
  intros s H r R. destruct s as [|c s]; [discriminate|].
  pose proof (identifier_chars _ H) as F. cbn in H. apply andb_prop in H. destruct H as [L I].
  cbn [append]. rewrite lex_eq. destruct (letter_ops c L) as [-> ->].
  unfold lex_one. rewrite L.
  assert (E : span py_idchar (String c (s ++ r)) = (String c s, r)).
  { apply (span_app py_idchar (String c s) r F). destruct r; [exact Logic.I|]. apply R. }
  destruct (s ++ r)%string as [|d t] eqn:ET.
  - rewrite E. destruct r; [|discriminate (f_equal String.length (eq_sym ET)) || (destruct s; discriminate)].
    reflexivity.
  - assert (Q : Ascii.eqb c "f" && Ascii.eqb d c_dquote = false).
    { apply andb_false_iff. right. apply Ascii.eqb_neq. intros ->.
      destruct s as [|x s]; cbn in ET.
      - subst r. destruct R as (_ & _ & R). apply R; reflexivity.
      - injection ET as -> _. cbn in I. discriminate I. }
    rewrite Q, E. reflexivity.
Qed.

(** ** Numbers *)

Lemma digit_ops : forall c, py_digit c = true ->
  Ascii.eqb c " " = false /\ Ascii.eqb c "#" = false /\ py_letter c = false /\ py_idchar c = true.
Proof. intros [[] [] [] [] [] [] [] []]; vm_compute; intros H; try discriminate H; repeat split; reflexivity. Qed.

Definition number_text (s : string) : bool :=
  negb (String.eqb s "") && forallb py_digit (list_ascii_of_string s).

Lemma digit_not_id : forall c, py_idchar c = false -> py_digit c = false.
Proof. intros c H. unfold py_idchar in H. apply orb_false_elim in H. apply H. Qed.

Lemma lex_number : forall s, number_text s = true -> lexes s [PNum s].
Proof.
  intros s H r R. unfold number_text in H. apply andb_prop in H. destruct H as [N F].
  destruct s as [|c s]; [discriminate|].
  assert (D : py_digit c = true) by (cbn in F; apply andb_prop in F; apply F).
  cbn [append]. rewrite lex_eq. destruct (digit_ops c D) as (-> & -> & Lt & _).
  unfold lex_one. rewrite Lt, D.
  assert (E : span py_digit (String c (s ++ r)) = (String c s, r)).
  { apply (span_app py_digit (String c s) r F). destruct r; [exact Logic.I|]. apply digit_not_id, R. }
  rewrite E. destruct r as [|d r]; [reflexivity|].
  destruct R as (_ & R & _). apply Ascii.eqb_neq in R. rewrite R. reflexivity.
Qed.

Lemma lex_decimal : forall a b, number_text a = true -> number_text b = true ->
  lexes (a ++ "." ++ b)%string [PNum (a ++ "." ++ b)].
Proof.
  intros a b HA HB r R. unfold number_text in HA, HB.
  apply andb_prop in HA. apply andb_prop in HB. destruct HA as [NA FA], HB as [NB FB].
  destruct a as [|c s]; [discriminate|].
  assert (D : py_digit c = true) by (cbn in FA; apply andb_prop in FA; apply FA).
  rewrite !sapp_assoc. cbn [append]. rewrite lex_eq. destruct (digit_ops c D) as (-> & -> & Lt & _).
  unfold lex_one. rewrite Lt, D.
  assert (E : span py_digit (String c (s ++ String "." (b ++ r))) = (String c s, String "." (b ++ r))).
  { apply (span_app py_digit (String c s) (String "." (b ++ r)) FA). reflexivity. }
  rewrite E. cbn [Ascii.eqb Bool.eqb].
  assert (E2 : span py_digit (b ++ r) = (b, r)).
  { apply span_app; [exact FB|]. destruct r; [exact Logic.I|]. apply digit_not_id, R. }
  replace (Ascii.eqb "." ".") with true by reflexivity. rewrite E2. reflexivity.
Qed.

(** ** Strings *)

Definition string_chars (q : ascii) (s : string) : bool :=
  forallb (fun c => negb (Ascii.eqb c q || Ascii.eqb c c_newline || Ascii.eqb c c_return
                          || Ascii.eqb c c_nul || Ascii.eqb c c_backslash)) (list_ascii_of_string s).

Lemma close_plain : forall q s r, string_chars q s = true ->
  py_close q (s ++ String q r)%string = Some (s, r).
Proof.
  intros q s r. induction s as [|c s IH]; cbn; intros H.
  - now rewrite Ascii.eqb_refl.
  - apply andb_prop in H. destruct H as [H F]. apply negb_true_iff in H.
    repeat match goal with X : _ || _ = false |- _ => apply orb_false_elim in X; destruct X end.
    repeat match goal with X : Ascii.eqb c _ = false |- _ => rewrite X; clear X end.
    cbn [orb]. rewrite (IH F). reflexivity.
Qed.

Lemma lex_fstring : forall s, string_chars c_dquote s = true ->
  lexes_any ("f" ++ String c_dquote "" ++ s ++ String c_dquote "")%string [PF s].
Proof.
  intros s H r. cbn [append]. rewrite lex_eq. cbn [Ascii.eqb Bool.eqb].
  unfold lex_one. cbn [py_letter]. rewrite !sapp_assoc. cbn [append].
  change (py_letter "f") with true. cbn iota.
  change (Ascii.eqb "f" "f" && Ascii.eqb c_dquote c_dquote) with true. cbn iota.
  rewrite (close_plain _ _ _ H). reflexivity.
Qed.

Lemma lex_quoted : forall q s, q = c_dquote \/ q = c_squote -> string_chars q s = true ->
  lexes_any (String q "" ++ s ++ String q "")%string [PS s].
Proof.
  intros q s Q H r. cbn [append]. rewrite lex_eq.
  assert (E : Ascii.eqb q " " = false /\ Ascii.eqb q "#" = false /\ py_letter q = false /\ py_digit q = false
              /\ Ascii.eqb q c_dquote || Ascii.eqb q c_squote = true)
    by (destruct Q; subst; repeat split; reflexivity).
  destruct E as (-> & -> & E1 & E2 & E3). unfold lex_one. rewrite E1, E2, E3, sapp_assoc. cbn [append].
  rewrite (close_plain _ _ _ H). reflexivity.
Qed.
