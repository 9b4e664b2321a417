(** What the generated text of an expression needs to be read back, collected
    in one condition that follows from the conditions on the program. *)
From Coq Require Import String Ascii Bool List Arith Lia.
From Verif Require Import PyBase LexModel LexSpec LexFacts GramModel ParseModel SynSpec SynInd ParseSound NameSpec
  ResolveModel ResolveGen HeaderFacts CompileFacts PySpec PyTrans PyLexFacts.
Import ListNotations.
Open Scope string_scope.
Open Scope list_scope.

(** ** Characters *)

Lemma chars_forallb : forall (P : ascii -> Prop) (p : ascii -> bool) s,
  (forall c, P c -> p c = true) -> all_chars P s -> forallb p (list_ascii_of_string s) = true.
Proof.
  intros P p s H F. unfold all_chars, chars in F. apply forallb_forall. intros c I.
  rewrite Forall_forall in F. auto.
Qed.

Lemma upper_py : forall c, upper_letter c -> py_letter c = true.
Proof.
  intros c H. unfold upper_letter, chars in H. cbn in H.
  repeat (destruct H as [<-|H]; [reflexivity|]). contradiction.
Qed.
Lemma lower_py : forall c, lower_letter c -> py_letter c = true.
Proof.
  intros c H. unfold lower_letter, chars in H. cbn in H.
  repeat (destruct H as [<-|H]; [reflexivity|]). contradiction.
Qed.
Lemma digit_py : forall c, digit c -> py_digit c = true.
Proof.
  intros c H. unfold digit, chars in H. cbn in H.
  repeat (destruct H as [<-|H]; [reflexivity|]). contradiction.
Qed.
Lemma letter_id : forall c, py_letter c = true -> py_idchar c = true.
Proof. intros c H. unfold py_idchar. now rewrite H. Qed.

Lemma letters_identifier : forall s, s <> "" -> forallb py_letter (list_ascii_of_string s) = true ->
  identifier s = true.
Proof.
  intros [|c s] N F; [contradiction|]. cbn in F |- *. apply andb_prop in F. destruct F as [F1 F2].
  rewrite F1. cbn. apply forallb_forall. intros d I. apply letter_id.
  rewrite forallb_forall in F2. auto.
Qed.

Lemma upper_identifier : forall s, a_word upper_letter s -> identifier s = true.
Proof.
  intros s [N F]. apply letters_identifier; [exact N|]. exact (chars_forallb _ _ s upper_py F).
Qed.
Lemma lower_identifier : forall s, a_word lower_letter s -> identifier s = true.
Proof.
  intros s [N F]. apply letters_identifier; [exact N|]. exact (chars_forallb _ _ s lower_py F).
Qed.
Lemma digits_number : forall s, a_word digit s -> number_text s = true.
Proof.
  intros s [N F]. unfold number_text. rewrite (chars_forallb _ _ s digit_py F).
  apply String.eqb_neq in N. now rewrite N.
Qed.

Lemma mem_in : forall x l, mem x l = true <-> In x l.
Proof.
  intros x l. unfold mem. rewrite existsb_exists. split.
  - intros (y & I & E). apply String.eqb_eq in E. now subst.
  - intros I. exists x. split; [exact I|apply String.eqb_refl].
Qed.
Lemma mem_name : forall s, mem s py_keywords = false -> py_name s.
Proof. intros s H I. apply mem_in in I. congruence. Qed.

(** Keywords are written in small letters. *)
Lemma upper_not_keyword : forall s, a_word upper_letter s -> mem s py_keywords = false.
Proof.
  intros s [N F]. destruct (mem s py_keywords) eqn:E; [|reflexivity]. exfalso.
  apply mem_in in E. unfold all_chars, chars in F.
  assert (H : forall c r, s = String c r -> lower_letter c -> False).
  { intros c r -> L. cbn in F. apply Forall_inv in F.
    unfold lower_letter, upper_letter, chars in *. cbn in L, F.
    repeat (destruct L as [<-|L]; [cbn in F; repeat (destruct F as [F|F]; [discriminate F|]); contradiction|]). contradiction. }
  cbn in E. repeat (destruct E as [<-|E]; [eapply H; [reflexivity|vm_compute; tauto]|]). contradiction.
Qed.

Lemma number_plain : forall s, plain_number s = true -> py_number s.
Proof.
  intros s H (r & ->). left. destruct r as [|d r].
  - cbn. intros c [<-|[]]. reflexivity.
  - cbn [plain_number] in H. rewrite forallb_forall in H. intros c I.
    specialize (H c I). apply Ascii.eqb_eq in H. now subst.
Qed.

(** Identifiers joined by underscores. *)
Lemma string_app_chars : forall a b, list_ascii_of_string (a ++ b) = list_ascii_of_string a ++ list_ascii_of_string b.
Proof. induction a; intros; cbn; [reflexivity|now rewrite IHa]. Qed.

Lemma join_letters : forall l, Forall (fun w => w <> "" /\ forallb py_letter (list_ascii_of_string w) = true) l ->
  l <> [] -> identifier (join "_" l) = true.
Proof.
  intros l F N. destruct l as [|w l]; [contradiction|]. clear N.
  apply letters_identifier.
  - destruct (Forall_inv F) as [NE _]. rewrite join_cons. destruct l; [exact NE|].
    destruct w; [contradiction|discriminate].
  - revert w F. induction l as [|v l IH]; intros w F; rewrite join_cons; destruct (Forall_inv F) as [_ H].
    + exact H.
    + rewrite !string_app_chars, !forallb_app, H, (IH v (Forall_inv_tail F)). reflexivity.
Qed.

Lemma mangle_identifier : forall fl s, shape_words s -> s <> [] -> identifier (mangle fl s) = true.
Proof.
  intros fl s W N. unfold mangle. apply join_letters.
  - apply Forall_app. split.
    + destruct (fl_prefix fl); constructor; [|constructor]. split; [discriminate|reflexivity].
    + apply Forall_map. unfold shape_words in W. eapply Forall_impl; [|exact W].
      intros [w|] H; [|split; [discriminate|reflexivity]]. destruct H as [H1 H2].
      split; [exact H1|exact (chars_forallb _ _ w lower_py H2)].
  - destruct s; [contradiction|]. destruct (fl_prefix fl); discriminate.
Qed.

Section ready.
  (** Is it asked that Python keeps the structure of expressions, and that it takes
      their words and numbers? *)
  Variables structure words : bool.
  Variable fl : flags.

  (** ** How tightly the text of an expression holds together in Python *)

  Definition op_pl (o : binop) : nat :=
    match op_function fl o with
    | Some _ => 7
    | None =>
        match o with
        | OLt | OGt | OEq | ONe | OLe | OGe => 0
        | OOr => 1 | OAnd => 2 | OAdd | OSub => 3 | OMul | ODiv => 4 | OPow => 6 | OAt => 7
        end
    end.
  Definition plt (t : term) : nat :=
    match t with
    | TUn UNot _ => if fl_oplib fl then 7 else 5
    | TUn _ _ => 5
    | _ => 7
    end.
  Definition pl (e : expr) : nat :=
    match e with EBin o _ _ => op_pl o | EDice _ _ | EDie _ => 7 | ETerm t => plt t end.

  Definition fits (o : binop) (a b : nat) : bool :=
    match op_function fl o with
    | Some _ => true
    | None =>
        match o with
        | OLt | OGt | OEq | ONe | OLe | OGe => Nat.leb 1 a && Nat.leb 1 b
        | OOr => Nat.leb 1 a && Nat.leb 2 b
        | OAnd => Nat.leb 2 a && Nat.leb 3 b
        | OAdd | OSub => Nat.leb 3 a && Nat.leb 4 b
        | OMul | ODiv | OAt => Nat.leb 4 a && Nat.leb 5 b
        | OPow => Nat.leb 7 a && Nat.leb 5 b
        end
    end.

  Lemma plt_5 : forall t, 5 <= plt t.
  Proof. intros []; cbn; try lia. destruct u; [lia|lia|]. destruct (fl_oplib fl); lia. Qed.

  Lemma fits_ok : forall o l r, keeps_op fl o l r = true -> op_level o <= level l -> op_level o < level r ->
    fits o (pl l) (pl r) = true.
  Proof.
    intros o l r K L R. unfold fits. destruct (op_function fl o) eqn:OF; [reflexivity|].
    assert (T : forall e, (exists o' a b, e = EBin o' a b) \/ (5 <= pl e /\ level e = 8 /\ top e = None)).
    { intros [o' a b|n d|d|t]; [left; eauto|right|right|right]; cbn; repeat split; try lia. apply plt_5. }
    unfold op_function in OF.
    assert (PW : o = OPow -> 7 <= pl l).
    { intros ->. cbn [keeps_op] in K. apply andb_prop in K. destruct K as [K1 K2].
      destruct l as [o' a b|n d|d|t]; cbn [pl]; try lia.
      - destruct o'; cbn in L; try lia; try discriminate K2; unfold op_pl, op_function; destruct (fl_oplib fl); lia.
      - destruct t; cbn; try lia. cbn in K1. destruct u; try discriminate K1. destruct (fl_oplib fl); [lia|discriminate K1]. }
    assert (E : forall e o' a b, e = EBin o' a b -> level e = op_level o' /\ pl e = op_pl o' /\ top e = Some o')
      by (intros e o' a b ->; repeat split).
    destruct o; try (apply andb_true_intro; split; apply Nat.leb_le);
      try (specialize (PW eq_refl)); try lia;
      try (destruct (T l) as [(o' & a & b & X)|(X & Y & Z)]; [destruct (E _ _ _ _ X) as (X1 & X2 & X3)|lia];
           rewrite X1 in L; rewrite X2; destruct o'; cbn in L; try lia;
           unfold keeps_op, top_comparison in K; rewrite ?X3 in K;
           unfold op_pl, op_function; destruct (fl_oplib fl); try lia; try discriminate OF; cbn in K;
           try discriminate K; rewrite ?andb_false_r in K; discriminate K);
      try (destruct (T r) as [(o' & a & b & X)|(X & Y & Z)]; [destruct (E _ _ _ _ X) as (X1 & X2 & X3)|lia];
           rewrite X1 in R; rewrite X2; destruct o'; cbn in R; try lia;
           unfold keeps_op, top_comparison in K; rewrite ?X3 in K;
           unfold op_pl, op_function; destruct (fl_oplib fl); try lia; try discriminate OF; cbn in K;
           try discriminate K; rewrite ?andb_false_r in K; discriminate K).
  Qed.

  (** ** The condition *)

  Definition ok_name (s : string) : bool := identifier s && implb words (negb (mem s py_keywords)).
  (** Variables are written in capitals. *)
  Definition ok_var (s : string) : bool := identifier s && negb (mem s py_keywords).
  Definition ok_part (p : part) : bool :=
    match p with
    | PAny s | PNonvar s => string_chars c_dquote s
    | PVar v => identifier v
    end.

  Fixpoint ok_e (e : expr) : bool :=
    match e with
    | EBin o l r => implb structure (fits o (pl l) (pl r)) && (ok_e l && ok_e r)
    | EDice n d => ok_t n && ok_t d
    | EDie d => ok_t d
    | ETerm t => ok_t t
    end
  with ok_t (t : term) : bool :=
    match t with
    | TNum s => number_text s && implb words (plain_number s)
    | TDec a b => number_text a && number_text b
    | TVar x => ok_var x
    | TStr p ps => forallb ok_part (p :: ps)
    | TSeq es => forallb ok_l es
    | TGroup e => ok_e e
    | TCall cs => ok_name (mangle fl (call_shape cs)) && forallb ok_c cs
    | TUn _ t | THash t => ok_t t
    end
  with ok_l (x : element) : bool :=
    match x with LOne e => ok_e e | LRange a b => ok_e a && ok_e b end
  with ok_c (c : citem) : bool :=
    match c with CWord _ => true | CArg e => ok_e e end.

  Lemma upper_ok : forall x, a_word upper_letter x -> ok_var x = true.
  Proof. intros x W. unfold ok_var. now rewrite (upper_identifier x W), (upper_not_keyword x W). Qed.

  Lemma good_upper : forall x, good (tUPPERNAME, x) -> a_word upper_letter x.
  Proof. intros x G. inversion G; subst; [assumption|]. match goal with K : keyword _ _ |- _ => inversion K end. Qed.
  Lemma good_number : forall x, good (tNUMBER, x) -> a_word digit x.
  Proof. intros x G. inversion G; subst; [assumption|]. match goal with K : keyword _ _ |- _ => inversion K end. Qed.

  Lemma body_plain : forall s, all_chars string_char s -> forallb plain_char (list_ascii_of_string s) = true ->
    string_chars c_dquote s = true.
  Proof.
    intros s F P. unfold string_chars. apply forallb_forall. intros c I.
    unfold all_chars, chars in F. rewrite Forall_forall in F. destruct (F c I) as (A & B & _).
    rewrite forallb_forall in P. specialize (P c I). unfold plain_char in P. apply negb_true_iff in P.
    apply orb_false_elim in P. destruct P as [P P3]. apply orb_false_elim in P. destruct P as [P1 P2].
    rewrite P1, P2, P3. apply Ascii.eqb_neq in A, B. unfold cNL in A. unfold cQUOTE in B.
    change c_newline with (LexModel.chr 10). change c_dquote with (LexModel.chr 34).
    rewrite A, B. reflexivity.
  Qed.

  Lemma part_ready : forall p, good (part_tok p) -> plain_part p = true -> ok_part p = true.
  Proof.
    intros [s|s|v] G K; cbn [part_tok plain_part ok_part] in *.
    - inversion G; subst; try (match goal with K : keyword _ _ |- _ => inversion K end).
      apply body_plain; [|exact K]. match goal with W : a_word _ _ |- _ => exact (proj2 W) end.
    - inversion G; subst; try (match goal with K : keyword _ _ |- _ => inversion K end).
      match goal with X : _ = snd _ |- _ => cbn [snd] in X; subst s end.
      unfold string_chars. cbn [append list_ascii_of_string forallb].
      match goal with W : all_chars _ ?r |- _ => pose proof (body_plain r W) as B end.
      cbn [append list_ascii_of_string forallb] in K. apply andb_prop in K. destruct K as [_ K].
      specialize (B K). unfold string_chars in B. rewrite B. reflexivity.
    - remember (tINSTRING_VAR, ("[" ++ v ++ "]")%string) as k eqn:EK. unfold good in G.
      assert (X : exists v', a_word upper_letter v' /\ ("[" ++ v' ++ "]")%string = ("[" ++ v ++ "]")%string).
      { subst k. cbn [fst snd] in G. remember ("[" ++ v ++ "]")%string as w eqn:EW. inversion G; subst.
        - match goal with K : keyword _ _ |- _ => inversion K end.
        - eauto. }
      destruct X as (v' & W & E). cbn [append] in E. injection E as E.
      apply upper_identifier.
      assert (Q : v' = v).
      { clear - E. revert v E. induction v' as [|c v' IH]; intros [|d v] E; cbn in E; try discriminate E.
        - reflexivity.
        - injection E as -> E. destruct v; discriminate E.
        - injection E as -> E. destruct v'; discriminate E.
        - injection E as -> E. f_equal. now apply IH. }
      now subst v'.
  Qed.

  Lemma parts_ready : forall ps, Forall good (map part_tok ps) -> forallb plain_part ps = true ->
    forallb ok_part ps = true.
  Proof.
    intros ps G K. apply forallb_forall. intros p I. apply part_ready.
    - rewrite Forall_map, Forall_forall in G. auto.
    - rewrite forallb_forall in K. auto.
  Qed.

  (** ** Programs that meet it *)

  Definition keeps_if (k : bool) : Prop := structure = true -> k = true.
  Definition words_if (k : bool) : Prop := words = true -> k = true.

  Lemma if_and : forall b x y, (b = true -> x && y = true) -> (b = true -> x = true) /\ (b = true -> y = true).
  Proof. intros b x y H. split; intros B; specialize (H B); apply andb_prop in H; tauto. Qed.
  Lemma if_implb : forall b x, (b = true -> x = true) -> implb b x = true.
  Proof. intros [] x H; [exact (H eq_refl)|reflexivity]. Qed.

  Lemma forallb_ready : forall A (f s k v h : A -> bool) (G : A -> Prop) l,
    Forall (fun x => G x -> f x = true -> s x = true -> keeps_if (k x) -> words_if (v x) -> h x = true) l ->
    Forall G l -> forallb f l = true -> forallb s l = true -> keeps_if (forallb k l) -> words_if (forallb v l) ->
    forallb h l = true.
  Proof.
    intros A f s k v h G l F. induction F as [|x l H F IH]; intros GL FL SL KL VL; [reflexivity|].
    cbn in FL, SL, KL, VL |- *. apply andb_prop in FL. apply andb_prop in SL.
    apply if_and in KL. apply if_and in VL.
    rewrite H, IH; try tauto; [exact (Forall_inv_tail GL)|exact (Forall_inv GL)].
  Qed.

  Theorem ready :
    (forall e, Forall good (toks_e e) -> wf_e e = true -> strings_e e = true ->
       keeps_if (keeps_e fl e) -> words_if (words_e fl e) -> ok_e e = true) /\
    (forall t, Forall good (toks_t t) -> wf_t t = true -> strings_t t = true ->
       keeps_if (keeps_t fl t) -> words_if (words_t fl t) -> ok_t t = true) /\
    (forall x, Forall good (toks_l x) -> wf_l x = true -> strings_l x = true ->
       keeps_if (keeps_l fl x) -> words_if (words_l fl x) -> ok_l x = true) /\
    (forall c, Forall good (toks_c c) -> wf_c c = true -> strings_c c = true ->
       keeps_if (keeps_c fl c) -> words_if (words_c fl c) -> ok_c c = true).
  Proof.
    apply syn_ind.
    - intros o l r Hl Hr G W S K V. cbn [toks_e] in G. apply Forall_app in G. destruct G as [G1 G2].
      apply Forall_app in G2. destruct G2 as [_ G2]. cbn [wf_e] in W. cbn [keeps_e] in K. cbn [ok_e].
      cbn [strings_e] in S. cbn [words_e] in V. apply andb_prop in S. destruct S as [S1 S2].
      apply if_and in V. destruct V as [V1 V2].
      apply andb_prop in W. destruct W as [W W4]. apply andb_prop in W. destruct W as [W W3].
      apply andb_prop in W. destruct W as [W1 W2]. apply if_and in K. destruct K as [K K3].
      apply if_and in K. destruct K as [K1 K2]. apply Nat.leb_le in W1. apply Nat.ltb_lt in W2.
      rewrite (if_implb structure _ (fun B => fits_ok o l r (K1 B) W1 W2)), Hl, Hr by assumption. reflexivity.
    - intros n d Hn Hd G W S K V. cbn [toks_e] in G. apply Forall_app in G. destruct G as [G1 G2].
      apply Forall_inv_tail in G2. cbn [wf_e keeps_e strings_e words_e] in *. apply andb_prop in W. apply andb_prop in S.
      apply if_and in K. apply if_and in V.
      cbn [ok_e]. rewrite Hn, Hd by tauto. reflexivity.
    - intros d Hd G W S K V. cbn [toks_e] in G. apply Forall_inv_tail in G. exact (Hd G W S K V).
    - intros t Ht G W S K V. exact (Ht G W S K V).
    - intros s G _ _ _ V. cbn [toks_t] in G. cbn [words_t] in V. cbn [ok_t].
      rewrite (digits_number s (good_number s (Forall_inv G))), (if_implb words _ V). reflexivity.
    - intros a b G _ _ _ _. cbn [toks_t] in G. cbn [ok_t].
      rewrite (digits_number a (good_number a (Forall_inv G))).
      rewrite (digits_number b (good_number b (Forall_inv (Forall_inv_tail (Forall_inv_tail G))))). reflexivity.
    - intros x G _ _ _ _. cbn [toks_t] in G. cbn [ok_t]. apply upper_ok, good_upper, (Forall_inv G).
    - intros p ps G _ S _ _. cbn [toks_t] in G. cbn [strings_t] in S. cbn [ok_t]. exact (parts_ready (p :: ps) G S).
    - intros es F G W S K V. cbn [toks_t] in G. apply Forall_inv_tail in G. apply Forall_app in G. destruct G as [G _].
      apply sepby_good in G. cbn [wf_t keeps_t strings_t words_t] in *. cbn [ok_t].
      exact (forallb_ready _ wf_l strings_l (keeps_l fl) (words_l fl) ok_l (fun x => Forall good (toks_l x)) es F
               (proj1 (Forall_map toks_l (Forall good) es) G) W S K V).
    - intros e He G W S K V. cbn [toks_t] in G. apply Forall_inv_tail in G. apply Forall_app in G.
      exact (He (proj1 G) W S K V).
    - intros cs F G W S K V. cbn [toks_t] in G. apply Forall_inv_tail in G. apply Forall_app in G. destruct G as [G _].
      cbn [wf_t keeps_t strings_t words_t] in *. cbn [ok_t]. apply andb_prop in W. destruct W as [W W3].
      apply andb_prop in W. destruct W as [W1 _]. apply if_and in K. destruct K as [K1 K2].
      apply if_and in V. destruct V as [V1 V2].
      apply andb_true_intro. split.
      + unfold ok_name. rewrite mangle_identifier.
        * exact (if_implb words _ V1).
        * exact (call_words cs G).
        * destruct cs; [discriminate W1|discriminate].
      + exact (forallb_ready _ wf_c strings_c (keeps_c fl) (words_c fl) ok_c (fun x => Forall good (toks_c x)) cs F
                 (flat_map_good _ _ _ G) W3 S K2 V2).
    - intros u t Ht G W S K V. cbn [toks_t] in G. apply Forall_inv_tail in G. exact (Ht G W S K V).
    - intros t Ht G W S K V. cbn [toks_t] in G. apply Forall_inv_tail in G. exact (Ht G W S K V).
    - intros e He G W S K V. exact (He G W S K V).
    - intros a b Ha Hb G W S K V. cbn [toks_l] in G. apply Forall_app in G. destruct G as [G1 G2].
      apply Forall_inv_tail in G2. cbn [wf_l keeps_l strings_l words_l] in *. apply andb_prop in W. apply andb_prop in S.
      apply if_and in K. apply if_and in V.
      cbn [ok_l]. rewrite Ha, Hb by tauto. reflexivity.
    - reflexivity.
    - intros e He G W S K V. exact (He G W S K V).
  Qed.
End ready.

(** What keeps its structure has plain strings and words. *)
Lemma forallb_impl : forall A (f g : A -> bool) l, Forall (fun x => f x = true -> g x = true) l ->
  forallb f l = true -> forallb g l = true.
Proof.
  intros A f g l F. induction F as [|x l H F IH]; intros K; [reflexivity|]. cbn [forallb] in *.
  apply andb_prop in K. rewrite H, IH by tauto. reflexivity.
Qed.
Ltac sw := cbn [strings_e strings_t strings_l strings_c words_e words_t words_l words_c].
Theorem keeps_plain : forall fl,
  (forall e, keeps_e fl e = true -> strings_e e = true /\ words_e fl e = true) /\
  (forall t, keeps_t fl t = true -> strings_t t = true /\ words_t fl t = true) /\
  (forall x, keeps_l fl x = true -> strings_l x = true /\ words_l fl x = true) /\
  (forall c, keeps_c fl c = true -> strings_c c = true /\ words_c fl c = true).
Proof.
  intros fl. apply syn_ind.
  - intros o l r Hl Hr K. cbn [keeps_e] in K. apply andb_prop in K. destruct K as [K K2]. apply andb_prop in K.
    destruct K as [_ K1]. destruct (Hl K1) as [A B], (Hr K2) as [C D]. sw. now rewrite A, B, C, D.
  - intros n d Hn Hd K. cbn [keeps_e] in K. apply andb_prop in K. destruct K as [K1 K2].
    destruct (Hn K1) as [A B], (Hd K2) as [C D].
    change (strings_t n && strings_t d = true /\ words_t fl n && words_t fl d = true). now rewrite A, B, C, D.
  - intros d Hd K. exact (Hd K).
  - intros t Ht K. exact (Ht K).
  - intros s K. split; [reflexivity|exact K].
  - intros a b _. now split.
  - intros x _. now split.
  - intros p ps K. split; [exact K|reflexivity].
  - intros es F K. cbn [keeps_t] in K. sw. split; apply (forallb_impl _ (keeps_l fl)); try exact K;
      refine (Forall_impl _ _ F); intros x H Kx; apply (H Kx).
  - intros e He K. exact (He K).
  - intros cs F K. cbn [keeps_t] in K. apply andb_prop in K. destruct K as [K1 K2]. sw. rewrite K1.
    split; [|cbn [andb]]; apply (forallb_impl _ (keeps_c fl)); try exact K2;
      refine (Forall_impl _ _ F); intros x H Kx; apply (H Kx).
  - intros u t Ht K. exact (Ht K).
  - intros t Ht K. exact (Ht K).
  - intros e He K. exact (He K).
  - intros a b Ha Hb K. cbn [keeps_l] in K. apply andb_prop in K. destruct K as [K1 K2].
    destruct (Ha K1) as [A B], (Hb K2) as [C D].
    change (strings_e a && strings_e b = true /\ words_e fl a && words_e fl b = true). now rewrite A, B, C, D.
  - intros w _. now split.
  - intros e He K. exact (He K).
Qed.
