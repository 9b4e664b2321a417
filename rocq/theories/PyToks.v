(** The Python tokens of the text of an expression. *)
From Coq Require Import String Ascii Bool List Arith Lia.
From Verif Require Import PyBase LexModel LexSpec GramModel ParseModel SynSpec SynInd NameSpec
  ResolveModel ResolveGen CompileFacts PySpec PyTrans PyLexFacts PyReady.
Import ListNotations.
Open Scope string_scope.
Open Scope list_scope.

(** Tokens separated by commas. *)
Fixpoint commas (l : list (list ptok)) : list ptok :=
  match l with
  | [] => []
  | [x] => x
  | x :: l' => x ++ PO "," :: commas l'
  end.

Definition call_toks (f : string) (args : list (list ptok)) : list ptok :=
  PN f :: PO "(" :: commas args ++ [PO ")"].

Section toks.
  Variables structure words : bool.
  Variable fl : flags.
  Local Notation ok_name := (PyReady.ok_name words).
  Local Notation ok_e := (PyReady.ok_e structure words).
  Local Notation ok_t := (PyReady.ok_t structure words).
  Local Notation ok_l := (PyReady.ok_l structure words).
  Local Notation ok_c := (PyReady.ok_c structure words).

  Definition pt_str (ps : list part) : list ptok := [PF (join "" (map (gen_part fl) ps))].

  Definition pt_var (x : string) : list ptok :=
    if fl_vars fl then [PN "vars"; PO "["; PS x; PO "]"] else [PN x].

  Definition pt_bin (o : binop) (a b : list ptok) : list ptok :=
    match op_function fl o with
    | Some f => call_toks f [a; b]
    | None =>
        match o with
        | OAt => PO "(" :: (a ++ PO (py_operator o) :: b) ++ [PO ")"]
        | _ => a ++ PO (py_operator o) :: b
        end
    end.

  Definition pt_un (u : unop) (a : list ptok) : list ptok :=
    match u with
    | UPos => PO "+" :: a
    | UNeg => PO "-" :: a
    | UNot => if fl_oplib fl then call_toks "myInvert" [a] else PO "~" :: a
    end.

  Fixpoint pt_e (e : expr) : list ptok :=
    match e with
    | EBin o l r => pt_bin o (pt_e l) (pt_e r)
    | EDice n d => call_toks "roll" [pt_t n; pt_t d]
    | EDie d => call_toks "roll" [pt_t d]
    | ETerm t => pt_t t
    end
  with pt_t (t : term) : list ptok :=
    match t with
    | TNum s => [PNum s]
    | TDec a b => [PNum (a ++ "." ++ b)]
    | TVar x => pt_var x
    | TStr p ps => pt_str (p :: ps)
    | TSeq es => call_toks "get_seq" [PO "[" :: commas (map pt_l es) ++ [PO "]"]]
    | TGroup e => PO "(" :: pt_e e ++ [PO ")"]
    | TCall cs => call_toks (mangle fl (call_shape cs))
                            (flat_map pt_c cs ++ if fl_vars fl then [[PN "vars"]] else [])
    | TUn u t => pt_un u (pt_t t)
    | THash t => call_toks (if fl_oplib fl then "myLen" else "len") [pt_t t]
    end
  with pt_l (x : element) : list ptok :=
    match x with
    | LOne e => pt_e e
    | LRange a b => call_toks "myrange" [pt_e a; pt_e b]
    end
  with pt_c (c : citem) : list (list ptok) :=
    match c with CWord _ => [] | CArg e => [pt_e e] end.

  (** ** Lexing *)

  Ltac apart := intros; split; [reflexivity|split; intros X; discriminate X].

  Lemma lexes_nil : lexes "" [].
  Proof. intros r R. change ("" ++ r)%string with r. destruct (py_lex r); reflexivity. Qed.

  Lemma lex_join : forall l ts, Forall2 lexes l ts -> lexes (join ", " l) (commas ts).
  Proof.
    intros l ts F. induction F as [|s t l ts H F IH]; [apply lexes_nil|].
    destruct F as [|s' t' l ts H' F].
    - exact H.
    - change (join ", " (s :: s' :: l)) with (s ++ ", " ++ join ", " (s' :: l))%string.
      change (commas (t :: t' :: ts)) with (t ++ [PO ","] ++ commas (t' :: ts)).
      apply lexes_app; [exact H| |apart].
      change (", " ++ join ", " (s' :: l))%string with (String "," "" ++ (" " ++ join ", " (s' :: l)))%string.
      apply lexes_any_app; [apply lex_punct; cbn; tauto|]. exact IH.
  Qed.

  Lemma lex_call : forall f l ts, identifier f = true -> Forall2 lexes l ts ->
    lexes_any (f ++ "(" ++ join ", " l ++ ")") (call_toks f ts).
  Proof.
    intros f l ts I F.
    assert (A : lexes_any ("(" ++ join ", " l ++ ")") (PO "(" :: commas ts ++ [PO ")"])).
    { change (PO "(" :: commas ts ++ [PO ")"]) with ([PO "("] ++ (commas ts ++ [PO ")"])).
      apply any_any_app; [apply lex_punct; cbn; tauto|].
      apply lexes_close; [now apply lex_join|apply lex_punct; cbn; tauto|apart]. }
    change (call_toks f ts) with ([PN f] ++ (PO "(" :: commas ts ++ [PO ")"])).
    apply lexes_close; [now apply lex_name|exact A|apart].
  Qed.

  Lemma lex_call1 : forall f a t, identifier f = true -> lexes a t ->
    lexes_any (f ++ "(" ++ a ++ ")") (call_toks f [t]).
  Proof. intros f a t I A. apply (lex_call f [a] [t] I). constructor; [exact A|constructor]. Qed.

  Lemma lex_call2 : forall f a b t u, identifier f = true -> lexes a t -> lexes b u ->
    lexes_any (f ++ "(" ++ a ++ ", " ++ b ++ ")") (call_toks f [t; u]).
  Proof.
    intros f a b t u I A B.
    replace (f ++ "(" ++ a ++ ", " ++ b ++ ")")%string with (f ++ "(" ++ join ", " [a; b] ++ ")")%string.
    - apply lex_call; [exact I|]. repeat constructor; assumption.
    - unfold join. cbn [String.concat]. now rewrite !PyLexFacts.sapp_assoc.
  Qed.

  Lemma lex_infix : forall o a b t u,
    In o (["="; "<"; ">"; "*"] ++ two_char_ops ++ ["+"; "-"; "@"; "&"; "|"]) ->
    lexes a t -> lexes b u -> lexes (a ++ " " ++ o ++ " " ++ b) (t ++ PO o :: u).
  Proof.
    intros o a b t u I A B. change (t ++ PO o :: u) with (t ++ ([PO o] ++ u)).
    apply lexes_app; [exact A| |apart].
    replace (" " ++ o ++ " " ++ b)%string with (" " ++ ((o ++ " ") ++ b))%string
      by (now rewrite PyLexFacts.sapp_assoc).
    intros r R. change (py_lex ((" " ++ ((o ++ " ") ++ b)) ++ r)) with (py_lex (((o ++ " ") ++ b) ++ r)).
    apply (lexes_any_app _ _ _ _ (lex_op_space o I) B r R).
  Qed.

  Lemma lex_prefix : forall c a t, In c (list_ascii_of_string "()[]{},;:+-@~&|") -> lexes a t ->
    lexes (String c "" ++ a) (PO (String c "") :: t).
  Proof.
    intros c a t I A. change (PO (String c "") :: t) with ([PO (String c "")] ++ t).
    apply lexes_any_app; [now apply lex_punct|exact A].
  Qed.

  Lemma lex_brackets : forall c d a t, In c (list_ascii_of_string "()[]{},;:+-@~&|") ->
    In d (list_ascii_of_string ")]") -> lexes a t ->
    lexes_any (String c "" ++ a ++ String d "") (PO (String c "") :: t ++ [PO (String d "")]).
  Proof.
    intros c d a t I J A. change (PO (String c "") :: t ++ [PO (String d "")])
      with ([PO (String c "")] ++ (t ++ [PO (String d "")])).
    apply any_any_app; [now apply lex_punct|]. apply lexes_close; [exact A| |].
    - apply lex_punct. cbn in J |- *. tauto.
    - intros r. cbn in J. destruct J as [<-|[<-|[]]]; apart.
  Qed.

  Lemma id_squote : forall x, identifier x = true -> string_chars c_squote x = true.
  Proof.
    intros x I. apply identifier_chars in I. unfold string_chars. apply forallb_forall. intros c C.
    rewrite forallb_forall in I. specialize (I c C).
    destruct c as [[] [] [] [] [] [] [] []]; vm_compute in I |- *; congruence.
  Qed.
  Lemma id_dquote : forall x, identifier x = true -> string_chars c_dquote x = true.
  Proof.
    intros x I. apply identifier_chars in I. unfold string_chars. apply forallb_forall. intros c C.
    rewrite forallb_forall in I. specialize (I c C).
    destruct c as [[] [] [] [] [] [] [] []]; vm_compute in I |- *; congruence.
  Qed.

  Lemma lex_vars_at : forall q x, q = c_squote \/ q = c_dquote -> identifier x = true ->
    lexes_any ("vars[" ++ String q "" ++ x ++ String q "" ++ "]") [PN "vars"; PO "["; PS x; PO "]"].
  Proof.
    intros q x Q I.
    assert (L : lexes_any (String q "" ++ x ++ String q "") [PS x]).
    { apply lex_quoted; [tauto|]. destruct Q; subst; [now apply id_squote|now apply id_dquote]. }
    change [PN "vars"; PO "["; PS x; PO "]"] with ([PN "vars"] ++ (PO "[" :: [PS x] ++ [PO "]"])).
    change ("vars[" ++ String q "" ++ x ++ String q "" ++ "]")%string
      with ("vars" ++ (String "[" "" ++ (String q "" ++ x ++ String q "" ++ "]")))%string.
    replace (String q "" ++ x ++ String q "" ++ "]")%string
      with ((String q "" ++ x ++ String q "") ++ "]")%string by (now rewrite !PyLexFacts.sapp_assoc).
    apply lexes_close; [apply lex_name; reflexivity| |apart].
    apply (lex_brackets "[" "]"); [cbn; tauto|cbn; tauto|apply any_lexes, L].
  Qed.

  Lemma lex_var : forall x, identifier x = true ->
    lexes (if fl_vars fl then "vars['" ++ x ++ "']" else x) (pt_var x).
  Proof.
    intros x I. unfold pt_var. destruct (fl_vars fl); [|now apply lex_name].
    apply any_lexes. exact (lex_vars_at c_squote x (or_introl eq_refl) I).
  Qed.

  Lemma sc_app : forall q a b, string_chars q (a ++ b) = string_chars q a && string_chars q b.
  Proof. intros q a b. unfold string_chars. now rewrite string_app_chars, forallb_app. Qed.

  Lemma double_sc : forall q c s, string_chars q s = true -> string_chars q (double_char c s) = true.
  Proof.
    intros q c s. unfold string_chars. induction s as [|d s IH]; [reflexivity|].
    cbn [list_ascii_of_string forallb double_char]. intros H. apply andb_prop in H. destruct H as [H1 H2].
    destruct (Ascii.eqb c d); cbn [list_ascii_of_string forallb]; rewrite H1, (IH H2); reflexivity.
  Qed.

  Lemma part_sc : forall p, ok_part p = true -> string_chars c_dquote (gen_part fl p) = true.
  Proof.
    intros [s|s|v] H; cbn [gen_part ok_part] in *; try (now apply double_sc, double_sc).
    pose proof (id_dquote v H) as V.
    destruct (fl_vars fl); rewrite !sc_app, V; reflexivity.
  Qed.

  Lemma parts_sc : forall ps, forallb ok_part ps = true -> string_chars c_dquote (join "" (map (gen_part fl) ps)) = true.
  Proof.
    induction ps as [|p ps IH]; intros H; [reflexivity|].
    cbn [forallb map] in H |- *. apply andb_prop in H. destruct H as [H1 H2].
    rewrite join_cons. destruct (map (gen_part fl) ps) as [|x l] eqn:E.
    - now apply part_sc.
    - rewrite !sc_app, (part_sc p H1), (IH H2). reflexivity.
  Qed.

  Lemma lex_str : forall ps, forallb ok_part ps = true -> lexes_any (gen_str fl ps) (pt_str ps).
  Proof. intros ps H. exact (lex_fstring _ (parts_sc ps H)). Qed.

  Lemma py_op_operator : forall o, py_op (op_text o) = py_operator o.
  Proof. intros []; reflexivity. Qed.

  Lemma lex_bin : forall o a b t u, lexes a t -> lexes b u -> lexes (bin_text fl o a b) (pt_bin o t u).
  Proof.
    intros o a b t u A B. unfold bin_text, pt_bin, op_function. rewrite !py_op_operator.
    assert (P : forall o, lexes (a ++ " " ++ py_operator o ++ " " ++ b) (t ++ PO (py_operator o) :: u)).
    { intros o'. apply lex_infix; [destruct o'; cbn; tauto|assumption|assumption]. }
    destruct o; try exact (P _); destruct (fl_oplib fl); try exact (P _);
      try (destruct (fl_oplib fl); exact (P _)).
    - apply any_lexes. exact (lex_call2 "myMatmul" a b t u eq_refl A B).
    - apply any_lexes.
      replace ("(" ++ a ++ " " ++ py_operator OAt ++ " " ++ b ++ ")")%string
        with (String "(" "" ++ (a ++ " " ++ py_operator OAt ++ " " ++ b) ++ String ")" "")%string
        by (now rewrite !PyLexFacts.sapp_assoc).
      apply lex_brackets; [cbn; tauto|cbn; tauto|exact (P OAt)].
    - apply any_lexes. exact (lex_call2 "myAnd" a b t u eq_refl A B).
    - apply any_lexes. exact (lex_call2 "myOr" a b t u eq_refl A B).
  Qed.

  Lemma lex_un : forall u a t, lexes a t -> lexes (un_text fl u a) (pt_un u t).
  Proof.
    intros u a t A. destruct u; cbn [un_text pt_un].
    - exact (lex_prefix "+" a t ltac:(cbn; tauto) A).
    - exact (lex_prefix "-" a t ltac:(cbn; tauto) A).
    - destruct (fl_oplib fl).
      + apply any_lexes. exact (lex_call1 "myInvert" a t eq_refl A).
      + exact (lex_prefix "~" a t ltac:(cbn; tauto) A).
  Qed.

  Lemma ok_name_id : forall s, ok_name s = true -> identifier s = true.
  Proof. intros s H. unfold ok_name in H. apply andb_prop in H. apply H. Qed.

  Lemma ok_var_id : forall s, ok_var s = true -> identifier s = true.
  Proof. intros s H. unfold ok_var in H. apply andb_prop in H. apply H. Qed.

  Theorem lex_gen :
    (forall e, ok_e fl e = true -> lexes (gen_e fl e) (pt_e e)) /\
    (forall t, ok_t fl t = true -> lexes (gen_t fl t) (pt_t t)) /\
    (forall x, ok_l fl x = true -> lexes (gen_l fl x) (pt_l x)) /\
    (forall c, ok_c fl c = true -> Forall2 lexes (gen_c fl c) (pt_c c)).
  Proof.
    apply syn_ind.
    - intros o l r Hl Hr K. cbn [ok_e] in K. apply andb_prop in K. destruct K as [_ K].
      apply andb_prop in K. apply lex_bin; tauto.
    - intros n d Hn Hd K. cbn [ok_e] in K. apply andb_prop in K. destruct K as [K1 K2].
      apply any_lexes. exact (lex_call2 "roll" _ _ _ _ eq_refl (Hn K1) (Hd K2)).
    - intros d Hd K. apply any_lexes. exact (lex_call1 "roll" _ _ eq_refl (Hd K)).
    - intros t Ht K. exact (Ht K).
    - intros s K. cbn [ok_t] in K. apply andb_prop in K. apply lex_number, K.
    - intros a b K. cbn [ok_t] in K. apply andb_prop in K. apply lex_decimal; apply K.
    - intros x K. apply lex_var, ok_var_id, K.
    - intros p ps K. apply any_lexes, lex_str, K.
    - intros es F K. cbn [ok_t] in K. apply any_lexes.
      change (gen_t fl (TSeq es)) with ("get_seq([" ++ join ", " (map (gen_l fl) es) ++ "])")%string.
      change (pt_t (TSeq es)) with (call_toks "get_seq" [PO "[" :: commas (map pt_l es) ++ [PO "]"]]).
      replace ("get_seq([" ++ join ", " (map (gen_l fl) es) ++ "])")%string
        with ("get_seq" ++ "(" ++ (String "[" "" ++ join ", " (map (gen_l fl) es) ++ String "]" "") ++ ")")%string
        by (rewrite !PyLexFacts.sapp_assoc; reflexivity).
      apply lex_call1; [reflexivity|]. apply any_lexes, lex_brackets; [cbn; tauto|cbn; tauto|].
      apply lex_join. clear - F K. induction F as [|x es H F IH]; [constructor|].
      cbn [forallb map] in *. apply andb_prop in K. constructor; [apply H|apply IH]; tauto.
    - intros e He K. apply any_lexes. exact (lex_brackets "(" ")" _ _ ltac:(cbn; tauto) ltac:(cbn; tauto) (He K)).
    - intros cs F K. cbn [ok_t] in K. apply andb_prop in K. destruct K as [K1 K2].
      apply any_lexes, lex_call; [now apply ok_name_id|]. apply Forall2_app.
      + change (Forall2 lexes (flat_map (gen_c fl) cs) (flat_map pt_c cs)). clear - F K2. induction F as [|c cs H F IH]; [constructor|].
        cbn [forallb flat_map] in *. apply andb_prop in K2. apply Forall2_app; [apply H|apply IH]; tauto.
      + destruct (fl_vars fl); repeat constructor. now apply lex_name.
    - intros u t Ht K. apply lex_un, Ht, K.
    - intros t Ht K. cbn [gen_t pt_t]. apply any_lexes. destruct (fl_oplib fl).
      + exact (lex_call1 "myLen" _ _ eq_refl (Ht K)).
      + exact (lex_call1 "len" _ _ eq_refl (Ht K)).
    - intros e He K. exact (He K).
    - intros a b Ha Hb K. cbn [ok_l] in K. apply andb_prop in K. destruct K as [K1 K2].
      apply any_lexes. exact (lex_call2 "myrange" _ _ _ _ eq_refl (Ha K1) (Hb K2)).
    - constructor.
    - intros e He K. constructor; [exact (He K)|constructor].
  Qed.
End toks.
Arguments ok_name_id {words}.
Arguments lex_gen {structure words}.
