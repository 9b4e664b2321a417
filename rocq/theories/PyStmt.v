(** The lines of a generated program: what they look like and how Python reads each of them. *)
From Coq Require Import String Ascii Bool List Arith Lia DecimalString.
From Verif Require Import PyBase LexModel LexSpec GramModel ParseModel SynSpec SynInd ParseSound NameSpec
  ResolveModel ResolveGen HeaderFacts CompileFacts PySpec PyDet PyTrans PyLexFacts PyReady PyToks PyRead PyLines.
Import ListNotations.
Open Scope string_scope.
Open Scope list_scope.

(** ** No newlines *)

Lemma id_nonl : forall s, identifier s = true -> nonl s = true.
Proof.
  intros s H. apply identifier_chars in H. unfold nonl. rewrite forallb_forall in *. intros c I.
  specialize (H c I). clear - H. destruct c as [[] [] [] [] [] [] [] []]; vm_compute in H |- *; congruence.
Qed.
Lemma number_nonl : forall s, number_text s = true -> nonl s = true.
Proof.
  intros s H. unfold number_text in H. apply andb_prop in H. destruct H as [_ H].
  unfold nonl. rewrite forallb_forall in *. intros c I.
  specialize (H c I). clear - H. destruct c as [[] [] [] [] [] [] [] []]; vm_compute in H |- *; congruence.
Qed.
Lemma chars_nonl : forall q s, string_chars q s = true -> nonl s = true.
Proof.
  intros q s H. unfold nonl, string_chars in *. rewrite forallb_forall in *. intros c I. specialize (H c I).
  apply negb_true_iff in H. apply negb_true_iff.
  repeat (apply orb_false_elim in H; destruct H as [H ?]); assumption.
Qed.
Lemma join_nonl : forall sep l, nonl sep = true -> Forall (fun x => nonl x = true) l -> nonl (join sep l) = true.
Proof.
  intros sep l S F. induction F as [|x l H F IH]; [reflexivity|]. rewrite join_cons.
  destruct l; [exact H|]. now rewrite !nonl_app, H, S, IH.
Qed.

Section stmt.
  Variables structure words : bool.
  Variable fl : flags.
  Local Notation ok_name := (PyReady.ok_name words).
  Local Notation ok_e := (PyReady.ok_e structure words).
  Local Notation ok_t := (PyReady.ok_t structure words).
  Local Notation ok_l := (PyReady.ok_l structure words).
  Local Notation ok_c := (PyReady.ok_c structure words).

  Lemma str_nonl : forall ps, forallb ok_part ps = true -> nonl (gen_str fl ps) = true.
  Proof.
    intros ps H. unfold gen_str. rewrite !nonl_app. rewrite (chars_nonl c_dquote _ (parts_sc fl ps H)). reflexivity.
  Qed.

  Ltac nls := rewrite ?nonl_app; repeat match goal with H : nonl _ = true |- _ => rewrite H; clear H end; reflexivity.

  Lemma name_nonl : forall s, ok_name s = true -> nonl s = true.
  Proof. intros s H. exact (id_nonl s (ok_name_id s H)). Qed.

  Lemma var_nonl : forall s, ok_var s = true -> nonl s = true.
  Proof. intros s H. exact (id_nonl s (ok_var_id s H)). Qed.

  Theorem nonl_gen :
    (forall e, ok_e fl e = true -> nonl (gen_e fl e) = true) /\
    (forall t, ok_t fl t = true -> nonl (gen_t fl t) = true) /\
    (forall x, ok_l fl x = true -> nonl (gen_l fl x) = true) /\
    (forall c, ok_c fl c = true -> Forall (fun x => nonl x = true) (gen_c fl c)).
  Proof.
    apply syn_ind.
    - intros o l r Hl Hr K. cbn [ok_e] in K. apply andb_prop in K. destruct K as [_ K].
      apply andb_prop in K. destruct K as [K1 K2]. specialize (Hl K1). specialize (Hr K2).
      change (gen_e fl (EBin o l r)) with (bin_text fl o (gen_e fl l) (gen_e fl r)).
      unfold bin_text. destruct o; try destruct (fl_oplib fl); rewrite !nonl_app, Hl, Hr; reflexivity.
    - intros n d Hn Hd K. cbn [ok_e] in K. apply andb_prop in K. destruct K as [K1 K2].
      change (gen_e fl (EDice n d)) with ("roll(" ++ gen_t fl n ++ ", " ++ gen_t fl d ++ ")")%string.
      rewrite !nonl_app, Hn, Hd by assumption. reflexivity.
    - intros d Hd K. change (gen_e fl (EDie d)) with ("roll(" ++ gen_t fl d ++ ")")%string.
      rewrite !nonl_app, Hd by exact K. reflexivity.
    - intros t Ht K. exact (Ht K).
    - intros s K. cbn [ok_t] in K. apply andb_prop in K. exact (number_nonl s (proj1 K)).
    - intros a b K. cbn [ok_t] in K. apply andb_prop in K. destruct K as [K1 K2].
      cbn [gen_t]. rewrite !nonl_app, (number_nonl a K1), (number_nonl b K2). reflexivity.
    - intros x K. cbn [gen_t]. pose proof (var_nonl x K) as N.
      destruct (fl_vars fl); [|exact N]. rewrite !nonl_app, N. reflexivity.
    - intros p ps K. exact (str_nonl (p :: ps) K).
    - intros es F K. change (gen_t fl (TSeq es)) with ("get_seq([" ++ join ", " (map (gen_l fl) es) ++ "])")%string.
      rewrite !nonl_app, join_nonl; [reflexivity|reflexivity|].
      cbn [ok_t] in K. clear - F K. induction F as [|x es H F IH]; [constructor|].
      cbn [forallb map] in *. apply andb_prop in K. constructor; [apply H|apply IH]; tauto.
    - intros e He K. change (gen_t fl (TGroup e)) with ("(" ++ gen_e fl e ++ ")")%string.
      rewrite !nonl_app, He by exact K. reflexivity.
    - intros cs F K. cbn [ok_t] in K. apply andb_prop in K. destruct K as [K1 K2].
      change (gen_t fl (TCall cs)) with (call_text fl (call_shape cs) (flat_map (gen_c fl) cs)).
      unfold call_text. rewrite !nonl_app, (name_nonl _ K1), join_nonl; [reflexivity|reflexivity|].
      apply Forall_app. split.
      + clear - F K2. induction F as [|c cs H F IH]; [constructor|].
        cbn [forallb flat_map] in *. apply andb_prop in K2. apply Forall_app. split; [apply H|apply IH]; tauto.
      + destruct (fl_vars fl); repeat constructor.
    - intros u t Ht K. change (gen_t fl (TUn u t)) with (un_text fl u (gen_t fl t)). specialize (Ht K).
      unfold un_text. destruct u; try destruct (fl_oplib fl); rewrite ?nonl_app, Ht; reflexivity.
    - intros t Ht K. change (gen_t fl (THash t)) with ((if fl_oplib fl then "myLen(" else "len(") ++ gen_t fl t ++ ")")%string.
      specialize (Ht K). destruct (fl_oplib fl); rewrite !nonl_app, Ht; reflexivity.
    - intros e He K. exact (He K).
    - intros a b Ha Hb K. cbn [ok_l] in K. apply andb_prop in K. destruct K as [K1 K2].
      change (gen_l fl (LRange a b)) with ("myrange(" ++ gen_e fl a ++ ", " ++ gen_e fl b ++ ")")%string.
      rewrite !nonl_app, Ha, Hb by assumption. reflexivity.
    - constructor.
    - intros e He K. constructor; [exact (He K)|constructor].
  Qed.

  (** ** No colons *)

  Definition nc (t : ptok) : Prop := t <> PO ":".

  Lemma nc_commas : forall l, Forall (Forall nc) l -> Forall nc (commas l).
  Proof.
    intros l F. induction F as [|x l H F IH]; [constructor|]. cbn [commas].
    destruct l; [exact H|]. apply Forall_app. split; [exact H|]. constructor; [discriminate|exact IH].
  Qed.
  Lemma nc_call : forall f l, Forall (Forall nc) l -> Forall nc (call_toks f l).
  Proof.
    intros f l F. unfold call_toks. constructor; [discriminate|]. constructor; [discriminate|].
    apply Forall_app. split; [now apply nc_commas|]. repeat constructor. discriminate.
  Qed.
  Lemma nc_var : forall x, Forall nc (pt_var fl x).
  Proof. intros x. unfold pt_var. destruct (fl_vars fl); repeat constructor; discriminate. Qed.

  Theorem nc_gen :
    (forall e, Forall nc (pt_e fl e)) /\ (forall t, Forall nc (pt_t fl t)) /\
    (forall x, Forall nc (pt_l fl x)) /\ (forall c, Forall (Forall nc) (pt_c fl c)).
  Proof.
    apply syn_ind.
    - intros o l r Hl Hr. cbn [pt_e]. unfold pt_bin. destruct (op_function fl o).
      + apply nc_call. repeat constructor; assumption.
      + assert (G : Forall nc (pt_e fl l ++ PO (py_operator o) :: pt_e fl r)).
        { apply Forall_app. split; [exact Hl|]. constructor; [destruct o; discriminate|exact Hr]. }
        destruct o; try exact G. constructor; [discriminate|]. apply Forall_app. split; [exact G|].
        repeat constructor. discriminate.
    - intros n d Hn Hd. apply nc_call. repeat constructor; assumption.
    - intros d Hd. apply nc_call. repeat constructor; assumption.
    - intros t Ht. exact Ht.
    - intros s. repeat constructor; discriminate.
    - intros a b. repeat constructor; discriminate.
    - intros x. apply nc_var.
    - intros p ps. repeat constructor; discriminate.
    - intros es F. change (pt_t fl (TSeq es)) with (call_toks "get_seq" [PO "[" :: commas (map (pt_l fl) es) ++ [PO "]"]]).
      apply nc_call. constructor; [|constructor]. constructor; [discriminate|]. apply Forall_app. split.
      + apply nc_commas. now apply Forall_map.
      + repeat constructor; discriminate.
    - intros e He. change (pt_t fl (TGroup e)) with (PO "(" :: pt_e fl e ++ [PO ")"]).
      constructor; [discriminate|]. apply Forall_app. split; [exact He|]. repeat constructor; discriminate.
    - intros cs F. change (pt_t fl (TCall cs)) with (call_toks (mangle fl (call_shape cs))
        (flat_map (pt_c fl) cs ++ if fl_vars fl then [[PN "vars"]] else [])).
      apply nc_call. apply Forall_app. split; [now apply flat_map_Forall|].
      destruct (fl_vars fl); repeat constructor; discriminate.
    - intros u t Ht. cbn [pt_t]. unfold pt_un. destruct u; try (constructor; [discriminate|exact Ht]).
      destruct (fl_oplib fl); [apply nc_call; repeat constructor; assumption|constructor; [discriminate|exact Ht]].
    - intros t Ht. apply nc_call. repeat constructor; assumption.
    - intros e He. exact He.
    - intros a b Ha Hb. apply nc_call. repeat constructor; assumption.
    - constructor.
    - intros e He. constructor; [exact He|constructor].
  Qed.

  Lemma no_colon : forall t ts, py_lex t = Some ts -> Forall nc ts -> ~ opens t.
  Proof.
    intros t ts L F [us E]. rewrite L in E. injection E as E. rewrite E in F.
    apply Forall_app in F. destruct F as [_ F]. exact (Forall_inv F eq_refl).
  Qed.

  (** ** Tokens *)

  Ltac apart := intros; split; [reflexivity|split; intros X; discriminate X].

  Lemma any_word : forall w, identifier w = true -> lexes_any (w ++ " ") [PN w].
  Proof.
    intros w I r. rewrite PyLexFacts.sapp_assoc.
    rewrite (lex_name w I (" " ++ r)%string) by (apart). change (" " ++ r)%string with (String " " r).
    rewrite (lex_eq " " r). reflexivity.
  Qed.

  Lemma lex_word : forall w a t, identifier w = true -> lexes a t -> lexes (w ++ " " ++ a) (PN w :: t).
  Proof.
    intros w a t I L. rewrite <- PyLexFacts.sapp_assoc. apply (lexes_any_app (w ++ " ") a [PN w] t (any_word w I) L).
  Qed.

  Lemma lex_head : forall a t, lexes a t -> lexes_any (a ++ ":") (t ++ [PO ":"]).
  Proof.
    intros a t L. apply lexes_close; [exact L|apply lex_punct; cbn; tauto|]. apart.
  Qed.

  Lemma lex_named : forall s t, lexes_any ("f" ++ s) t -> lexes ("named=" ++ "f" ++ s) (PN "named" :: PO "=" :: t).
  Proof.
    intros s t L r A. change ("named=" ++ "f" ++ s)%string with ("named" ++ ("=" ++ ("f" ++ s)))%string.
    rewrite PyLexFacts.sapp_assoc. rewrite (lex_name "named" eq_refl) by (apart).
    rewrite PyLexFacts.sapp_assoc. change ("=" ++ (("f" ++ s) ++ r))%string with (String "=" (("f" ++ s) ++ r)%string).
    rewrite lex_eq. change (Ascii.eqb "=" " ") with false. change (Ascii.eqb "=" "#") with false. cbn iota.
    change (lex_one (String "=" (("f" ++ s) ++ r))) with (Some (PO "=", (("f" ++ s) ++ r)%string)). cbn iota.
    rewrite (L r). destruct (py_lex r); reflexivity.
  Qed.

  (** One line of generated code with its tokens. *)
  Definition a_line (t : string) (ts : list ptok) : Prop :=
    py_lex t = Some ts /\ line_ok t = true.

  Lemma make_line : forall t ts, lexes t ts -> line_ok t = true -> a_line t ts.
  Proof. intros t ts L K. split; [now apply lexes_all|exact K]. Qed.

  (** Begins with a letter. *)
  Lemma line_id : forall s r, identifier s = true -> nonl r = true -> line_ok (s ++ r) = true.
  Proof.
    intros s r I N. pose proof (id_nonl s I) as M. destruct s as [|c s]; [discriminate|].
    cbn [append]. unfold line_ok. cbn [identifier] in I. apply andb_prop in I. destruct I as [I _]. rewrite I.
    cbn [orb andb]. change (String c (s ++ r)) with (String c s ++ r)%string. now rewrite nonl_app, M, N.
  Qed.
  Lemma line_letter : forall c s, py_letter c = true -> nonl (String c s) = true -> line_ok (String c s) = true.
  Proof. intros c s L N. unfold line_ok. now rewrite L, N. Qed.

  (** *** Lines of simple statements *)

  Definition p_output (e : expr) : list ptok := call_toks "output" [pt_e fl e].
  Lemma output_line : forall e, ok_e fl e = true -> a_line (gen_s fl (SOutput e)) (p_output e).
  Proof.
    intros e K. apply make_line.
    - apply any_lexes. apply (lex_call1 "output" (gen_e fl e) (pt_e fl e) eq_refl). exact (proj1 (lex_gen fl) e K).
    - change (gen_s fl (SOutput e)) with ("output" ++ "(" ++ gen_e fl e ++ ")")%string.
      apply line_id; [reflexivity|]. rewrite !nonl_app, (proj1 nonl_gen e K). reflexivity.
  Qed.

  Definition p_named (e : expr) (ps : list part) : list ptok :=
    call_toks "output" [pt_e fl e; PN "named" :: PO "=" :: pt_str fl ps].
  Lemma named_line : forall e p ps, ok_e fl e = true -> forallb ok_part (p :: ps) = true ->
    a_line (gen_s fl (SNamed e p ps)) (p_named e (p :: ps)).
  Proof.
    intros e p ps K P. 
    assert (E : gen_s fl (SNamed e p ps)
      = ("output" ++ "(" ++ gen_e fl e ++ ", " ++ ("named=" ++ gen_str fl (p :: ps)) ++ ")")%string).
    { cbn [gen_s]. change (", named=" ++ gen_str fl (p :: ps) ++ ")")%string
        with (", " ++ "named=" ++ gen_str fl (p :: ps) ++ ")")%string. rewrite !PyLexFacts.sapp_assoc. reflexivity. }
    rewrite E. apply make_line.
    - apply any_lexes. apply lex_call2; [reflexivity|exact (proj1 (lex_gen fl) e K)|].
      apply lex_named. exact (lex_str fl (p :: ps) P).
    - apply line_id; [reflexivity|]. rewrite !nonl_app, (proj1 nonl_gen e K), (str_nonl _ P). reflexivity.
  Qed.

  Definition p_set (ps : list part) (e : expr) : list ptok := call_toks "settings_set" [pt_str fl ps; pt_e fl e].
  Lemma set_line : forall e p ps, ok_e fl e = true -> forallb ok_part (p :: ps) = true ->
    a_line (gen_s fl (SSet p ps e)) (p_set (p :: ps) e).
  Proof.
    intros e p ps K P. apply make_line.
    - apply any_lexes. apply (lex_call2 "settings_set" (gen_str fl (p :: ps)) (gen_e fl e) _ _ eq_refl).
      + apply any_lexes. exact (lex_str fl (p :: ps) P).
      + exact (proj1 (lex_gen fl) e K).
    - change (gen_s fl (SSet p ps e)) with ("settings_set" ++ "(" ++ gen_str fl (p :: ps) ++ ", " ++ gen_e fl e ++ ")")%string.
      apply line_id; [reflexivity|]. rewrite !nonl_app, (proj1 nonl_gen e K), (str_nonl _ P). reflexivity.
  Qed.

  Lemma result_line : forall e, ok_e fl e = true -> a_line (gen_s fl (SResult e)) (PN "return" :: pt_e fl e).
  Proof.
    intros e K. apply make_line.
    - apply (lex_word "return"); [reflexivity|exact (proj1 (lex_gen fl) e K)].
    - change (gen_s fl (SResult e)) with ("return" ++ " " ++ gen_e fl e)%string.
      apply line_id; [reflexivity|]. rewrite !nonl_app, (proj1 nonl_gen e K). reflexivity.
  Qed.

  Lemma assign_line : forall x e, ok_var x = true -> ok_e fl e = true ->
    a_line (gen_s fl (SAssign x e)) (pt_var fl x ++ PO "=" :: pt_e fl e).
  Proof.
    intros x e X K. pose proof (ok_var_id x X) as I.
    assert (E : gen_s fl (SAssign x e)
       = ((if fl_vars fl then "vars['" ++ x ++ "']" else x) ++ " " ++ "=" ++ " " ++ gen_e fl e)%string).
    { cbn [gen_s]. destruct (fl_vars fl); [rewrite !PyLexFacts.sapp_assoc; reflexivity|reflexivity]. }
    rewrite E. apply make_line.
    - apply lex_infix; [cbn; tauto|exact (lex_var fl x I)|exact (proj1 (lex_gen fl) e K)].
    - destruct (fl_vars fl).
      + rewrite !PyLexFacts.sapp_assoc. apply (line_id "vars"); [reflexivity|].
        change (nonl ("['" ++ (x ++ ("'] = " ++ gen_e fl e))) = true).
        rewrite !nonl_app, (id_nonl x I), (proj1 nonl_gen e K). reflexivity.
      + apply line_id; [exact I|]. rewrite !nonl_app, (proj1 nonl_gen e K). reflexivity.
  Qed.

  Lemma pass_line : a_line "pass" [PN "pass"].
  Proof. apply make_line; [|reflexivity]. exact (lex_name "pass" eq_refl). Qed.

  Lemma vars_line : a_line "vars = {}" [PN "vars"; PO "="; PO "{"; PO "}"].
  Proof. split; reflexivity. Qed.

  Lemma decorator_line : a_line "@anydice_casting()" [PO "@"; PN "anydice_casting"; PO "("; PO ")"].
  Proof. split; reflexivity. Qed.

  (** *** Lines that open a block *)

  Lemma head_line : forall w a t, identifier w = true -> lexes a t -> nonl a = true ->
    a_line (w ++ " " ++ a ++ ":") (PN w :: t ++ [PO ":"]).
  Proof.
    intros w a t I L N. apply make_line.
    - apply lex_word; [exact I|]. apply any_lexes, lex_head, L.
    - apply line_id; [exact I|]. now rewrite !nonl_app, N.
  Qed.

  Definition loop_head (x : string) (e : expr) : string := ("for " ++ x ++ " in " ++ gen_e fl e ++ ":")%string.
  Lemma loop_line : forall x e, ok_var x = true -> ok_e fl e = true ->
    a_line (loop_head x e) (PN "for" :: PN x :: PN "in" :: pt_e fl e ++ [PO ":"]).
  Proof.
    intros x e X K. pose proof (ok_var_id x X) as I. unfold loop_head.
    change ("for " ++ x ++ " in " ++ gen_e fl e ++ ":")%string
      with ("for" ++ " " ++ (x ++ " " ++ ("in" ++ " " ++ (gen_e fl e ++ ":"))))%string.
    apply make_line.
    - apply lex_word; [reflexivity|]. apply lex_word; [exact I|]. apply lex_word; [reflexivity|].
      apply any_lexes, lex_head. exact (proj1 (lex_gen fl) e K).
    - apply line_id; [reflexivity|]. rewrite !nonl_app, (id_nonl x I), (proj1 nonl_gen e K). reflexivity.
  Qed.

  Lemma else_line : a_line "else:" [PN "else"; PO ":"].
  Proof. split; reflexivity. Qed.

  Definition loop_var (x : string) : string := ("vars['" ++ x ++ "'] = " ++ x)%string.
  Lemma loop_var_line : forall x, ok_var x = true ->
    a_line (loop_var x) [PN "vars"; PO "["; PS x; PO "]"; PO "="; PN x].
  Proof.
    intros x X. pose proof (ok_var_id x X) as I.
    assert (E : loop_var x = (("vars[" ++ String c_squote "" ++ x ++ String c_squote "" ++ "]") ++ " " ++ "=" ++ " " ++ x)%string).
    { unfold loop_var. rewrite !PyLexFacts.sapp_assoc. reflexivity. }
    rewrite E. apply make_line.
    - apply (lex_infix "=" _ x [PN "vars"; PO "["; PS x; PO "]"] [PN x]); [cbn; tauto| |exact (lex_name x I)].
      apply any_lexes. apply (lex_vars_at c_squote x); [now left|exact I].
    - rewrite <- E. unfold loop_var. apply line_letter; [reflexivity|].
      change (nonl ("vars['" ++ (x ++ ("'] = " ++ x))) = true).
      rewrite !nonl_app, (id_nonl x I). reflexivity.
  Qed.

  (** *** Function headers *)

  Definition ok_param (p : string * option ptype) : bool :=
    ok_var (fst p) && match snd p with None => true | Some ty => ok_name (type_text ty) end.

  Definition pt_param (p : string * option ptype) : list ptok :=
    PN (fst p) :: match snd p with None => [] | Some ty => [PO ":"; PN (type_text ty)] end.

  Lemma lex_param : forall p, ok_param p = true -> lexes (param_text p) (pt_param p).
  Proof.
    intros [x ty] K. unfold ok_param in K. cbn [fst snd] in K. apply andb_prop in K. destruct K as [K1 K2].
    apply ok_var_id in K1. unfold param_text, pt_param. cbn [fst snd]. destruct ty as [ty|].
    - apply ok_name_id in K2.
      change (": " ++ type_text ty)%string with (":" ++ (" " ++ type_text ty))%string.
      apply (lexes_app x (":" ++ (" " ++ type_text ty)) [PN x] [PO ":"; PN (type_text ty)]).
      + exact (lex_name x K1).
      + apply (lexes_any_app ":" (" " ++ type_text ty) [PO ":"] [PN (type_text ty)]).
        * apply lex_punct. cbn. tauto.
        * intros r A. change ((" " ++ type_text ty) ++ r)%string with (String " " (type_text ty ++ r)%string).
          rewrite (lex_eq " "). change (Ascii.eqb " " " ") with true. cbn iota. exact (lex_name _ K2 r A).
      + apart.
    - exact (lex_name x K1).
  Qed.

  Lemma param_nonl : forall p, ok_param p = true -> nonl (param_text p) = true.
  Proof.
    intros [x ty] K. unfold ok_param in K. cbn [fst snd] in K. apply andb_prop in K. destruct K as [K1 K2].
    apply var_nonl in K1. destruct ty as [ty|]; [|exact K1]. apply name_nonl in K2.
    cbn [param_text]. now rewrite !nonl_app, K1, K2.
  Qed.

  Definition def_head (hs : list hitem) : string :=
    ("def " ++ mangle fl (header_shape hs) ++ "("
     ++ join ", " (map param_text (renamed 0 [] (params hs)) ++ if fl_vars fl then ["vars"] else [])%list ++ "):")%string.
  Definition pt_params (ps : list (string * option ptype)) : list (list ptok) :=
    map pt_param ps ++ if fl_vars fl then [[PN "vars"]] else [].

  Lemma def_line : forall hs, ok_name (mangle fl (header_shape hs)) = true ->
    forallb ok_param (renamed 0 [] (params hs)) = true ->
    a_line (def_head hs)
      (PN "def" :: PN (mangle fl (header_shape hs)) :: PO "(" :: commas (pt_params (renamed 0 [] (params hs))) ++ [PO ")"; PO ":"]).
  Proof.
    intros hs N P. apply ok_name_id in N.
    set (l := (map param_text (renamed 0 [] (params hs)) ++ if fl_vars fl then ["vars"] else [])%list).
    assert (E : def_head hs = ("def" ++ " " ++ (mangle fl (header_shape hs) ++ "(" ++ join ", " l ++ ")") ++ ":")%string).
    { unfold def_head. fold l. rewrite !PyLexFacts.sapp_assoc. reflexivity. }
    rewrite E.
    replace (PN "def" :: PN (mangle fl (header_shape hs)) :: PO "(" :: commas (pt_params (renamed 0 [] (params hs))) ++ [PO ")"; PO ":"])
      with (PN "def" :: call_toks (mangle fl (header_shape hs)) (pt_params (renamed 0 [] (params hs))) ++ [PO ":"]).
    2:{ unfold call_toks. cbn [app]. rewrite <- app_assoc. reflexivity. }
    rewrite forallb_forall in P. apply head_line; [reflexivity| |].
    - apply any_lexes. apply lex_call; [exact N|]. unfold l, pt_params. apply Forall2_app.
      + clear - P. induction (renamed 0 [] (params hs)) as [|p ps IH]; [constructor|]. cbn [map].
        constructor; [apply lex_param, P; now left|apply IH; intros q I; apply P; now right].
      + destruct (fl_vars fl); repeat constructor. exact (lex_name "vars" eq_refl).
    - rewrite !nonl_app, (id_nonl _ N), join_nonl; [reflexivity|reflexivity|].
      unfold l. apply Forall_app. split; [|destruct (fl_vars fl); repeat constructor].
      apply Forall_map, Forall_forall. intros p I. apply param_nonl, P, I.
  Qed.

  (** *** The copy of the variables in a function *)

  Fixpoint semis (l : list (list ptok)) : list ptok :=
    match l with
    | [] => []
    | [x] => x
    | x :: l' => x ++ PO ";" :: semis l'
    end.

  Lemma lex_semis : forall l ts, Forall2 lexes l ts -> lexes (join "; " l) (semis ts).
  Proof.
    intros l ts F. induction F as [|x t l ts H F IH].
    - intros r A. change (py_lex r = option_map (app []) (py_lex r)). now destruct (py_lex r).
    - rewrite join_cons. cbn [semis]. destruct F as [|y u l ts H' F]; [exact H|].
      change ("; " ++ join "; " (y :: l))%string with (";" ++ (" " ++ join "; " (y :: l)))%string.
      apply (lexes_app x (";" ++ (" " ++ join "; " (y :: l))) t (PO ";" :: semis (u :: ts))); [exact H| |apart].
      apply (lexes_any_app ";" (" " ++ join "; " (y :: l)) [PO ";"] (semis (u :: ts))).
      + apply lex_punct. cbn. tauto.
      + intros r A. change ((" " ++ join "; " (y :: l)) ++ r)%string with (String " " (join "; " (y :: l) ++ r)%string).
        rewrite (lex_eq " "). change (Ascii.eqb " " " ") with true. cbn iota. exact (IH r A).
  Qed.

  Definition set_text (p : string * option ptype) : string :=
    ("vars[" ++ quote ++ fst p ++ quote ++ "] = " ++ fst p)%string.
  Definition pt_set (p : string * option ptype) : list ptok :=
    [PN "vars"; PO "["; PS (fst p); PO "]"; PO "="; PN (fst p)].
  Definition enter_line (ps : list (string * option ptype)) : string :=
    ("vars = vars.copy(); " ++ join "; " (map set_text ps))%string.
  Definition copy_toks : list ptok := [PN "vars"; PO "="; PN "vars"; PO "."; PN "copy"; PO "("; PO ")"].

  Lemma lex_copy : lexes_any "vars = vars.copy(); " (copy_toks ++ [PO ";"]).
  Proof.
    intros r.
    assert (S1 : py_lex ("vars = vars.copy(); " ++ r) = option_map (app [PN "vars"; PO "="]) (py_lex ("vars.copy(); " ++ r))).
    { change ("vars = vars.copy(); " ++ r)%string with (("vars" ++ " " ++ "=" ++ " ") ++ "vars.copy(); " ++ r)%string.
      assert (L : lexes_any ("vars" ++ " " ++ "=" ++ " ") [PN "vars"; PO "="]).
      { intros x. rewrite !PyLexFacts.sapp_assoc. change ("vars" ++ " " ++ "=" ++ " " ++ x)%string with (("vars" ++ " ") ++ (("=" ++ " ") ++ x))%string.
        rewrite (any_word "vars" eq_refl). rewrite (lex_op_space "="); [|cbn; tauto]. now destruct (py_lex x). }
      apply L. }
    rewrite S1. clear S1.
    assert (S2 : py_lex ("vars.copy(); " ++ r) = option_map (app [PN "vars"; PO "."; PN "copy"; PO "("; PO ")"; PO ";"]) (py_lex r)).
    { change ("vars.copy(); " ++ r)%string with (String "v" ("ars.copy(); " ++ r)). rewrite lex_eq.
      change (lex_one (String "v" ("ars.copy(); " ++ r))) with (Some (PN "vars", (".copy(); " ++ r)%string)).
      change (Ascii.eqb "v" " ") with false. change (Ascii.eqb "v" "#") with false. cbn iota.
      change (".copy(); " ++ r)%string with (String "." ("copy(); " ++ r)). rewrite (lex_eq ".").
      change (lex_one (String "." ("copy(); " ++ r))) with (Some (PO ".", ("copy(); " ++ r)%string)).
      change (Ascii.eqb "." " ") with false. change (Ascii.eqb "." "#") with false. cbn iota.
      change ("copy(); " ++ r)%string with ("copy" ++ ("();" ++ (String " " r)))%string.
      rewrite (lex_name "copy" eq_refl) by (apart).
      change ("();" ++ String " " r)%string with ("(" ++ (")" ++ (";" ++ (String " " r))))%string.
      rewrite (lex_punct "("); [|cbn; tauto]. rewrite (lex_punct ")"); [|cbn; tauto].
      rewrite (lex_punct ";"); [|cbn; tauto]. rewrite (lex_eq " "). change (Ascii.eqb " " " ") with true. cbn iota.
      now destruct (py_lex r). }
    rewrite S2. now destruct (py_lex r).
  Qed.

  Lemma lex_set : forall p, ok_var (fst p) = true -> lexes (set_text p) (pt_set p).
  Proof.
    intros p K. apply ok_var_id in K. unfold set_text, pt_set.
    assert (E : ("vars[" ++ quote ++ fst p ++ quote ++ "] = " ++ fst p)%string
      = (("vars[" ++ String c_dquote "" ++ fst p ++ String c_dquote "" ++ "]") ++ " " ++ "=" ++ " " ++ fst p)%string).
    { rewrite !PyLexFacts.sapp_assoc. reflexivity. }
    rewrite E.
    apply (lex_infix "=" _ (fst p) [PN "vars"; PO "["; PS (fst p); PO "]"] [PN (fst p)]); [cbn; tauto| |exact (lex_name _ K)].
    apply any_lexes. apply (lex_vars_at c_dquote (fst p)); [now right|exact K].
  Qed.

  Lemma enter_is_line : forall ps, forallb ok_param ps = true ->
    a_line (enter_line ps) (copy_toks ++ PO ";" :: semis (map pt_set ps)).
  Proof.
    intros ps P. rewrite forallb_forall in P.
    assert (Q : forall p, In p ps -> ok_var (fst p) = true).
    { intros p I. specialize (P p I). unfold ok_param in P. apply andb_prop in P. tauto. }
    unfold enter_line. apply make_line.
    - change (copy_toks ++ PO ";" :: semis (map pt_set ps)) with ((copy_toks ++ [PO ";"]) ++ semis (map pt_set ps)).
      apply lexes_any_app; [exact lex_copy|]. apply lex_semis.
      clear - Q. induction ps as [|p ps IH]; [constructor|]. cbn [map].
      constructor; [apply lex_set, Q; now left|apply IH; intros q I; apply Q; now right].
    - change ("vars = vars.copy(); " ++ join "; " (map set_text ps))%string
        with ("vars" ++ (" = vars.copy(); " ++ join "; " (map set_text ps)))%string.
      apply line_id; [reflexivity|]. rewrite nonl_app, join_nonl; [reflexivity|reflexivity|].
      apply Forall_map, Forall_forall. intros p I. unfold set_text. rewrite !nonl_app, (var_nonl _ (Q p I)). reflexivity.
  Qed.
End stmt.
Arguments name_nonl {words}.
Arguments lex_param {words}.
Arguments param_nonl {words}.
Arguments def_line {words}.
Arguments enter_is_line {words}.
Arguments nonl_gen {structure words}.
Arguments output_line {structure words}.
Arguments named_line {structure words}.
Arguments set_line {structure words}.
Arguments result_line {structure words}.
Arguments assign_line {structure words}.
Arguments loop_line {structure words}.
