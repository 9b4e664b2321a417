(** What the compiler accepts, Python reads as its translation. *)
From Coq Require Import String Ascii Bool List Arith Lia DecimalString Decimal Permutation.
From Verif Require Import PyBase LexModel LexSpec GramModel ParseModel SynSpec SynInd ParseSound ParseLaws NameSpec
  ResolveModel ResolveGen HeaderFacts CompileFacts PySpec PyDet PyTrans PyLexFacts PyReady PyToks PyRead PyLines PyStmt PyProg.
Import ListNotations.
Open Scope string_scope.
Open Scope list_scope.

(** ** Accepted programs are ready *)

Lemma uint_digits : forall u, forallb py_digit (list_ascii_of_string (NilEmpty.string_of_uint u)) = true.
Proof. induction u; cbn [NilEmpty.string_of_uint list_ascii_of_string forallb]; try rewrite IHu; reflexivity. Qed.
Lemma show_digits : forall n, forallb py_digit (list_ascii_of_string (show n)) = true.
Proof.
  intros n. unfold show. destruct (Nat.to_uint n) eqn:E; try (rewrite <- E; clear E); unfold NilZero.string_of_uint;
    try reflexivity; destruct (Nat.to_uint n); try reflexivity; apply uint_digits.
Qed.

Lemma dummy_ok : forall i, ok_var (dummy i) = true.
Proof.
  intros i. unfold ok_var, dummy. rewrite andb_true_iff. split; [|reflexivity].
  change (forallb py_idchar (list_ascii_of_string ("ummy" ++ show i)) = true).
  rewrite string_app_chars, forallb_app. apply andb_true_intro. split; [reflexivity|].
  pose proof (show_digits i) as D. rewrite forallb_forall in *. intros c I. specialize (D c I).
  unfold py_idchar. rewrite D. apply orb_true_r.
Qed.

Section ready.
  Variables structure words : bool.
  Variable fl : flags.
  Local Notation keeps_if := (PyReady.keeps_if structure).
  Local Notation words_if := (PyReady.words_if words).
  Local Notation ok_s := (PyProg.ok_s structure words fl).
  Local Notation ok_b := (PyProg.ok_b structure words fl).

  Lemma type_ready : forall hs, Forall good (flat_map toks_h hs) -> words_if (forallb plain_type (params hs)) ->
    Forall (fun p => match snd p with None => True | Some ty => ok_name words (type_text ty) = true end) (params hs).
  Proof.
    induction hs as [|h hs IH]; intros G K; [constructor|].
    cbn [flat_map] in G. apply Forall_app in G. destruct G as [G1 G2]. unfold params in *. cbn [flat_map] in *.
    rewrite forallb_app in K. apply if_and in K. destruct K as [K1 K2].
    apply Forall_app. split; [|exact (IH G2 K2)].
    destruct h as [w| |x|x ty]; cbn [param_of] in *; [constructor|constructor|constructor; [exact Logic.I|constructor]|].
    constructor; [|constructor]. cbn [snd forallb] in *. rewrite andb_true_r in K1. unfold plain_type in K1. cbn [snd] in K1.
    unfold ok_name. rewrite (type_annotation ty). rewrite (if_implb words _ K1), andb_true_r.
    rewrite <- type_annotation. cbn [toks_h] in G1. apply Forall_inv_tail, Forall_inv_tail, Forall_inv in G1.
    destruct ty as [|s]; [reflexivity|]. unfold type_text, dtype. cbn [ptype_tok snd] in *.
    destruct (String.eqb s "s"); [reflexivity|]. destruct (String.eqb s "n"); [reflexivity|].
    destruct (String.eqb s "d"); [reflexivity|]. inversion G1; subst.
    - match goal with K : keyword _ _ |- _ => inversion K end.
    - apply lower_identifier. assumption.
  Qed.

  Lemma params_ready : forall hs, Forall good (flat_map toks_h hs) -> words_if (forallb plain_type (params hs)) ->
    forallb (ok_param words) (renamed 0 [] (params hs)) = true.
  Proof.
    intros hs G K. pose proof (good_param hs G) as P. pose proof (type_ready hs G K) as T. clear G K.
    generalize 0 as i. generalize (@nil string) as seen. revert P T. generalize (params hs) as ps.
    induction ps as [|[x ty] ps IH]; intros P T seen i; [reflexivity|].
    cbn [renamed forallb]. rewrite (IH (Forall_inv_tail P) (Forall_inv_tail T)), andb_true_r.
    unfold ok_param. cbn [fst snd]. apply andb_true_intro. split.
    - destruct (existsb (String.eqb x) seen); [apply dummy_ok|]. apply upper_ok. exact (proj1 (Forall_inv P)).
    - pose proof (Forall_inv T) as T1. cbn [snd] in T1. destruct ty; [exact T1|reflexivity].
  Qed.

  Lemma braces_good : forall l, Forall good (braces l) -> Forall good l.
  Proof.
    intros l G. unfold braces in G. apply Forall_inv_tail in G. apply Forall_app in G. tauto.
  Qed.

  Lemma name_good : forall x, good (tUPPERNAME, x) -> ok_var x = true.
  Proof. intros x G. apply upper_ok, good_upper, G. Qed.

  Theorem ready_stmt :
    (forall s, Forall good (toks_s s) -> wf_s s = true -> strings_s s = true ->
       keeps_if (keeps_s fl s) -> words_if (words_s fl s) -> ok_s s = true) /\
    (forall b, Forall good (toks_b b) -> wf_b b = true -> strings_b b = true ->
       keeps_if (keeps_b fl b) -> words_if (words_b fl b) -> ok_b b = true).
  Proof.
    pose proof (proj1 (ready structure words fl)) as RE.
    assert (BODY : forall body,
      Forall (fun s => Forall good (toks_s s) -> wf_s s = true -> strings_s s = true ->
        keeps_if (keeps_s fl s) -> words_if (words_s fl s) -> ok_s s = true) body ->
      Forall good (flat_map toks_s body) -> forallb wf_s body = true -> forallb strings_s body = true ->
      keeps_if (forallb (keeps_s fl) body) -> words_if (forallb (words_s fl) body) ->
      forallb ok_s body = true).
    { intros body F G W S K V. exact (forallb_ready structure words _ wf_s strings_s (keeps_s fl) (words_s fl) ok_s
        (fun x => Forall good (toks_s x)) body F (flat_map_good _ _ _ G) W S K V). }
    apply stmt_ind2.
    - intros e G W S K V. cbn [toks_s] in G. exact (RE e (Forall_inv_tail G) W S K V).
    - intros e p ps G W S K V. cbn [toks_s] in G. apply Forall_inv_tail in G. apply Forall_app in G. destruct G as [G1 G2].
      apply Forall_inv_tail in G2. cbn [wf_s keeps_s strings_s words_s] in *.
      apply andb_prop in S. destruct S as [S1 S2]. apply if_and in K. destruct K as [K1 K2]. cbn [PyProg.ok_s].
      rewrite (RE e G1 W S1 K1 V). exact (parts_ready (p :: ps) G2 S2).
    - intros h hs body F G W S K V. cbn [toks_s] in G. do 2 apply Forall_inv_tail in G.
      apply Forall_app in G. destruct G as [G1 G2]. apply braces_good in G2.
      cbn [wf_s keeps_s strings_s words_s] in *. apply if_and in K. destruct K as [_ K].
      apply if_and in V. destruct V as [V V3]. apply if_and in V. destruct V as [V1 V2].
      cbn [PyProg.ok_s]. rewrite (BODY body F G2 W S K V3), (params_ready (h :: hs) G1 V2), !andb_true_r.
      unfold ok_name. rewrite mangle_identifier; [exact (if_implb words _ V1)|exact (header_words (h :: hs) G1)|].
      unfold header_shape. destruct h; discriminate.
    - intros x e body F G W S K V. cbn [toks_s] in G. apply Forall_inv_tail in G. pose proof (Forall_inv G) as X.
      do 2 apply Forall_inv_tail in G. apply Forall_app in G. destruct G as [G1 G2]. apply braces_good in G2.
      cbn [wf_s keeps_s strings_s words_s] in *. apply andb_prop in W. apply andb_prop in S. apply if_and in K. apply if_and in V.
      cbn [PyProg.ok_s].
      rewrite (name_good x X), (RE e G1 (proj1 W) (proj1 S) (proj1 K) (proj1 V)),
        (BODY body F G2 (proj2 W) (proj2 S) (proj2 K) (proj2 V)). reflexivity.
    - intros e G W S K V. cbn [toks_s] in G. exact (RE e (Forall_inv_tail (Forall_inv_tail G)) W S K V).
    - intros p ps e G W S K V. cbn [toks_s] in G. apply Forall_inv_tail in G. apply Forall_app in G. destruct G as [G1 G2].
      apply Forall_inv_tail in G2. cbn [wf_s keeps_s strings_s words_s] in *.
      apply andb_prop in S. destruct S as [S1 S2]. apply if_and in K. destruct K as [K1 K2]. cbn [PyProg.ok_s].
      rewrite (RE e G2 W S1 K1 V). exact (parts_ready (p :: ps) G1 S2).
    - intros x e G W S K V. cbn [toks_s] in G. pose proof (Forall_inv G) as X. do 2 apply Forall_inv_tail in G.
      cbn [wf_s keeps_s strings_s words_s] in *. cbn [PyProg.ok_s]. rewrite (name_good x X), (RE e G W S K V). reflexivity.
    - intros b bs els Hb F He G W S K V. cbn [toks_s] in G. apply Forall_inv_tail in G.
      apply Forall_app in G. destruct G as [G1 G2]. apply Forall_app in G2. destruct G2 as [G2 G3].
      cbn [wf_s keeps_s strings_s words_s] in *. apply andb_prop in W. destruct W as [W W3]. apply andb_prop in W. destruct W as [W1 W2].
      apply andb_prop in S. destruct S as [S S3]. apply andb_prop in S. destruct S as [S1 S2].
      apply if_and in K. destruct K as [K K3]. apply if_and in K. destruct K as [K1 K2].
      apply if_and in V. destruct V as [V V3]. apply if_and in V. destruct V as [V1 V2].
      change (ok_s (SIf b bs els)) with (ok_b b && forallb ok_b bs
        && match els with None => true | Some body => forallb ok_s body end).
      rewrite (Hb G1 W1 S1 K1 V1). apply andb_true_intro. split.
      + apply (forallb_ready structure words _ wf_b strings_b (keeps_b fl) (words_b fl) ok_b
          (fun x => Forall good (toks_b x)) bs F); [|exact W2|exact S2|exact K2|exact V2].
        apply flat_map_good in G2. refine (Forall_impl _ _ G2). intros x H. do 2 apply Forall_inv_tail in H. exact H.
      + destruct els as [body|]; [|reflexivity]. apply Forall_inv_tail in G3. apply braces_good in G3.
        exact (BODY body He G3 W3 S3 K3 V3).
    - intros c body F G W S K V. cbn [toks_b] in G. apply Forall_app in G. destruct G as [G1 G2]. apply braces_good in G2.
      cbn [wf_b keeps_b strings_b words_b] in *. apply andb_prop in W. apply andb_prop in S. apply if_and in K. apply if_and in V.
      change (ok_b (Branch c body)) with (ok_e structure words fl c && forallb ok_s body).
      rewrite (RE c G1 (proj1 W) (proj1 S) (proj1 K) (proj1 V)), (BODY body F G2 (proj2 W) (proj2 S) (proj2 K) (proj2 V)).
      reflexivity.
  Qed.

  Theorem ready_program : forall p, Forall good (toks p) -> wf p = true -> plain_strings p = true ->
    keeps_if (keeps fl p) -> words_if (plain_words fl p) -> forallb ok_s p = true.
  Proof.
    intros p G W S K V.
    apply (forallb_ready structure words _ wf_s strings_s (keeps_s fl) (words_s fl) ok_s (fun x => Forall good (toks_s x)) p);
      [|exact (flat_map_good _ _ _ G)|exact W|exact S|exact K|exact V].
    apply Forall_forall. intros s _. apply ready_stmt.
  Qed.

  (** The text of a program consists of these blocks. *)
  Definition program_blocks (p : program) : list pblock :=
    (if fl_vars fl then [PLine "vars = {}"] else []) ++ body_blocks (flat_map (blk_s fl) p).

  Theorem program_lines : forall p, forallb ok_s p = true ->
    blocks 0 (code_lines (squeeze (program_text fl p))) (program_blocks p) [].
  Proof.
    intros p OK.
    assert (EACH : forall Q : stmt -> Prop, (forall s, ok_s s = true -> Q s) -> Forall Q p).
    { intros Q H. rewrite forallb_forall in OK. apply Forall_forall. auto. }
    assert (T : Forall tidy (program_blocks p)).
    { unfold program_blocks. apply Forall_app. split.
      - destruct (fl_vars fl); [|constructor]. constructor; [|constructor].
        apply (tidy_line _ _ vars_line). repeat constructor; discriminate.
      - apply tidy_body. apply flat_map_Forall. apply EACH, (proj1 (tidy_gen fl)). }
    assert (L : code_lines (program_text fl p) = flats 0 (program_blocks p)).
    { unfold program_text, program_blocks. rewrite flats_app.
      pose proof (lays_body fl p (EACH _ (proj1 (lays_gen fl)))) as B. unfold lays in B.
      destruct (fl_vars fl).
      - replace (("vars = {}" ++ nl ++ nl) ++ block_text (map (gen_s fl) p) ++ nl)%string
          with ("vars = {}" ++ nl ++ ("" ++ nl ++ (block_text (map (gen_s fl) p) ++ nl)))%string
          by (rewrite !PyLexFacts.sapp_assoc; reflexivity).
        rewrite code_nl, code_nl, code_end, B. reflexivity.
      - cbn [append flats flat_map app]. rewrite code_end. exact B. }
    assert (Q : Forall (fun l => is_blank (snd l) = false) (code_lines (program_text fl p))).
    { rewrite L. unfold flats. apply flat_map_Forall. refine (Forall_impl _ _ T). intros b Tb.
      refine (Forall_impl _ _ (tidy_lines b Tb 0)). intros l Kl. now apply line_not_blank. }
    rewrite (code_squeeze _ Q), L. now apply blocks_flats.
  Qed.
End ready.
Arguments ready_program {structure words}.
Arguments program_lines {structure words}.

(** What keeps its structure has plain strings and words. *)
Theorem keeps_plain_stmt : forall fl,
  (forall s, keeps_s fl s = true -> strings_s s = true /\ words_s fl s = true) /\
  (forall b, keeps_b fl b = true -> strings_b b = true /\ words_b fl b = true).
Proof.
  intros fl. pose proof (proj1 (keeps_plain fl)) as KE.
  assert (BODY : forall body,
    Forall (fun s => keeps_s fl s = true -> strings_s s = true /\ words_s fl s = true) body ->
    forallb (keeps_s fl) body = true -> forallb strings_s body = true /\ forallb (words_s fl) body = true).
  { intros body F K. split; apply (forallb_impl _ (keeps_s fl)); try exact K;
      refine (Forall_impl _ _ F); intros x H Kx; apply (H Kx). }
  apply stmt_ind2.
  - intros e K. exact (KE e K).
  - intros e p ps K. cbn [keeps_s] in K. apply andb_prop in K. destruct K as [K1 K2]. destruct (KE e K1) as [A B].
    cbn [strings_s words_s]. rewrite A, B, K2. now split.
  - intros h hs body F K. cbn [keeps_s] in K. apply andb_prop in K. destruct K as [K K3]. destruct (BODY body F K3) as [A B].
    change (forallb strings_s body = true /\
      plain_fun fl (header_shape (h :: hs)) && forallb plain_type (params (h :: hs)) && forallb (words_s fl) body = true).
    rewrite K, A, B. now split.
  - intros x e body F K. cbn [keeps_s] in K. apply andb_prop in K. destruct K as [K1 K2].
    destruct (BODY body F K2) as [A B], (KE e K1) as [C D].
    change (strings_e e && forallb strings_s body = true /\ words_e fl e && forallb (words_s fl) body = true).
    rewrite A, B, C, D. now split.
  - intros e K. exact (KE e K).
  - intros p ps e K. cbn [keeps_s] in K. apply andb_prop in K. destruct K as [K1 K2]. destruct (KE e K1) as [A B].
    cbn [strings_s words_s]. rewrite A, B, K2. now split.
  - intros x e K. exact (KE e K).
  - intros b bs els Hb F He K. cbn [keeps_s] in K. apply andb_prop in K. destruct K as [K K3]. apply andb_prop in K.
    destruct K as [K1 K2]. destruct (Hb K1) as [A B].
    change (strings_b b && forallb strings_b bs && match els with None => true | Some body => forallb strings_s body end = true /\
      words_b fl b && forallb (words_b fl) bs && match els with None => true | Some body => forallb (words_s fl) body end = true).
    assert (C : forallb strings_b bs = true /\ forallb (words_b fl) bs = true).
    { split; apply (forallb_impl _ (keeps_b fl)); try exact K2; refine (Forall_impl _ _ F); intros x H Kx; apply (H Kx). }
    destruct C as [C D]. rewrite A, B, C, D. destruct els as [body|]; [exact (BODY body He K3)|now split].
  - intros c body F K. cbn [keeps_b] in K. apply andb_prop in K. destruct K as [K1 K2].
    destruct (BODY body F K2) as [A B], (KE c K1) as [C D].
    change (strings_e c && forallb strings_s body = true /\ words_e fl c && forallb (words_s fl) body = true).
    rewrite A, B, C, D. now split.
Qed.

Theorem keeps_program_plain : forall fl p, keeps fl p = true -> plain_strings p = true /\ plain_words fl p = true.
Proof.
  intros fl p K. split; apply (forallb_impl _ (keeps_s fl)); try exact K;
    apply Forall_forall; intros s _ H; apply (proj1 (keeps_plain_stmt fl) s H).
Qed.

Section program.
  Variable fl : flags.

  (** ** What is required of statements where they stand *)

  Section stands.
    Variable P : pstmt -> Prop.
    Hypothesis Pe : forall e, P (PExpr e).
    Hypothesis Pp : P PPass.
    Hypothesis Pf : forall x e body, Forall P body -> P (PFor x e body).
    Hypothesis Pi : forall c body els, Forall P body ->
      match els with None => True | Some b => Forall P b end -> P (PIf c body els).

    Lemma pass_stands : forall ss, Forall P ss -> Forall P (body_or_pass ss).
    Proof. intros [|s ss] F; [constructor; [exact Pp|constructor]|exact F]. Qed.

    Lemma if_stands : forall b bs els,
      Forall P (snd (py_b fl b)) -> Forall (fun b => Forall P (snd (py_b fl b))) bs ->
      match els with None => True | Some body => Forall P (map (py_s fl) body) end ->
      P (py_s fl (SIf b bs els)).
    Proof.
      intros [c body] bs els B F E. cbn [py_b snd] in B.
      set (PE := match els with None => None | Some body => Some (body_or_pass (map (py_s fl) body)) end).
      change (py_s fl (SIf (Branch c body) bs els)) with (PIf (py_e fl c) (body_or_pass (map (py_s fl) body))
        (fold_right (fun b els => let '(c, body) := py_b fl b in Some [PIf c body els]) PE bs)).
      apply Pi; [exact B|].
      assert (E' : match PE with None => True | Some b => Forall P b end).
      { subst PE. destruct els; [now apply pass_stands|exact Logic.I]. }
      clear - F E' Pi. induction F as [|[c body] bs H F IH]; [exact E'|].
      cbn [fold_right py_b snd] in *. constructor; [|constructor]. now apply Pi.
    Qed.
  End stands.

  Lemma inside_for : forall x e body, Forall returns_inside body -> returns_inside (PFor x e body).
  Proof. intros x e body F. cbn. induction F; [exact Logic.I|split; assumption]. Qed.
  Lemma inside_if : forall c body els, Forall returns_inside body ->
    match els with None => True | Some b => Forall returns_inside b end -> returns_inside (PIf c body els).
  Proof.
    intros c body els F G. cbn. split; [induction F; [exact Logic.I|split; assumption]|].
    destruct els as [b|]; [|exact Logic.I]. induction G; [exact Logic.I|split; assumption].
  Qed.

  Theorem inside_gen :
    (forall s, results_inside_s s = true -> returns_inside (py_s fl s)) /\
    (forall b, results_inside_b b = true -> Forall returns_inside (snd (py_b fl b))).
  Proof.
    assert (BODY : forall body, Forall (fun s => results_inside_s s = true -> returns_inside (py_s fl s)) body ->
      forallb results_inside_s body = true -> Forall returns_inside (map (py_s fl) body)).
    { intros body F K. rewrite forallb_forall in K. apply Forall_map. rewrite Forall_forall in *. auto. }
    apply stmt_ind2; try (intros; exact Logic.I).
    - intros x e body F K. cbn [py_s]. apply inside_for. apply Forall_app. split.
      + destruct (fl_vars fl); repeat constructor.
      + apply pass_stands; [exact Logic.I|]. exact (BODY body F K).
    - intros e K. discriminate.
    - intros b bs els Hb F He K. cbn [results_inside_s] in K. apply andb_prop in K. destruct K as [K K3].
      apply andb_prop in K. destruct K as [K1 K2].
      apply (if_stands returns_inside Logic.I inside_if); [exact (Hb K1)| |].
      + rewrite forallb_forall in K2. rewrite Forall_forall in *. auto.
      + destruct els; [exact (BODY _ He K3)|exact Logic.I].
    - intros c body F K. cbn [py_b snd]. apply pass_stands; [exact Logic.I|]. exact (BODY body F K).
  Qed.

  Lemma differ_for : forall x e body, Forall params_differ body -> params_differ (PFor x e body).
  Proof. intros x e body F. cbn. induction F; [exact Logic.I|split; assumption]. Qed.
  Lemma differ_if : forall c body els, Forall params_differ body ->
    match els with None => True | Some b => Forall params_differ b end -> params_differ (PIf c body els).
  Proof.
    intros c body els F G. cbn. split; [induction F; [exact Logic.I|split; assumption]|].
    destruct els as [b|]; [|exact Logic.I]. induction G; [exact Logic.I|split; assumption].
  Qed.
  Lemma differ_def : forall d f ps body, NoDup (map fst ps) -> Forall params_differ body -> params_differ (PDef d f ps body).
  Proof. intros d f ps body N F. cbn. split; [exact N|]. induction F; [exact Logic.I|split; assumption]. Qed.

  Lemma vars_not_upper : ~ a_word upper_letter "vars".
  Proof.
    intros [_ H]. inversion H as [|c l A B]; subst. unfold upper_letter in A. cbn in A.
    decompose [or] A; try discriminate; contradiction.
  Qed.

  Lemma nodup_params : forall hs, Forall good (flat_map toks_h hs) ->
    NoDup (map fst (py_params fl (renamed 0 [] (params hs)))).
  Proof.
    intros hs G. pose proof (good_param hs G) as P. pose proof (renamed_nodup (params hs) 0 [] P) as N.
    unfold py_params. rewrite map_app, map_map. cbn [fst].
    change (map (fun x : string * option ptype => fst x) (renamed 0 [] (params hs))) with (pnames (renamed 0 [] (params hs))).
    destruct (fl_vars fl); [|cbn [map]; now rewrite app_nil_r]. cbn [map fst].
    assert (V : ~ In "vars" (pnames (renamed 0 [] (params hs)))).
    { intros I. apply renamed_in in I. destruct I as [[I _]|[k [_ E]]]; [|discriminate E].
      unfold pnames in I. apply in_map_iff in I. destruct I as [p [E I]]. rewrite Forall_forall in P.
      destruct (P p I) as [U _]. rewrite E in U. exact (vars_not_upper U). }
    apply (Permutation_NoDup (l := "vars" :: pnames (renamed 0 [] (params hs)))).
    - apply Permutation_cons_append.
    - constructor; assumption.
  Qed.

  Theorem differ_gen :
    (forall s, Forall good (toks_s s) -> params_differ (py_s fl s)) /\
    (forall b, Forall good (toks_b b) -> Forall params_differ (snd (py_b fl b))).
  Proof.
    assert (BODY : forall body, Forall (fun s => Forall good (toks_s s) -> params_differ (py_s fl s)) body ->
      Forall good (flat_map toks_s body) -> Forall params_differ (map (py_s fl) body)).
    { intros body F K. apply flat_map_good in K. apply Forall_map. rewrite Forall_forall in *. auto. }
    apply stmt_ind2; try (intros; exact Logic.I).
    - intros h hs body F G. cbn [toks_s] in G. do 2 apply Forall_inv_tail in G.
      apply Forall_app in G. destruct G as [G1 G2]. apply braces_good in G2.
      cbn [py_s]. rewrite own_renamed. apply differ_def; [exact (nodup_params (h :: hs) G1)|].
      apply Forall_app. split.
      + unfold enter. destruct (fl_vars fl); [|constructor]. constructor; [exact Logic.I|].
        apply Forall_map, Forall_forall. intros p _. exact Logic.I.
      + apply pass_stands; [exact Logic.I|]. exact (BODY body F G2).
    - intros x e body F G. cbn [toks_s] in G. do 3 apply Forall_inv_tail in G.
      apply Forall_app in G. destruct G as [G1 G2]. apply braces_good in G2.
      cbn [py_s]. apply differ_for. apply Forall_app. split.
      + destruct (fl_vars fl); repeat constructor.
      + apply pass_stands; [exact Logic.I|]. exact (BODY body F G2).
    - intros b bs els Hb F He G. cbn [toks_s] in G. apply Forall_inv_tail in G.
      apply Forall_app in G. destruct G as [G1 G2]. apply Forall_app in G2. destruct G2 as [G2 G3].
      apply (if_stands params_differ Logic.I differ_if); [exact (Hb G1)| |].
      + apply flat_map_good in G2. rewrite Forall_forall in *. intros x I. apply (F x I).
        pose proof (G2 x I) as H. do 2 apply Forall_inv_tail in H. exact H.
      + destruct els; [|exact Logic.I]. apply Forall_inv_tail in G3. apply braces_good in G3. exact (BODY _ He G3).
    - intros c body F G. cbn [toks_b] in G. apply Forall_app in G. destruct G as [_ G2]. apply braces_good in G2.
      cbn [py_b snd]. apply pass_stands; [exact Logic.I|]. exact (BODY body F G2).
  Qed.

  Lemma target_for : forall x e body, Forall targets_ok body -> targets_ok (PFor x e body).
  Proof. intros x e body F. cbn. induction F; [exact Logic.I|split; assumption]. Qed.
  Lemma target_if : forall c body els, Forall targets_ok body ->
    match els with None => True | Some b => Forall targets_ok b end -> targets_ok (PIf c body els).
  Proof.
    intros c body els F G. cbn. split; [induction F; [exact Logic.I|split; assumption]|].
    destruct els as [b|]; [|exact Logic.I]. induction G; [exact Logic.I|split; assumption].
  Qed.
  Lemma target_def : forall d f ps body, Forall targets_ok body -> targets_ok (PDef d f ps body).
  Proof. intros d f ps body F. cbn. induction F; [exact Logic.I|split; assumption]. Qed.

  Theorem target_gen :
    (forall s, targets_ok (py_s fl s)) /\ (forall b, Forall targets_ok (snd (py_b fl b))).
  Proof.
    apply stmt_ind2; try (intros; exact Logic.I).
    - intros h hs body F. cbn [py_s]. apply target_def. apply Forall_app. split.
      + unfold enter. destruct (fl_vars fl); [|constructor]. constructor; [exact Logic.I|].
        apply Forall_map, Forall_forall. intros p _. exact Logic.I.
      + apply pass_stands; [exact Logic.I|]. now apply Forall_map.
    - intros x e body F. cbn [py_s]. apply target_for. apply Forall_app. split.
      + destruct (fl_vars fl); repeat constructor.
      + apply pass_stands; [exact Logic.I|]. now apply Forall_map.
    - intros x e. cbn [py_s]. unfold variable. destruct (fl_vars fl); exact Logic.I.
    - intros b bs els Hb F He. apply (if_stands targets_ok Logic.I target_if); [exact Hb|exact F|].
      destruct els; [now apply Forall_map|exact Logic.I].
    - intros c body F. cbn [py_b snd]. apply pass_stands; [exact Logic.I|]. now apply Forall_map.
  Qed.

  (** ** Programs *)

  Theorem program_statements : forall p, Forall good (toks p) -> wf p = true -> keeps fl p = true ->
    (exists bs, blocks 0 (code_lines (squeeze (program_text fl p))) bs [] /\ statements bs (py_prog fl p)) /\
    Forall params_differ (py_prog fl p) /\ Forall targets_ok (py_prog fl p).
  Proof.
    intros p G W K.
    assert (OK : forallb (ok_s true true fl) p = true).
    { destruct (keeps_program_plain fl p K) as [A B]. exact (ready_program fl p G W A (fun _ => K) (fun _ => B)). }
    split; [|split].
    - exists (program_blocks fl p). split; [exact (program_lines fl p OK)|].
      pose proof (read_body true true fl p) as B.
      specialize (B (proj2 (Forall_forall _ p) (fun s _ => proj1 (statements_gen fl eq_refl eq_refl) s)) OK).
      unfold program_blocks, py_prog. destruct (fl_vars fl); [|exact B].
      apply (one_line _ _ _ _ _ vars_line); [|exact B]. eapply sm_assign.
      + apply read_name; [apply name_ok; reflexivity|]. apply stops_delim. cbn. tauto.
      + apply (lift 8); [lia|lia|constructor|exact Logic.I].
    - unfold py_prog. apply Forall_app. split; [destruct (fl_vars fl); repeat constructor|].
      apply pass_stands; [exact Logic.I|]. apply Forall_map. apply flat_map_good in G. rewrite Forall_forall in *.
      intros s I. apply differ_gen. auto.
    - unfold py_prog. apply Forall_app. split; [destruct (fl_vars fl); repeat constructor|].
      apply pass_stands; [exact Logic.I|]. apply Forall_map, Forall_forall. intros s _. apply target_gen.
  Qed.

  Theorem program_reads : forall p, Forall good (toks p) -> wf p = true -> keeps fl p = true ->
    results_inside p = true -> py_program (squeeze (program_text fl p)) (py_prog fl p).
  Proof.
    intros p G W K R. destruct (program_statements p G W K) as [S [D T]]. split; [exact S|].
    split; [|split; assumption].
    unfold py_prog. apply Forall_app. split; [destruct (fl_vars fl); repeat constructor|].
    apply pass_stands; [exact Logic.I|]. apply Forall_map. unfold results_inside in R. rewrite forallb_forall in R.
    apply Forall_forall. intros s I. apply inside_gen. auto.
  Qed.
End program.
