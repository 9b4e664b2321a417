(** The text of a whole program is read by Python as its translation. *)
From Coq Require Import String Ascii Bool List Arith Lia DecimalString.
From Verif Require Import PyBase LexModel LexSpec GramModel ParseModel SynSpec SynInd ParseSound NameSpec
  ResolveModel ResolveGen HeaderFacts CompileFacts PySpec PyDet PyTrans PyLexFacts PyReady PyToks PyRead PyLines PyStmt.
Import ListNotations.
Open Scope string_scope.
Open Scope list_scope.

Section prog.
  Variables structure words : bool.
  Variable fl : flags.
  Local Notation ok_name := (PyReady.ok_name words).
  Local Notation ok_e := (PyReady.ok_e structure words).
  Local Notation ok_param := (PyStmt.ok_param words).

  (** ** The blocks of a statement *)

  Definition body_blocks (bs : list pblock) : list pblock := match bs with [] => [PLine "pass"] | _ => bs end.

  Fixpoint blk_s (s : stmt) : list pblock :=
    match s with
    | SFunction h hs body =>
        let ps := renamed 0 [] (params (h :: hs)) in
        [PLine "@anydice_casting()";
         PBlock (def_head fl (h :: hs))
           ((if fl_vars fl then [PLine (enter_line ps)] else []) ++ body_blocks (flat_map blk_s body))]
    | SLoop x e body =>
        [PBlock (loop_head fl x e)
           ((if fl_vars fl then [PLine (loop_var x)] else []) ++ body_blocks (flat_map blk_s body))]
    | SIf b bs els =>
        blk_b "if " b :: map (blk_b "elif ") bs
        ++ match els with
           | None => []
           | Some body => [PBlock "else:" (body_blocks (flat_map blk_s body))]
           end
    | _ => [PLine (gen_s fl s)]
    end
  with blk_b (k : string) (b : branch) : pblock :=
    match b with
    | Branch c body => PBlock (k ++ gen_e fl c ++ ":") (body_blocks (flat_map blk_s body))
    end.

  Fixpoint ok_s (s : stmt) : bool :=
    match s with
    | SOutput e | SResult e => ok_e fl e
    | SNamed e p ps | SSet p ps e => ok_e fl e && forallb ok_part (p :: ps)
    | SAssign x e => ok_var x && ok_e fl e
    | SFunction h hs body =>
        ok_name (mangle fl (header_shape (h :: hs))) && forallb ok_param (renamed 0 [] (params (h :: hs)))
        && forallb ok_s body
    | SLoop x e body => ok_var x && ok_e fl e && forallb ok_s body
    | SIf b bs els =>
        ok_b b && forallb ok_b bs && match els with None => true | Some body => forallb ok_s body end
    end
  with ok_b (b : branch) : bool :=
    match b with Branch c body => ok_e fl c && forallb ok_s body end.

  (** Text that consists of the lines of these blocks. *)
  Definition lays (s : string) (bs : list pblock) : Prop := code_lines s = flats 0 bs.

  Lemma blk_some : forall s, exists b bs, blk_s s = b :: bs.
  Proof. intros [| | | | | | |b bs els]; cbn [blk_s]; eauto. Qed.

  Lemma lays_line : forall t ts, a_line t ts -> lays t [PLine t].
  Proof. intros t ts [_ K]. unfold lays. now rewrite code_one. Qed.

  Lemma lays_body : forall body, Forall (fun s => lays (gen_s fl s) (blk_s s)) body ->
    lays (block_text (map (gen_s fl) body)) (body_blocks (flat_map blk_s body)).
  Proof.
    intros body F. destruct F as [|s body H F]; [exact (lays_line _ _ pass_line)|].
    assert (G : lays (join nl (map (gen_s fl) (s :: body))) (flat_map blk_s (s :: body))).
    { revert s H. induction F as [|s' body H' F IH]; intros s H.
      - cbn [map flat_map]. rewrite app_nil_r. exact H.
      - cbn [map]. rewrite join_cons. unfold lays. change (gen_s fl s' :: map (gen_s fl) body) with (map (gen_s fl) (s' :: body)).
        cbn [map]. rewrite code_nl. rewrite H. cbn [flat_map]. rewrite flats_app. f_equal.
        exact (IH s' H'). }
    destruct (blk_some s) as [b [bs E]]. cbn [flat_map] in *. rewrite E in *. exact G.
  Qed.

  Lemma code_body : forall s bs, lays s bs -> code_lines (indent_str s) = flats 2 bs.
  Proof. intros s bs H. rewrite code_indent, H. apply (flats_deeper bs 0). Qed.

  Lemma lays_block : forall t ts s bs, a_line t ts -> lays s bs ->
    code_lines (t ++ nl ++ indent_str s) = flats 0 [PBlock t bs].
  Proof.
    intros t ts s bs [_ K] H. rewrite code_nl, (code_one t K), (code_body s bs H).
    unfold flats. cbn [flat_map flat app]. now rewrite app_nil_r.
  Qed.

  Definition if_line : forall k c, In k ["if"; "elif"] -> ok_e fl c = true ->
    a_line ((k ++ " ") ++ gen_e fl c ++ ":") (PN k :: pt_e fl c ++ [PO ":"]).
  Proof.
    intros k c I K. rewrite PyLexFacts.sapp_assoc. apply head_line.
    - cbn in I. destruct I as [<-|[<-|[]]]; reflexivity.
    - exact (proj1 (lex_gen fl) c K).
    - exact (proj1 (nonl_gen fl) c K).
  Qed.

  Theorem lays_gen :
    (forall s, ok_s s = true -> lays (gen_s fl s) (blk_s s)) /\
    (forall b, ok_b b = true -> lays (gen_b fl "if " b) [blk_b "if " b] /\ lays (gen_b fl "elif " b) [blk_b "elif " b]).
  Proof.
    assert (BODY : forall body, Forall (fun s => ok_s s = true -> lays (gen_s fl s) (blk_s s)) body ->
      forallb ok_s body = true ->
      lays (block_text (map (gen_s fl) body)) (body_blocks (flat_map blk_s body))).
    { intros body F K. apply lays_body. rewrite forallb_forall in K. rewrite Forall_forall in *. auto. }
    apply stmt_ind2.
    - intros e K. exact (lays_line _ _ (output_line fl e K)).
    - intros e p ps K. cbn [ok_s] in K. apply andb_prop in K. exact (lays_line _ _ (named_line fl e p ps (proj1 K) (proj2 K))).
    - intros h hs body F K. cbn [ok_s] in K. apply andb_prop in K. destruct K as [K K3].
      apply andb_prop in K. destruct K as [K1 K2]. specialize (BODY body F K3).
      set (B := body_blocks (flat_map blk_s body)) in *. set (T := block_text (map (gen_s fl) body)) in *.
      set (ps := renamed 0 [] (params (h :: hs))) in *.
      assert (E : gen_s fl (SFunction h hs body) =
        ("@anydice_casting()" ++ nl ++ (def_head fl (h :: hs) ++ nl
          ++ ((if fl_vars fl then indent_str (enter_line ps) ++ nl else "") ++ indent_str T ++ nl)))%string).
      { change (gen_s fl (SFunction h hs body)) with (def_text fl (h :: hs) T).
        unfold def_text, def_head. fold ps. rewrite !PyLexFacts.sapp_assoc. reflexivity. }
      assert (E2 : blk_s (SFunction h hs body) = [PLine "@anydice_casting()";
         PBlock (def_head fl (h :: hs)) ((if fl_vars fl then [PLine (enter_line ps)] else []) ++ B)]) by reflexivity.
      rewrite E, E2. unfold lays. rewrite code_nl, (code_one "@anydice_casting()" eq_refl).
      rewrite code_nl, (code_one _ (proj2 (def_line fl (h :: hs) K1 K2))).
      unfold flats. cbn [flat_map flat app]. do 2 f_equal. rewrite app_nil_r.
      destruct (fl_vars fl).
      + rewrite PyLexFacts.sapp_assoc, code_nl, code_end. rewrite (code_body _ _ BODY).
        rewrite (code_body _ _ (lays_line _ _ (enter_is_line ps K2))). reflexivity.
      + cbn [append]. rewrite code_end, (code_body _ _ BODY). reflexivity.
    - intros x e body F K. cbn [ok_s] in K. apply andb_prop in K. destruct K as [K K3].
      apply andb_prop in K. destruct K as [K1 K2]. specialize (BODY body F K3).
      set (B := body_blocks (flat_map blk_s body)) in *. set (T := block_text (map (gen_s fl) body)) in *.
      assert (E : gen_s fl (SLoop x e body) =
        (loop_head fl x e ++ nl ++ ((if fl_vars fl then indent_str (loop_var x) ++ nl else "") ++ indent_str T ++ nl))%string).
      { change (gen_s fl (SLoop x e body)) with (loop_text fl x (gen_e fl e) T).
        unfold loop_text, loop_head. rewrite !PyLexFacts.sapp_assoc. reflexivity. }
      assert (E2 : blk_s (SLoop x e body) = [PBlock (loop_head fl x e)
         ((if fl_vars fl then [PLine (loop_var x)] else []) ++ B)]) by reflexivity.
      rewrite E, E2. unfold lays.
      rewrite code_nl, (code_one _ (proj2 (loop_line fl x e K1 K2))).
      unfold flats. cbn [flat_map flat app]. f_equal. rewrite app_nil_r.
      destruct (fl_vars fl).
      + rewrite PyLexFacts.sapp_assoc, code_nl, code_end. rewrite (code_body _ _ BODY).
        rewrite (code_body _ _ (lays_line _ _ (loop_var_line x K1))). reflexivity.
      + cbn [append]. rewrite code_end, (code_body _ _ BODY). reflexivity.
    - intros e K. exact (lays_line _ _ (result_line fl e K)).
    - intros p ps e K. cbn [ok_s] in K. apply andb_prop in K. exact (lays_line _ _ (set_line fl e p ps (proj1 K) (proj2 K))).
    - intros x e K. cbn [ok_s] in K. apply andb_prop in K. exact (lays_line _ _ (assign_line fl x e (proj1 K) (proj2 K))).
    - intros b bs els Hb F He K. cbn [ok_s] in K. apply andb_prop in K. destruct K as [K K3].
      apply andb_prop in K. destruct K as [K1 K2]. destruct (Hb K1) as [H1 _].
      set (E := match els with None => [] | Some body => [("else:" ++ nl ++ indent_str (block_text (map (gen_s fl) body)))%string] end).
      set (EB := match els with None => [] | Some body => [PBlock "else:" (body_blocks (flat_map blk_s body))] end).
      change (gen_s fl (SIf b bs els)) with (join nl (gen_b fl "if " b :: map (gen_b fl "elif ") bs ++ E) ++ nl)%string.
      change (blk_s (SIf b bs els)) with (blk_b "if " b :: map (blk_b "elif ") bs ++ EB).
      unfold lays. rewrite code_end.
      assert (J : forall ls bss, Forall2 (fun l b => lays l [b]) ls bss -> ls <> [] -> code_lines (join nl ls) = flats 0 bss).
      { intros ls bss G. induction G as [|l c ls bss H G IH]; intros N; [contradiction|].
        rewrite join_cons. change (c :: bss) with ([c] ++ bss). rewrite flats_app, <- H.
        destruct G as [|l' c' ls bss H' G].
        - cbn. now rewrite app_nil_r.
        - rewrite code_nl. f_equal. apply IH. discriminate. }
      apply J; [|discriminate]. constructor; [exact H1|]. apply Forall2_app.
      + clear - F K2. induction F as [|c bs H F IH]; [constructor|]. cbn [forallb map] in *. apply andb_prop in K2.
        constructor; [apply H; tauto|apply IH; tauto].
      + subst E EB. destruct els as [body|]; [|constructor]. constructor; [|constructor].
        exact (lays_block _ _ _ _ else_line (BODY body He K3)).
    - intros c body F K. cbn [ok_b] in K. apply andb_prop in K. destruct K as [K1 K2].
      specialize (BODY body F K2). split.
      + change (gen_b fl "if " (Branch c body)) with (("if" ++ " ") ++ gen_e fl c ++ ":" ++ nl ++ indent_str (block_text (map (gen_s fl) body)))%string.
        replace (("if" ++ " ") ++ gen_e fl c ++ ":" ++ nl ++ indent_str (block_text (map (gen_s fl) body)))%string
          with ((("if" ++ " ") ++ gen_e fl c ++ ":") ++ nl ++ indent_str (block_text (map (gen_s fl) body)))%string
          by (rewrite !PyLexFacts.sapp_assoc; reflexivity).
        apply (lays_block _ _ _ _ (if_line "if" c ltac:(cbn; tauto) K1) BODY).
      + change (gen_b fl "elif " (Branch c body)) with (("elif" ++ " ") ++ gen_e fl c ++ ":" ++ nl ++ indent_str (block_text (map (gen_s fl) body)))%string.
        replace (("elif" ++ " ") ++ gen_e fl c ++ ":" ++ nl ++ indent_str (block_text (map (gen_s fl) body)))%string
          with ((("elif" ++ " ") ++ gen_e fl c ++ ":") ++ nl ++ indent_str (block_text (map (gen_s fl) body)))%string
          by (rewrite !PyLexFacts.sapp_assoc; reflexivity).
        apply (lays_block _ _ _ _ (if_line "elif" c ltac:(cbn; tauto) K1) BODY).
  Qed.

  (** ** The blocks are those Python finds *)

  Lemma tidy_line : forall t ts, a_line t ts -> Forall nc ts -> tidy (PLine t).
  Proof. intros t ts [L K] F. constructor; [exact (no_colon t ts L F)|exact K]. Qed.
  Lemma tidy_block : forall t ts body, a_line t (ts ++ [PO ":"]) -> body <> [] -> Forall tidy body -> tidy (PBlock t body).
  Proof. intros t ts body [L K] N F. constructor; [now exists ts|exact K|exact N|exact F]. Qed.

  Lemma tidy_body : forall bs, Forall tidy bs -> Forall tidy (body_blocks bs).
  Proof.
    intros [|b bs] F; [|exact F]. constructor; [|constructor].
    apply (tidy_line _ _ pass_line). repeat constructor. discriminate.
  Qed.
  Lemma body_some : forall bs, body_blocks bs <> [].
  Proof. intros [|b bs]; discriminate. Qed.
  Lemma app_some : forall A (a b : list A), b <> [] -> a ++ b <> [].
  Proof. intros A [|x a] b H E; [exact (H E)|discriminate]. Qed.

  Lemma nc_semis : forall l, Forall (Forall nc) l -> Forall nc (semis l).
  Proof.
    intros l F. induction F as [|x l H F IH]; [constructor|]. cbn [semis].
    destruct l; [exact H|]. apply Forall_app. split; [exact H|]. constructor; [discriminate|exact IH].
  Qed.

  Theorem tidy_gen :
    (forall s, ok_s s = true -> Forall tidy (blk_s s)) /\
    (forall b, ok_b b = true -> tidy (blk_b "if " b) /\ tidy (blk_b "elif " b)).
  Proof.
    assert (BODY : forall body, Forall (fun s => ok_s s = true -> Forall tidy (blk_s s)) body ->
      forallb ok_s body = true -> Forall tidy (body_blocks (flat_map blk_s body))).
    { intros body F K. apply tidy_body. apply flat_map_Forall. rewrite forallb_forall in K. rewrite Forall_forall in *. auto. }
    destruct (nc_gen fl) as [NE _].
    apply stmt_ind2.
    - intros e K. constructor; [|constructor]. apply (tidy_line _ _ (output_line fl e K)). apply nc_call. repeat constructor. apply NE.
    - intros e p ps K. cbn [ok_s] in K. apply andb_prop in K. constructor; [|constructor].
      apply (tidy_line _ _ (named_line fl e p ps (proj1 K) (proj2 K))). apply nc_call.
      constructor; [apply NE|]. repeat constructor; discriminate.
    - intros h hs body F K. cbn [ok_s] in K. apply andb_prop in K. destruct K as [K K3].
      apply andb_prop in K. destruct K as [K1 K2]. specialize (BODY body F K3).
      set (B := body_blocks (flat_map blk_s body)) in *.
      set (ps := renamed 0 [] (params (h :: hs))) in *.
      change (blk_s (SFunction h hs body)) with [PLine "@anydice_casting()";
         PBlock (def_head fl (h :: hs)) ((if fl_vars fl then [PLine (enter_line ps)] else []) ++ B)].
      constructor; [apply (tidy_line _ _ decorator_line); repeat constructor; discriminate|].
      constructor; [|constructor].
      pose proof (def_line fl (h :: hs) K1 K2) as D.
      apply (tidy_block _ (PN "def" :: PN (mangle fl (header_shape (h :: hs))) :: PO "(" :: commas (pt_params fl ps) ++ [PO ")"])).
      + cbn [app]. rewrite <- app_assoc. exact D.
      + apply app_some. apply body_some.
      + apply Forall_app. split; [|exact BODY]. destruct (fl_vars fl); [|constructor]. constructor; [|constructor].
        apply (tidy_line _ _ (enter_is_line ps K2)). apply Forall_app. split; [repeat constructor; discriminate|].
        constructor; [discriminate|]. apply nc_semis. apply Forall_map, Forall_forall. intros p _. repeat constructor; discriminate.
    - intros x e body F K. cbn [ok_s] in K. apply andb_prop in K. destruct K as [K K3].
      apply andb_prop in K. destruct K as [K1 K2]. specialize (BODY body F K3).
      change (blk_s (SLoop x e body)) with [PBlock (loop_head fl x e)
         ((if fl_vars fl then [PLine (loop_var x)] else []) ++ body_blocks (flat_map blk_s body))].
      constructor; [|constructor]. apply (tidy_block _ (PN "for" :: PN x :: PN "in" :: pt_e fl e)).
      + exact (loop_line fl x e K1 K2).
      + apply app_some. apply body_some.
      + apply Forall_app. split; [|exact BODY]. destruct (fl_vars fl); [|constructor]. constructor; [|constructor].
        apply (tidy_line _ _ (loop_var_line x K1)). repeat constructor; discriminate.
    - intros e K. constructor; [|constructor]. apply (tidy_line _ _ (result_line fl e K)). constructor; [discriminate|apply NE].
    - intros p ps e K. cbn [ok_s] in K. apply andb_prop in K. constructor; [|constructor].
      apply (tidy_line _ _ (set_line fl e p ps (proj1 K) (proj2 K))). apply nc_call.
      constructor; [repeat constructor; discriminate|]. constructor; [apply NE|constructor].
    - intros x e K. cbn [ok_s] in K. apply andb_prop in K. constructor; [|constructor].
      apply (tidy_line _ _ (assign_line fl x e (proj1 K) (proj2 K))). apply Forall_app. split; [apply nc_var|].
      constructor; [discriminate|apply NE].
    - intros b bs els Hb F He K. cbn [ok_s] in K. apply andb_prop in K. destruct K as [K K3].
      apply andb_prop in K. destruct K as [K1 K2]. destruct (Hb K1) as [H1 _].
      cbn [blk_s]. constructor; [exact H1|]. apply Forall_app. split.
      + clear - F K2. induction F as [|c bs H F IH]; [constructor|]. cbn [forallb map] in *. apply andb_prop in K2.
        constructor; [apply H; tauto|apply IH; tauto].
      + destruct els as [body|]; [|constructor]. constructor; [|constructor].
        apply (tidy_block _ [PN "else"]); [exact else_line|apply body_some|exact (BODY body He K3)].
    - intros c body F K. cbn [ok_b] in K. apply andb_prop in K. destruct K as [K1 K2].
      specialize (BODY body F K2). split.
      + apply (tidy_block _ (PN "if" :: pt_e fl c)); [exact (if_line "if" c ltac:(cbn; tauto) K1)|apply body_some|exact BODY].
      + apply (tidy_block _ (PN "elif" :: pt_e fl c)); [exact (if_line "elif" c ltac:(cbn; tauto) K1)|apply body_some|exact BODY].
  Qed.

  (** ** The statements *)

  Definition no_else (bs : list pblock) : Prop :=
    forall t body bs' w r, bs = PBlock t body :: bs' -> py_lex t = Some (PN w :: r) -> w <> "elif" /\ w <> "else".

  Lemma no_else_line : forall t bs, no_else (PLine t :: bs).
  Proof. intros t bs t' body bs' w r E. discriminate. Qed.
  Lemma no_else_nil : no_else [].
  Proof. intros t' body bs' w r E. discriminate. Qed.
  Lemma no_else_head : forall t ts w body bs, a_line t (PN w :: ts) -> In w ["for"; "if"] -> no_else (PBlock t body :: bs).
  Proof.
    intros t ts w body bs [L _] I t' body' bs' w' r E L'. injection E as <- _ _. rewrite L in L'.
    injection L' as <- _. cbn in I. destruct I as [<-|[<-|[]]]; split; discriminate.
  Qed.

  Lemma blk_no_else : forall s, ok_s s = true -> forall bs, no_else (blk_s s ++ bs).
  Proof.
    intros s K bs. destruct s as [e|e p ps|h hs body|x e body|e|p ps e|x e|b bs' els];
      try (cbn [blk_s app]; apply no_else_line).
    - cbn [ok_s] in K. apply andb_prop in K. destruct K as [K _]. apply andb_prop in K.
      cbn [blk_s app]. apply (no_else_head _ _ "for" _ _ (loop_line fl x e (proj1 K) (proj2 K))). cbn; tauto.
    - cbn [ok_s] in K. apply andb_prop in K. destruct K as [K _]. apply andb_prop in K. destruct K as [K _].
      destruct b as [c body]. cbn [ok_b] in K. apply andb_prop in K.
      cbn [blk_s app blk_b]. apply (no_else_head _ _ "if" _ _ (if_line "if" c ltac:(cbn; tauto) (proj1 K))). cbn; tauto.
  Qed.

  Lemma one_line : forall t ts s bs ss, a_line t ts -> simple ts s [] -> statements bs ss ->
    statements (PLine t :: bs) (s :: ss).
  Proof.
    intros t ts s bs ss [L _] S H. apply (st_line t ts [s] bs ss L); [now constructor|exact H].
  Qed.

  (** Names and numbers that Python takes, and expressions whose structure it keeps. *)
  Hypothesis taken : words = true.
  Hypothesis kept : structure = true.

  Definition follows (s : stmt) : Prop := forall bs ss, no_else bs -> statements bs ss ->
    statements (blk_s s ++ bs) (py_s fl s :: ss).

  Lemma expr_simple : forall ts e, reads 0 ts e [] -> simple ts (PExpr e) [].
  Proof. intros ts e R. apply sm_expr; [exact R|exact Logic.I]. Qed.

  Lemma read_e : forall e r, ok_e fl e = true -> stops 0 r -> reads 0 (pt_e fl e ++ r) (py_e fl e) r.
  Proof.
    intros e r K T. rewrite kept, taken in K. exact (B_as fl e (proj2 (proj1 (read_gen fl) e K)) r T).
  Qed.
  Lemma read_e_end : forall e, ok_e fl e = true -> reads 0 (pt_e fl e) (py_e fl e) [].
  Proof. intros e K. pose proof (read_e e [] K (stops_end 0)) as R. now rewrite app_nil_r in R. Qed.

  Lemma str_as : forall ps, forallb ok_part ps = true -> reads_as (pt_str fl ps) (py_str fl ps).
  Proof.
    intros ps K r T. apply (lift 8); [lia|lia| |exact T]. exact (read_str fl ps r K).
  Qed.
  Lemma read_call_end : forall f tss es, py_name f -> Forall2 reads_as tss es -> reads 0 (call_toks f tss) (call f es) [].
  Proof.
    intros f tss es N F. pose proof (read_call f tss es [] N F (stops_end 7)) as R. rewrite app_nil_r in R.
    apply (lift 7); [lia|lia|exact R|exact Logic.I].
  Qed.
  Lemma read_name : forall x r, py_name x -> stops 0 r -> reads 0 (PN x :: r) (PName x) r.
  Proof. intros x r N T. apply (lift 8); [lia|lia|now constructor|exact T]. Qed.
  Lemma ok_var_name : forall x, ok_var x = true -> py_name x.
  Proof.
    intros x K. unfold ok_var in K. apply andb_prop in K. destruct K as [_ K].
    apply negb_true_iff in K. now apply name_ok.
  Qed.
  Lemma ok_name_name : forall x, ok_name x = true -> py_name x.
  Proof.
    intros x K. unfold PyReady.ok_name in K. rewrite taken in K. apply andb_prop in K. destruct K as [_ K].
    apply negb_true_iff in K. now apply name_ok.
  Qed.

  Lemma read_vars_at : forall x r, stops 0 r ->
    reads 0 ([PN "vars"; PO "["; PS x; PO "]"] ++ r) (vars_at x) r.
  Proof.
    intros x r T. apply (lift 7); [lia|lia| |exact T]. cbn [app].
    eapply rd_primary; [constructor; apply name_ok; reflexivity|].
    eapply tr_index; [|constructor; exact (stops_le 0 7 r ltac:(lia) T)].
    apply (lift 8); [lia|lia|constructor|]. apply stops_delim. cbn. tauto.
  Qed.

  Lemma loop_var_simple : forall x, ok_var x = true ->
    simple [PN "vars"; PO "["; PS x; PO "]"; PO "="; PN x] (PAssign (vars_at x) (PName x)) [].
  Proof.
    intros x K. eapply sm_assign.
    - apply (read_vars_at x (PO "=" :: [PN x])). apply stops_delim. cbn. tauto.
    - apply read_name; [now apply ok_var_name|exact Logic.I].
  Qed.

  Lemma set_simple : forall p r, ok_var (fst p) = true -> stops 0 r ->
    simple (pt_set p ++ r) (PAssign (vars_at (fst p)) (PName (fst p))) r.
  Proof.
    intros p r K T. eapply sm_assign.
    - apply (read_vars_at (fst p) (PO "=" :: PN (fst p) :: r)). apply stops_delim. cbn. tauto.
    - apply read_name; [now apply ok_var_name|exact T].
  Qed.

  Lemma copy_simple : forall r, stops 0 r ->
    simple (copy_toks ++ r) (PAssign (PName "vars") (PCall (PAttr (PName "vars") "copy") [])) r.
  Proof.
    intros r T. cbn [copy_toks app].
    apply (sm_assign _ _ (PN "vars" :: PO "." :: PN "copy" :: PO "(" :: PO ")" :: r)).
    - apply read_name; [apply name_ok; reflexivity|]. apply stops_delim. cbn. tauto.
    - apply (lift 7); [lia|lia| |exact T].
      eapply rd_primary; [constructor; apply name_ok; reflexivity|].
      apply tr_attr; [apply name_ok; reflexivity|]. eapply tr_call; [constructor|].
      constructor. exact (stops_le 0 7 r ltac:(lia) T).
  Qed.

  Lemma enter_simples : forall ps, forallb ok_param ps = true ->
    simples (copy_toks ++ PO ";" :: semis (map pt_set ps))
      (PAssign (PName "vars") (PCall (PAttr (PName "vars") "copy") [])
       :: map (fun p => PAssign (vars_at (fst p)) (PName (fst p))) ps).
  Proof.
    intros ps K.
    assert (SD : forall r, stops 0 (PO ";" :: r)) by (intros r; apply stops_delim; cbn; tauto).
    assert (Q : forall p, In p ps -> ok_var (fst p) = true).
    { rewrite forallb_forall in K. intros p I. specialize (K p I). unfold PyStmt.ok_param in K. apply andb_prop in K. tauto. }
    destruct ps as [|p ps].
    - cbn [map semis]. apply ss_end. apply (copy_simple [PO ";"]). apply SD.
    - eapply ss_more; [apply copy_simple, SD| |].
      + cbn [map semis]. destruct (map pt_set ps); discriminate.
      + clear K. revert p Q. induction ps as [|q ps IH]; intros p Q.
        * cbn [map semis]. apply ss_last. pose proof (set_simple p [] (Q p (or_introl eq_refl)) Logic.I) as S.
          now rewrite app_nil_r in S.
        * change (semis (map pt_set (p :: q :: ps))) with (pt_set p ++ PO ";" :: semis (map pt_set (q :: ps))).
          change (map (fun p0 => PAssign (vars_at (fst p0)) (PName (fst p0))) (p :: q :: ps))
            with (PAssign (vars_at (fst p)) (PName (fst p)) :: map (fun p0 : string * option ptype => PAssign (vars_at (fst p0)) (PName (fst p0))) (q :: ps)).
          eapply ss_more; [apply set_simple; [apply Q; now left|apply SD]| |].
          -- cbn [map semis]. destruct (map pt_set ps); discriminate.
          -- apply IH. intros z I. apply Q. now right.
  Qed.

  Lemma read_params : forall ps r, forallb ok_param ps = true ->
    pparams (commas (pt_params fl ps) ++ PO ")" :: r) (py_params fl ps) (PO ")" :: r).
  Proof.
    intros ps r K. unfold pt_params, py_params.
    assert (G : forall (l : list (list ptok)) (qs : list (string * option pexpr)),
      Forall2 (fun ts q => forall o r', In o [")"; ","] -> pparam (ts ++ PO o :: r') q (PO o :: r')) l qs ->
      pparams (commas l ++ PO ")" :: r) qs (PO ")" :: r)).
    { clear. intros l qs F. induction F as [|ts q l qs H F IH]; [constructor|].
      destruct F as [|ts' q' l qs H' F].
      - cbn [commas]. apply pp_last; [apply H; cbn; tauto|cbn; intros [X|[]]; discriminate X].
      - change (commas (ts :: ts' :: l)) with (ts ++ PO "," :: commas (ts' :: l)). rewrite <- app_assoc. cbn [app].
        eapply pp_more; [apply H; cbn; tauto|exact IH|discriminate]. }
    apply G. apply Forall2_app.
    - clear G. induction ps as [|[x ty] ps IH]; [constructor|]. cbn [forallb map] in *. apply andb_prop in K.
      destruct K as [K1 K2]. constructor; [|exact (IH K2)]. clear IH K2.
      unfold PyStmt.ok_param in K1. cbn [fst snd] in *. apply andb_prop in K1. destruct K1 as [A B].
      intros o r' I. unfold pt_param. cbn [fst snd]. destruct ty as [ty|]; cbn [app option_map].
      + rewrite <- type_annotation. apply pa_typed; [now apply ok_var_name|].
        apply read_name; [now apply ok_name_name|]. apply stops_delim. cbn in I |- *. tauto.
      + apply pa_plain; [now apply ok_var_name|]. cbn in I |- *.
        destruct I as [<-|[<-|[]]]; intros [X|[]]; discriminate X.
    - destruct (fl_vars fl); [|constructor]. constructor; [|constructor]. intros o r' I.
      apply pa_plain; [apply name_ok; reflexivity|]. cbn in I |- *.
      destruct I as [<-|[<-|[]]]; intros [X|[]]; discriminate X.
  Qed.

  Lemma own_renamed : forall ps i seen, own_names i seen ps = renamed i seen ps.
  Proof. induction ps as [|[x ty] ps IH]; intros i seen; [reflexivity|]. cbn [own_names renamed]. now rewrite IH. Qed.

  Lemma read_body : forall body, Forall (fun s => ok_s s = true -> follows s) body -> forallb ok_s body = true ->
    statements (body_blocks (flat_map blk_s body)) (body_or_pass (map (py_s fl) body)).
  Proof.
    intros body F K.
    assert (G : statements (flat_map blk_s body) (map (py_s fl) body) /\ no_else (flat_map blk_s body)).
    { induction F as [|s body H F IH]; [split; [constructor|exact no_else_nil]|].
      cbn [forallb flat_map map] in *. apply andb_prop in K. destruct K as [K1 K2]. destruct (IH K2) as [A B].
      split; [apply (H K1); assumption|apply (blk_no_else s K1)]. }
    destruct G as [G _]. destruct body as [|s body].
    - apply (one_line _ _ _ _ _ pass_line); constructor.
    - cbn [flat_map map body_or_pass] in *. destruct (blk_some s) as [b [bs E]]. rewrite E in *. exact G.
  Qed.

  Theorem statements_gen :
    (forall s, ok_s s = true -> follows s) /\
    (forall b, ok_b b = true -> match b with Branch c body =>
       statements (body_blocks (flat_map blk_s body)) (body_or_pass (map (py_s fl) body)) end).
  Proof.
    apply stmt_ind2.
    - intros e K bs ss N H. cbn [blk_s app]. apply (one_line _ _ _ _ _ (output_line fl e K)); [|exact H].
      apply expr_simple. apply read_call_end; [apply name_ok; reflexivity|]. constructor; [|constructor].
      intros r T. now apply read_e.
    - intros e p ps K bs ss N H. cbn [ok_s] in K. apply andb_prop in K. destruct K as [K1 K2].
      cbn [blk_s app]. apply (one_line _ _ _ _ _ (named_line fl e p ps K1 K2)); [|exact H].
      apply expr_simple. unfold p_named. apply (lift 7); [lia|lia| |exact Logic.I].
      unfold call_toks. cbn [commas]. rewrite <- app_assoc. cbn [app].
      eapply rd_primary; [constructor; apply name_ok; reflexivity|]. eapply tr_call; [|constructor; exact Logic.I].
      assert (R : reads 0 (pt_e fl e ++ PO "," :: PN "named" :: PO "=" :: pt_str fl (p :: ps) ++ [PO ")"]) (py_e fl e)
                    (PO "," :: PN "named" :: PO "=" :: pt_str fl (p :: ps) ++ [PO ")"])).
      { apply read_e; [exact K1|]. apply stops_delim. cbn. tauto. }
      apply (ar_more _ _ (PN "named" :: PO "=" :: pt_str fl (p :: ps) ++ [PO ")"])).
      + apply ag_plain; [|exact R]. apply (not_keyword_arg _ _ _ _ R). discriminate.
      + apply ar_last; [|cbn; intros [X|[]]; discriminate X].
        apply ag_named; [apply name_ok; reflexivity|]. apply (str_as (p :: ps) K2). apply stops_delim. cbn. tauto.
      + discriminate.
    - intros h hs body F K bs ss N H. cbn [ok_s] in K. apply andb_prop in K. destruct K as [K K3].
      apply andb_prop in K. destruct K as [K1 K2]. pose proof (read_body body F K3) as B.
      set (ps := renamed 0 [] (params (h :: hs))) in *.
      change (blk_s (SFunction h hs body)) with [PLine "@anydice_casting()";
         PBlock (def_head fl (h :: hs)) ((if fl_vars fl then [PLine (enter_line ps)] else []) ++ body_blocks (flat_map blk_s body))].
      assert (E : py_s fl (SFunction h hs body) = PDef (call "anydice_casting" []) (mangle fl (header_shape (h :: hs)))
                    (py_params fl ps) (enter fl ps ++ body_or_pass (map (py_s fl) body))).
      { cbn [py_s]. rewrite own_renamed. reflexivity. }
      rewrite E. cbn [app].
      eapply st_def; [exact (proj1 decorator_line)| |exact (proj1 (def_line fl (h :: hs) K1 K2))|now apply ok_name_name| | |exact H].
      + apply (read_call_end "anydice_casting" [] []); [apply name_ok; reflexivity|constructor].
      + exact (read_params ps [PO ":"] K2).
      + unfold enter. destruct (fl_vars fl); [|exact B].
        exact (st_line _ _ _ _ _ (proj1 (enter_is_line ps K2)) (enter_simples ps K2) B).
    - intros x e body F K bs ss N H. cbn [ok_s] in K. apply andb_prop in K. destruct K as [K K3].
      apply andb_prop in K. destruct K as [K1 K2]. pose proof (read_body body F K3) as B.
      cbn [blk_s app py_s].
      eapply st_for; [exact (proj1 (loop_line fl x e K1 K2))|now apply ok_var_name| | |exact H].
      + apply read_e; [exact K2|]. apply stops_delim. cbn. tauto.
      + destruct (fl_vars fl); [|exact B].
        exact (one_line _ _ _ _ _ (loop_var_line x K1) (loop_var_simple x K1) B).
    - intros e K bs ss N H. cbn [blk_s app]. apply (one_line _ _ _ _ _ (result_line fl e K)); [|exact H].
      apply sm_return. now apply read_e_end.
    - intros p ps e K bs ss N H. cbn [ok_s] in K. apply andb_prop in K. destruct K as [K1 K2].
      cbn [blk_s app]. apply (one_line _ _ _ _ _ (set_line fl e p ps K1 K2)); [|exact H].
      apply expr_simple. apply read_call_end; [apply name_ok; reflexivity|].
      constructor; [exact (str_as (p :: ps) K2)|]. constructor; [|constructor]. intros r T. now apply read_e.
    - intros x e K bs ss N H. cbn [ok_s] in K. apply andb_prop in K. destruct K as [K1 K2].
      cbn [blk_s app]. apply (one_line _ _ _ _ _ (assign_line fl x e K1 K2)); [|exact H].
      eapply sm_assign; [|now apply read_e_end].
      apply (lift 7); [lia|lia| |apply stops_delim; cbn; tauto].
      apply read_var; [now apply ok_var_name|]. apply stops_delim. cbn. tauto.
    - intros b bs' els Hb F He K bs ss N H. cbn [ok_s] in K. apply andb_prop in K. destruct K as [K K3].
      apply andb_prop in K. destruct K as [K1 K2]. specialize (Hb K1). destruct b as [c body].
      cbn [ok_b] in K1. apply andb_prop in K1. destruct K1 as [K1 _].
      set (EB := match els with None => [] | Some body => [PBlock "else:" (body_blocks (flat_map blk_s body))] end).
      set (PE := match els with None => None | Some body => Some (body_or_pass (map (py_s fl) body)) end).
      change (blk_s (SIf (Branch c body) bs' els)) with (blk_b "if " (Branch c body) :: map (blk_b "elif ") bs' ++ EB).
      change (py_s fl (SIf (Branch c body) bs' els)) with (PIf (py_e fl c) (body_or_pass (map (py_s fl) body))
        (fold_right (fun b els => let '(c, body) := py_b fl b in Some [PIf c body els]) PE bs')).
      cbn [app]. rewrite <- app_assoc.
      eapply st_if; [exact (proj1 (if_line "if" c ltac:(cbn; tauto) K1))| |exact Hb| |exact H].
      + apply read_e; [exact K1|]. apply stops_delim. cbn. tauto.
      + assert (EE : orelse (EB ++ bs) PE bs).
        { subst EB PE. destruct els as [eb|]; [|apply oe_none; exact N].
          apply oe_else; [exact (proj1 else_line)|]. apply read_body; assumption. }
        clear - F K2 EE taken kept. induction F as [|b bs' Hb F IH]; [exact EE|].
        cbn [forallb] in K2. apply andb_prop in K2. destruct K2 as [K1 K2]. specialize (Hb K1). destruct b as [c body].
        cbn [ok_b] in K1. apply andb_prop in K1. destruct K1 as [K1 _].
        cbn [map app fold_right py_b].
        eapply oe_elif; [exact (proj1 (if_line "elif" c ltac:(cbn; tauto) K1))| |exact Hb|exact (IH K2)].
        apply read_e; [exact K1|]. apply stops_delim. cbn. tauto.
    - intros c body F K. cbn [ok_b] in K. apply andb_prop in K. exact (read_body body F (proj2 K)).
  Qed.
End prog.
Arguments blk_no_else {structure words}.
Arguments statements_gen {structure words}.
Arguments lays_gen {structure words}.
Arguments tidy_gen {structure words}.
