(** A backslash in a string lets the text of a second string become code. *)
From Coq Require Import String Ascii Bool List Arith Lia.
From Verif Require Import PyBase LexModel LexSpec LexFacts GramModel ParseModel SynSpec ParseSound NameSpec
  ResolveModel ResolveGen CompileFacts PySpec PyDet PyTrans PyLexFacts PyReady PyToks PyRead PyLines StrSpec
  PyStrFacts.
Import ListNotations.
Open Scope string_scope.
Open Scope list_scope.

(** The program:  set "\" to ", 1); CODE#" output 1  *)
Definition injection (code : string) : string :=
  "set " ++ String cQUOTE (String c_backslash "" ++ String cQUOTE (" to " ++
    String cQUOTE ((", 1); " ++ code ++ "#") ++ String cQUOTE " output 1"))).

(** One line of code without quotes, brackets and braces. *)
Definition code_char (c : ascii) : Prop :=
  c <> cNL /\ c <> cQUOTE /\ c <> "["%char /\ c <> "{"%char /\ c <> "}"%char.

Definition injected (code : string) : program :=
  [SSet (PAny (String c_backslash "")) [] (ETerm (TStr (PAny (", 1); " ++ code ++ "#")) []));
   SOutput (ETerm (TNum "1"))].

Definition first_line (code : string) : string :=
  "settings_set(f" ++ quote ++ String c_backslash "" ++ quote ++ ", f" ++ quote ++ ", 1); "
  ++ code ++ "#" ++ quote ++ ")".

Lemma code_body : forall code, all_chars code_char code -> a_word string_char (", 1); " ++ code ++ "#").
Proof.
  intros code A. split; [discriminate|]. 
  assert (L : forall s, forallb is_body (list_ascii_of_string s) = true -> all_chars string_char s).
  { intros s H. rewrite forallb_forall in H. apply Forall_forall. intros c I. apply is_body_iff. now apply H. }
  apply all_chars_app. split; [apply L; reflexivity|]. apply all_chars_app. split; [|apply L; reflexivity].
  refine (all_chars_impl _ _ _ _ A). intros c [H1 [H2 [H3 _]]]. now repeat split.
Qed.

Lemma lower_word_of : forall w, forallb is_lower (list_ascii_of_string w) = true -> w <> "" -> a_word lower_letter w.
Proof.
  intros w H N. split; [exact N|]. rewrite forallb_forall in H. apply Forall_forall. intros c I.
  apply is_lower_iff. now apply H.
Qed.

Lemma scan_space : forall r, scan (String " " r) = scan r.
Proof. intros r. rewrite (scan_step (String " " r) (Skipped " ") r); reflexivity. Qed.

Lemma word_space : forall w r, forallb is_lower (list_ascii_of_string w) = true -> w <> "" ->
  scan (w ++ String " " r) = option_map (cons (word_type w, w)) (scan r).
Proof.
  intros w r H N. rewrite scan_word.
  - now rewrite scan_space.
  - now apply lower_word_of.
  - intros c x X Lc. injection X as <- _. apply is_lower_iff in Lc. discriminate.
Qed.

Lemma scan_injection : forall code, all_chars code_char code ->
  scan (injection code) = Some (toks (injected code)).
Proof.
  intros code A. unfold injection.
  match goal with |- scan ("set " ++ ?X) = _ => change ("set " ++ X)%string with ("set" ++ String " " X)%string end.
  rewrite word_space by (reflexivity || discriminate).
  rewrite scan_any.
  2:{ split; [discriminate|]. apply all_chars_cons. split; [|apply all_chars_nil]. repeat split; discriminate. }
  match goal with |- context [scan (" to " ++ ?X)] => change (" to " ++ X)%string with (String " " ("to" ++ String " " X))%string end.
  rewrite scan_space, word_space by (reflexivity || discriminate).
  rewrite scan_any by (now apply code_body).
  replace (scan " output 1") with (Some [(tOUTPUT, "output"); (tNUMBER, "1")]) by (vm_compute; reflexivity).
  reflexivity.
Qed.

Lemma injection_compiles : forall code, all_chars code_char code ->
  exists text, compile default_flags (injection code) = Ok text /\
    code_lines text = [(0, first_line code); (0, "output(1)")].
Proof.
  intros code A.
  assert (D : forall s, all_chars code_char s -> double_char "}" (double_char "{" s) = s).
  { induction s as [|c s IH]; intros H; [reflexivity|]. apply all_chars_cons in H. destruct H as [[_ [_ [_ [H1 H2]]]] H].
    specialize (IH H). cbn [double_char]. destruct (Ascii.eqb_spec "{" c); [congruence|]. cbn [double_char].
    destruct (Ascii.eqb_spec "}" c); [congruence|]. now rewrite IH. }
  assert (N : nonl code = true).
  { refine (chars_forallb _ _ code _ A). intros c [H _]. destruct (Ascii.eqb_spec c c_newline); [contradiction|reflexivity]. }
  assert (G : program_text default_flags (injected code) = (first_line code ++ nl ++ "output(1)" ++ nl)%string).
  { unfold program_text, injected. cbn [fl_vars default_flags map]. 
    change (gen_s default_flags (SOutput (ETerm (TNum "1")))) with "output(1)".
    change (gen_s default_flags (SSet (PAny (String c_backslash "")) [] (ETerm (TStr (PAny (", 1); " ++ code ++ "#")) []))))
      with ("settings_set(f" ++ quote ++ String c_backslash "" ++ quote ++ ", f" ++ quote ++
            (double_char "}" (double_char "{" (", 1); " ++ code ++ "#")) ++ quote) ++ ")")%string.
    rewrite D; [|].
    - unfold first_line, block_text. cbn [join String.concat]. rewrite !PyLexFacts.sapp_assoc. cbn [append].
      reflexivity.
    - repeat (apply all_chars_cons; split; [repeat split; discriminate|]).
      apply all_chars_app. split; [exact A|].
      apply all_chars_cons. split; [repeat split; discriminate|apply all_chars_nil]. }
  exists (squeeze (program_text default_flags (injected code))). split.
  - apply (compile_exact default_flags (injection code) _ eq_refl eq_refl). exists (injected code).
    split; [reflexivity|]. split; [now apply scan_injection|]. left. split.
    + intros [h [_ H]]. exact H.
    + split; [|reflexivity]. split; [reflexivity|]. split; [constructor|]. intros c H. contradiction.
  - assert (C : code_lines (program_text default_flags (injected code)) = [(0, first_line code); (0, "output(1)")]).
    { rewrite G, code_nl, code_end. rewrite !code_one; [reflexivity|reflexivity|].
      unfold line_ok. change (nonl (first_line code) = true). unfold first_line. rewrite !nonl_app. rewrite N. reflexivity. }
    rewrite code_squeeze; [exact C|]. rewrite C.
    constructor; [reflexivity|constructor; [reflexivity|constructor]].
Qed.

Lemma first_toks : forall code ts, py_lex code = Some ts ->
  py_lex (first_line code)
  = Some ([PN "settings_set"; PO "("; PF (String c_backslash (quote ++ ", f")); PO ","; PNum "1"; PO ")"; PO ";"] ++ ts).
Proof.
  intros code ts E. apply (lex_comment _ code ts (quote ++ ")") (le_n _)) in E.
  assert (P : forall r, py_lex ("settings_set(f" ++ quote ++ String c_backslash "" ++ quote ++ ", f" ++ quote ++ ", 1); " ++ r)
     = option_map (app [PN "settings_set"; PO "("; PF (String c_backslash (quote ++ ", f")); PO ","; PNum "1"; PO ")"; PO ";"]) (py_lex r)).
  { clear. intros r. cbn [append quote]. unfold quote. cbn [append].
    repeat (rewrite lex_eq; lazy -[py_lex option_map]).
    destruct (py_lex r); reflexivity. }
  unfold first_line. rewrite P.
  change (code ++ "#" ++ quote ++ ")")%string with (code ++ String "#" (quote ++ ")"))%string.
  rewrite E. reflexivity.
Qed.

Lemma opens_first : forall code, opens (first_line code) -> forall ts, py_lex code = Some ts -> ts <> [] -> opens code.
Proof.
  intros code [us U] ts E N. rewrite (first_toks code ts E) in U. injection U as U. exists (removelast ts).
  destruct (exists_last N) as [vs [t T]]. subst ts. rewrite removelast_last.
  match type of U with ?a :: ?b :: ?c :: ?d :: ?e :: ?g :: ?h :: _ = _ =>
    change (([a; b; c; d; e; g; h] ++ vs) ++ [t] = us ++ [PO ":"]) in U end.
  apply app_inj_tail in U. destruct U as [_ <-]. exact E.
Qed.

Lemma output_one : py_lex "output(1)" = Some [PN "output"; PO "("; PNum "1"; PO ")"].
Proof. vm_compute. reflexivity. Qed.

Lemma one_number : forall r, stops 0 r -> reads 0 (PNum "1" :: r) (PNumber "1") r.
Proof.
  intros r T. apply (lift 8); [lia|lia| |exact T]. constructor. apply number_plain. reflexivity.
Qed.

Theorem injection_runs : forall code ts ss, all_chars code_char code -> py_lex code = Some ts -> simples ts ss ->
  ~ opens code -> Forall returns_inside ss -> Forall targets_ok ss ->
  exists text, compile default_flags (injection code) = Ok text /\
    py_program text (PExpr (call "settings_set" [PFormat [Lit c_dquote; Lit ","; Lit " "; Lit "f"]; PNumber "1"])
                     :: ss ++ [PExpr (call "output" [PNumber "1"])]).
Proof.
  intros code ts ss A E H NO R T. destruct (injection_compiles code A) as [text [C L]].
  exists text. split; [exact C|].
  assert (NE : ts <> []).
  { intros ->. inversion H as [? ? X|? ? X|? ? ? ? X]; subst;
      inversion X as [|? ? ? Y|? ? ? ? ? Y|? ? ? Y]; subst; exact (reads_first _ _ _ _ Y). }
  assert (P : Forall params_differ ss).
  { clear - H. induction H as [? ? X|? ? X|? ? ? ? X]; constructor;
      try (inversion X; subst; exact Logic.I); try constructor; assumption. }
  split; [|split; [|split]].
  2:{ constructor; [exact Logic.I|]. apply Forall_app. split; [exact R|]. repeat constructor. }
  2:{ constructor; [exact Logic.I|]. apply Forall_app. split; [exact P|]. repeat constructor. }
  2:{ constructor; [exact Logic.I|]. apply Forall_app. split; [exact T|]. repeat constructor. }
  exists [PLine (first_line code); PLine "output(1)"]. rewrite L. split.
  - apply bl_line.
    + intros O. apply NO. exact (opens_first code O ts E NE).
    + apply bl_line; [|constructor]. intros [us U]. rewrite output_one in U. injection U as U.
      apply (app_inj_tail [PN "output"; PO "("; PNum "1"] us (PO ")") (PO ":")) in U. destruct U as [_ U]. discriminate.
  - set (s1 := PExpr (call "settings_set" _)).
    change (s1 :: ss ++ [PExpr (call "output" [PNumber "1"])])
      with ((s1 :: ss) ++ [PExpr (call "output" [PNumber "1"])]).
    apply (st_line _ _ _ _ _ (first_toks code ts E)).
    + cbn [app]. apply ss_more with (r := ts); [|exact NE|exact H]. apply sm_expr; [|intros X; cbn in X; intuition discriminate].
      apply (lift 7); [lia|lia| |apply stops_delim; cbn; tauto].
      apply (read_call "settings_set" [[PF (String c_backslash (quote ++ ", f"))]; [PNum "1"]]
               [PFormat [Lit c_dquote; Lit ","; Lit " "; Lit "f"]; PNumber "1"] (PO ";" :: ts)).
      * apply name_ok. reflexivity.
      * constructor; [|constructor; [|constructor]]; intros r Tr.
        -- apply (lift 8); [lia|lia| |exact Tr]. constructor. reflexivity.
        -- now apply one_number.
      * apply stops_delim. cbn. tauto.
    + apply (st_line _ _ [PExpr (call "output" [PNumber "1"])] _ _ output_one); [|constructor].
      constructor. apply sm_expr; [|exact Logic.I].
      apply (lift 7); [lia|lia| |exact Logic.I].
      apply (read_call "output" [[PNum "1"]] [PNumber "1"] []).
      * apply name_ok. reflexivity.
      * constructor; [|constructor]. intros r Tr. now apply one_number.
      * exact Logic.I.
Qed.
