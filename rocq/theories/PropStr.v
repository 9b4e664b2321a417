(** C72, C73: strings of the source as formatted strings of Python. *)
From Coq Require Import String Ascii Bool List Arith Lia.
From Verif Require Import PyBase LexModel LexSpec LexFacts GramModel ParseModel SynSpec ParseSound ResolveModel
  PySpec PyTrans StrSpec PyStrFacts PyInject.
Import ListNotations.
Open Scope string_scope.
Open Scope list_scope.

(** The literal generated for a string is one token of Python, whatever follows
    it: it ends exactly at the quote that the generator put there. *)
Theorem C72_closed : forall fl body rest st, between_quotes body -> quiet body ->
  exists ps content,
    scan (String cQUOTE (body ++ String cQUOTE rest)) = option_map (app (map part_tok ps)) (scan rest) /\
    resolve_node fl (string_node ps) st = Ok (("f" ++ quote ++ content ++ quote)%string, st) /\
    forall r, py_lex (("f" ++ quote ++ content ++ quote) ++ r) = option_map (cons (PF content)) (py_lex r).
Proof.
  intros fl body rest st B Q. destruct (literal_exact fl body rest st B Q) as [ps [content [pieces [S [R [L _]]]]]].
  exists ps, content. split; [exact S|split; [exact R|exact L]].
Qed.
Print Assumptions C72_closed.

(** A backslash before the closing quote keeps the literal open. *)
Theorem C72_open_refuted : forall fl body rest st, all_chars string_char body -> quiet body ->
  let body' := (body ++ String c_backslash "")%string in
  scan (String cQUOTE (body' ++ String cQUOTE rest)) = option_map (cons (part_tok (PAny body'))) (scan rest) /\
  exists lit, resolve_node fl (string_node [PAny body']) st = Ok (lit, st) /\
    forall r, no_quote r -> py_lex (lit ++ r) = None.
Proof. exact literal_open. Qed.
Print Assumptions C72_open_refuted.

(** Any Python statements, written on one line without quotes, brackets and
    braces, can be brought into the generated program: the program
    set "\" to ", 1); CODE#" output 1 compiles to a program that runs CODE. *)
Theorem C72_injection_refuted : forall code ts ss, all_chars code_char code -> py_lex code = Some ts -> simples ts ss ->
  ~ opens code -> Forall returns_inside ss -> Forall targets_ok ss ->
  exists text, compile default_flags (injection code) = Ok text /\
    py_program text (PExpr (call "settings_set" [PFormat [Lit c_dquote; Lit ","; Lit " "; Lit "f"]; PNumber "1"])
                     :: ss ++ [PExpr (call "output" [PNumber "1"])]).
Proof. exact injection_runs. Qed.
Print Assumptions C72_injection_refuted.

Example C72_injection_sample :
  let code := "roll = evil" in
  all_chars code_char code /\ py_lex code = Some [PN "roll"; PO "="; PN "evil"] /\
  simples [PN "roll"; PO "="; PN "evil"] [PAssign (PName "roll") (PName "evil")] /\ ~ opens code.
Proof.
  cbv zeta. split; [|split; [vm_compute; reflexivity|split]].
  - repeat constructor; discriminate.
  - constructor. eapply sm_assign.
    + apply (PyRead.lift 8); [lia|lia|constructor; apply PyRead.name_ok; reflexivity|].
      apply PyRead.stops_delim. cbn. tauto.
    + apply (PyRead.lift 8); [lia|lia|constructor; apply PyRead.name_ok; reflexivity|exact Logic.I].
  - intros [us U]. replace (py_lex "roll = evil") with (Some ([PN "roll"; PO "="] ++ [PN "evil"])) in U by (vm_compute; reflexivity).
    injection U as U. apply (app_inj_tail [PN "roll"; PO "="] us) in U. destruct U as [_ U]. discriminate.
Qed.

(** Python's text for the generated literal is the source text in which each
    variable in brackets is replaced by (the text of) its value; braces and
    everything else stay as they are. *)
Theorem C73_filled : forall fl body rest st, between_quotes body -> quiet body ->
  exists ps content pieces,
    scan (String cQUOTE (body ++ String cQUOTE rest)) = option_map (app (map part_tok ps)) (scan rest) /\
    resolve_node fl (string_node ps) st = Ok (("f" ++ quote ++ content ++ quote)%string, st) /\
    fpieces content = Some pieces /\
    forall val, exists value, formatted val pieces value /\ (forall v, formatted val pieces v -> v = value) /\
      filled (fun x => val (variable fl x)) body value.
Proof.
  intros fl body rest st B Q. destruct (literal_exact fl body rest st B Q) as [ps [content [pieces [S [R [_ [F V]]]]]]].
  exists ps, content, pieces. split; [exact S|split; [exact R|split; [exact F|]]]. intros val.
  destruct (V val) as [value [X Y]]. exists value. split; [exact X|split; [|exact Y]].
  intros v Z. exact (formatted_det val pieces v value Z X).
Qed.
Print Assumptions C73_filled.

Example C73_sample :
  between_quotes "a {x} [HP] of [z" /\ quiet "a {x} [HP] of [z" /\
  filled (fun _ => "12") "a {x} [HP] of [z" "a {x} 12 of [z" /\
  scan (String cQUOTE ("a {x} [HP] of [z" ++ String cQUOTE "")) = Some (map part_tok [PAny "a {x} "; PVar "HP"; PAny " of "; PNonvar "[z"]) /\
  resolve_node default_flags (string_node [PAny "a {x} "; PVar "HP"; PAny " of "; PNonvar "[z"]) reset_state
    = Ok (("f" ++ quote ++ "a {{x}} {HP} of [z" ++ quote)%string, reset_state).
Proof.
  split; [repeat constructor; discriminate|]. split; [repeat constructor; discriminate|]. split; [|split; vm_compute; reflexivity].
  do 6 (apply fi_char; [intros x s' _ X; discriminate X|]).
  apply (fi_var (fun _ => "12") "HP" " of [z" " of [z"); [split; [discriminate|]; repeat constructor; cbn; tauto|].
  do 4 (apply fi_char; [intros x s' _ X; discriminate X|]).
  apply fi_char.
  - intros x s' [N A] X. injection X as X. destruct x as [|c x]; [congruence|]. injection X as <- _.
    apply all_chars_cons in A. destruct A as [A _]. cbn in A. decompose [or] A; try discriminate; contradiction.
  - apply fi_char; [intros x s' _ X; discriminate X|]. constructor.
Qed.

(** The reading of brackets is unique: a text has one filled form. *)
Theorem C73_unique : forall v s r r', filled v s r -> filled v s r' -> r = r'.
Proof.
  assert (SPLIT : forall x y s t, a_word upper_letter x -> a_word upper_letter y ->
            (x ++ String "]" s)%string = (y ++ String "]" t)%string -> x = y /\ s = t).
  { intros x y s t [_ A] [_ B]. revert y A B. induction x as [|c x IH]; intros [|d y] A B E; cbn in E.
    - injection E as <-. now split.
    - injection E as <- _. apply all_chars_cons in B. destruct B as [B _]. apply is_upper_iff in B. discriminate.
    - injection E as -> _. apply all_chars_cons in A. destruct A as [A _]. apply is_upper_iff in A. discriminate.
    - injection E as <- E. apply all_chars_cons in A. apply all_chars_cons in B.
      destruct (IH y (proj2 A) (proj2 B) E) as [-> ->]. now split. }
  intros v s r r' F. revert r'. induction F as [|x s r W F IH|c s r N F IH]; intros r' G.
  - inversion G; subst; reflexivity.
  - remember ("[" ++ x ++ "]" ++ s)%string as u eqn:E. destruct G as [|y t r' W' G|c t r' N' G].
    + discriminate.
    + cbn [append] in E. injection E as E. destruct (SPLIT _ _ _ _ W' W E) as [-> ->]. f_equal. now apply IH.
    + exfalso. exact (N' x s W E).
  - remember (String c s) as u eqn:E. destruct G as [|y t r' W' G|d t r' N' G].
    + discriminate.
    + exfalso. exact (N y t W' eq_refl).
    + injection E as -> ->. f_equal. now apply IH.
Qed.
Print Assumptions C73_unique.
