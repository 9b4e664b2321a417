(** C69, C71, C74, C80: generated Python programs, read by the reference reader
    of PySpec.v. *)
From Coq Require Import String Ascii Bool List Arith Lia.
From Verif Require Import PyBase LexModel LexSpec LexFacts GramModel ParseModel SynSpec ParseSound ParseLaws NameSpec
  ResolveModel ResolveGen CompileFacts PySpec PyDet PyTrans PyReady PyLines PyCompile PyLaws PyProgLaws PyValid BlankFacts.
Import ListNotations.
Open Scope string_scope.
Open Scope list_scope.

(** For the examples. *)
Lemma sample_good : forall src e, scan src = Some (toks [SOutput e]) -> Forall good (toks_e e).
Proof.
  intros src e S. apply scan_good in S. unfold toks in S. cbn [flat_map toks_s] in S.
  rewrite app_nil_r in S. exact (Forall_inv_tail S).
Qed.

(** * C71 *)

(** The text generated for a well-formed expression of which the text keeps the
    structure (see [keeps_e]) is read by Python as that expression, and as nothing
    else. *)
Theorem C71_kept : forall fl e, Forall good (toks_e e) -> wf_e e = true -> keeps_e fl e = true ->
  comes_out fl e (py_e fl e).
Proof. exact kept. Qed.
Print Assumptions C71_kept.

Example C71_kept_sample :
  let e := EBin OOr (EBin OAdd (ETerm (TNum "2")) (EBin OMul (EDice (TNum "3") (TNum "6")) (ETerm (TUn UNeg (TVar "A")))))
             (EBin OAnd (ETerm (TVar "B")) (EBin OPow (ETerm (TNum "2")) (EBin OAt (ETerm (TNum "1")) (EDie (TNum "8"))))) in
  Forall good (toks_e e) /\ wf_e e = true /\ keeps_e default_flags e = true /\
  written default_flags e "2 + roll(3, 6) * -A | B & 2 ** (1 @ roll(8))".
Proof.
  cbv zeta. split; [|split; [reflexivity|split; [reflexivity|]]].
  - apply (sample_good "output 2+3d6*-A|B&2^1@d8"). vm_compute. reflexivity.
  - apply written_gen.
Qed.

(** Any tree of operators written with all its brackets keeps its structure. *)
Theorem C71_brackets : forall fl x, Forall (leaf_ok fl) (leaves x) ->
  comes_out fl (bracketed x) (py_e fl (bare x)).
Proof. exact brackets_keep. Qed.
Print Assumptions C71_brackets.

Example C71_brackets_sample :
  Forall (leaf_ok default_flags)
    (leaves (Op OPow (Op OPow (Leaf (TNum "2")) (Leaf (TUn UNeg (TNum "3")))) (Op OLt (Leaf (TVar "A")) (Leaf (TNum "5"))))) /\
  py_e default_flags (bare (Op OPow (Op OPow (Leaf (TNum "2")) (Leaf (TNum "3"))) (Leaf (TNum "2"))))
    = PBinary "**" (PBinary "**" (PySpec.PNumber "2") (PNumber "3")) (PNumber "2").
Proof.
  split; [|reflexivity]. cbn [leaves app].
  assert (G : forall src t, scan src = Some (toks [SOutput (ETerm t)]) -> wf_t t = true -> keeps_t default_flags t = true ->
                leaf_ok default_flags t).
  { intros src t S W K. split; [exact (sample_good src (ETerm t) S)|split; assumption]. }
  constructor; [|constructor; [|constructor; [|constructor; [|constructor]]]].
  - apply (G "output 2"); vm_compute; reflexivity.
  - apply (G "output -3"); vm_compute; reflexivity.
  - apply (G "output A"); vm_compute; reflexivity.
  - apply (G "output 5"); vm_compute; reflexivity.
Qed.

(** a^b^c is (a^b)^c in the language, and a ** (b ** c) in Python. *)
Theorem C71_power_refuted : forall fl a b c, operand fl a -> operand fl b -> operand fl c ->
  let e := EBin OPow (EBin OPow (ETerm a) (ETerm b)) (ETerm c) in
  let q := PBinary "**" (py_t fl a) (PBinary "**" (py_t fl b) (py_t fl c)) in
  comes_out fl e q /\ q <> py_e fl e.
Proof. exact power_misread. Qed.
Print Assumptions C71_power_refuted.

(** a < b < c compares a truth value with c in the language; in Python it means
    a < b and b < c. *)
Theorem C71_chain_refuted : forall fl o o' a b c, is_comparison o = true -> is_comparison o' = true ->
  operand fl a -> operand fl b -> operand fl c ->
  let e := EBin o' (EBin o (ETerm a) (ETerm b)) (ETerm c) in
  let q := PCompare (py_t fl a) [(py_operator o, py_t fl b); (py_operator o', py_t fl c)] in
  comes_out fl e q /\ q <> py_e fl e.
Proof. exact chain_misread. Qed.
Print Assumptions C71_chain_refuted.

(** a = b & c, in Python a == (b & c); the same with | and any comparison. *)
Theorem C71_logical_refuted : forall fl o u a b c, fl_oplib fl = false -> is_comparison o = true -> logical u ->
  operand fl a -> operand fl b -> operand fl c ->
  let e := EBin u (EBin o (ETerm a) (ETerm b)) (ETerm c) in
  let q := PCompare (py_t fl a) [(py_operator o, PBinary (py_operator u) (py_t fl b) (py_t fl c))] in
  comes_out fl e q /\ q <> py_e fl e.
Proof. exact logical_right_misread. Qed.
Print Assumptions C71_logical_refuted.

(** a & b = c, in Python (a & b) == c. *)
Theorem C71_logical_left_refuted : forall fl o u a b c, fl_oplib fl = false -> is_comparison o = true -> logical u ->
  operand fl a -> operand fl b -> operand fl c ->
  let e := EBin u (ETerm a) (EBin o (ETerm b) (ETerm c)) in
  let q := PCompare (PBinary (py_operator u) (py_t fl a) (py_t fl b)) [(py_operator o, py_t fl c)] in
  comes_out fl e q /\ q <> py_e fl e.
Proof. exact logical_left_misread. Qed.
Print Assumptions C71_logical_left_refuted.

(** -a^b is (-a)^b in the language, and -(a ** b) in Python. *)
Theorem C71_sign_refuted : forall fl u a b, u = UPos \/ u = UNeg -> operand fl a -> operand fl b ->
  let e := EBin OPow (ETerm (TUn u a)) (ETerm b) in
  let q := PUnary (snd (un_tok u)) (PBinary "**" (py_t fl a) (py_t fl b)) in
  comes_out fl e q /\ q <> py_e fl e.
Proof. exact sign_misread. Qed.
Print Assumptions C71_sign_refuted.

(** A number with superfluous zeros is no Python at all. *)
Theorem C71_zeros_refuted : forall fl s, good (tNUMBER, s) -> plain_number s = false ->
  written fl (ETerm (TNum s)) s /\ forall q, ~ py_expression s q.
Proof. exact zeros_unread. Qed.
Print Assumptions C71_zeros_refuted.

(** The trees above are those that the parser builds for these texts, and their
    operands are as required. *)
Example C71_refuted_samples :
  (forall s, In s ["1"; "2"; "3"] -> operand default_flags (TNum s)) /\
  (forall src e, In (src, e)
     [ ("output 1^2^3", EBin OPow (EBin OPow (ETerm (TNum "1")) (ETerm (TNum "2"))) (ETerm (TNum "3")));
       ("output 1<2=3", EBin OEq (EBin OLt (ETerm (TNum "1")) (ETerm (TNum "2"))) (ETerm (TNum "3")));
       ("output 1=2&3", EBin OAnd (EBin OEq (ETerm (TNum "1")) (ETerm (TNum "2"))) (ETerm (TNum "3")));
       ("output 1|2=3", EBin OOr (ETerm (TNum "1")) (EBin OEq (ETerm (TNum "2")) (ETerm (TNum "3"))));
       ("output -1^2", EBin OPow (ETerm (TUn UNeg (TNum "1"))) (ETerm (TNum "2")));
       ("output 007", ETerm (TNum "007")) ] ->
     scan src = Some (toks [SOutput e]) /\ parse (toks [SOutput e]) = Ok (VNode (tree [SOutput e])) /\
     exists text, compile default_flags src = Ok text) /\
  plain_number "007" = false.
Proof.
  split; [|split; [|reflexivity]].
  - intros s I. assert (G : good (tNUMBER, s)).
    { constructor. cbn in I. destruct I as [<-|[<-|[<-|[]]]]; (split; [discriminate|]); repeat constructor; cbn; tauto. }
    split; [|reflexivity]. split; [constructor; [exact G|constructor]|]. split; [reflexivity|].
    cbn in I. destruct I as [<-|[<-|[<-|[]]]]; reflexivity.
  - intros src e I. cbn in I.
    repeat (destruct I as [I|I]; [injection I as <- <-; split; [vm_compute; reflexivity|split; [vm_compute; reflexivity|
      eexists; vm_compute; reflexivity]]|]). contradiction.
Qed.

(** * C74 *)

(** Python reads the text of a compiled program, by its indentation, as the
    statements of the source in the nesting of the source; blank lines between
    them were removed, but no code. *)
Theorem C74_structure : forall fl src text, fl_check fl = true -> fl_prefix fl = false -> compile fl src = Ok text ->
  exists p fl', wf p = true /\ scan src = Some (toks p) /\ settled fl p fl' /\
    (keeps fl' p = true -> results_inside p = true -> forall q, py_program text q <-> q = py_prog fl' p).
Proof. exact compiled_reads. Qed.
Print Assumptions C74_structure.

(** Removing blank lines changes no line of code, as long as a line that is not
    empty holds some code (this is so for generated texts). *)
Theorem C74_blank_lines : forall s, Forall (fun l => is_blank (snd l) = false) (code_lines s) ->
  code_lines (squeeze s) = code_lines s.
Proof. exact code_squeeze. Qed.
Print Assumptions C74_blank_lines.

(** A compiled program never has two blank lines next to each other, and a source of
    blanks is refused. *)
Theorem C74_blank_lines_once : forall fl src text, compile fl src = Ok text -> never_twice blank_line (py_lines text).
Proof. exact compiled_once. Qed.
Print Assumptions C74_blank_lines_once.
Theorem C74_blank_source : forall fl src, blank_line src -> compile fl src = Err AssertErr.
Proof. exact blank_refused. Qed.
Print Assumptions C74_blank_source.
Example C74_blank_lines_sample :
  exists text, compile default_flags "function: f { result: 1 } output [f]" = Ok text /\
    In "" (py_lines text) /\ blank_line "" /\ ~ never_twice blank_line ["f"; ""; "  "]%string.
Proof.
  eexists. split; [vm_compute; reflexivity|]. split; [vm_compute; tauto|]. split; [constructor|].
  intros [_ [H _]]. apply H. split; repeat constructor; vm_compute; tauto.
Qed.

(** For the examples: the reading of a given text. *)
Lemma reads_of : forall src p text, scan src = Some (toks p) -> wf p = true -> keeps default_flags p = true ->
  results_inside p = true -> squeeze (program_text default_flags p) = text -> py_program text (py_prog default_flags p).
Proof.
  intros src p text S W K R <-. apply program_reads; try assumption. exact (scan_good _ _ S).
Qed.

Definition sample : string :=
  "function: f A:n B { loop I over {1..A} { if I = B { result: I } else if I > B { } else { X: I } } }
   output [f d6 3] named ""hp [X]""".

Definition sample_program : program :=
  [ SFunction (HWord (WName "f")) [HTyped "A" (SynSpec.PName "n"); HParam "B"]
      [ SLoop "I" (ETerm (TSeq [LRange (ETerm (TNum "1")) (ETerm (TVar "A"))]))
          [ SIf (Branch (EBin OEq (ETerm (TVar "I")) (ETerm (TVar "B"))) [SResult (ETerm (TVar "I"))])
              [Branch (EBin OGt (ETerm (TVar "I")) (ETerm (TVar "B"))) []]
              (Some [SAssign "X" (ETerm (TVar "I"))]) ] ];
    SNamed (ETerm (TCall [CWord (WName "f"); CArg (EDie (TNum "6")); CArg (ETerm (TNum "3"))]))
      (PAny "hp ") [PVar "X"] ].

Example C74_sample :
  exists text, compile default_flags sample = Ok text /\ scan sample = Some (toks sample_program) /\
  wf sample_program = true /\ keeps default_flags sample_program = true /\ results_inside sample_program = true /\
  py_program text
    [ PDef (PCall (PName "anydice_casting") []) "f_X_X" [("A", Some (PName "T_N")); ("B", None)]
        [ PFor "I" (call "get_seq" [PList [call "myrange" [PNumber "1"; PName "A"]]])
            [ PIf (PCompare (PName "I") [("==", PName "B")]) [PReturn (PName "I")]
                (Some [PIf (PCompare (PName "I") [(">", PName "B")]) [PPass]
                         (Some [PAssign (PName "X") (PName "I")])]) ] ];
      PExpr (PCall (PName "output") [(None, call "f_X_X" [call "roll" [PNumber "6"]; PNumber "3"]);
                                     (Some "named", PFormat [Lit "h"; Lit "p"; Lit " "; Field "X"])]) ].
Proof.
  eexists. split; [vm_compute; reflexivity|]. split; [vm_compute; reflexivity|]. 
  split; [reflexivity|]. split; [reflexivity|]. split; [reflexivity|].
  apply (reads_of sample sample_program); vm_compute; reflexivity.
Qed.

(** * C80 *)

(** Which accepted programs are Python: those without a word of Python as the name
    of a function or the type of a parameter and without a number with leading
    zeros ([plain_words]), with result: only in functions.  How Python reads the
    expressions (C71) does not matter here.  Strings with a backslash, a carriage
    return or NUL, which Python reads in its own way, are C72's. *)
Theorem C80_valid : forall fl src text, fl_check fl = true -> fl_prefix fl = false -> compile fl src = Ok text ->
  exists p fl', wf p = true /\ scan src = Some (toks p) /\ settled fl p fl' /\
    (plain_strings p = true ->
     ((exists q, py_program text q) <-> results_inside p = true /\ plain_words fl' p = true)).
Proof. exact compiled_valid. Qed.
Print Assumptions C80_valid.

(** Valid, although Python reads two of its expressions with another structure;
    and the same with a word of Python as the name of the function. *)
Definition misread (f : string) : program :=
  [ SFunction (HWord (WName f)) []
      [ SIf (Branch (EBin OGt (EBin OGt (ETerm (TNum "2")) (ETerm (TNum "1"))) (ETerm (TNum "0")))
          [SResult (EBin OPow (ETerm (TUn UNeg (TNum "1"))) (ETerm (TNum "2")))]) [] None ];
    SOutput (ETerm (TCall [CWord (WName f)])) ].

Example C80_valid_sample :
  Forall (fun '(f, valid) =>
    let src := ("function: " ++ f ++ " { if 2 > 1 > 0 { result: -1 ^ 2 } } output [" ++ f ++ "]")%string in
    scan src = Some (toks (misread f)) /\ wf (misread f) = true /\ plain_strings (misread f) = true /\
    keeps default_flags (misread f) = false /\
    exists text, compile default_flags src = Ok text /\ ((exists q, py_program text q) <-> valid = true))
    [("f", true); ("yield", false); ("del", false)].
Proof.
  assert (U : forall src text p valid, scan src = Some (toks p) -> wf p = true -> plain_strings p = true ->
    compile default_flags src = Ok text -> text = squeeze (program_text default_flags p) ->
    results_inside p && plain_words default_flags p = valid -> 
    ((exists q, py_program text q) <-> valid = true)).
  { intros src text p valid S W K C -> <-. rewrite andb_true_iff. exact (valid_program _ _ (scan_good _ _ S) W K). }
  repeat constructor; cbv zeta; try (vm_compute; reflexivity); eexists; (split; [vm_compute; reflexivity|]);
    [apply (U "function: f { if 2 > 1 > 0 { result: -1 ^ 2 } } output [f]" _ (misread "f"))
    |apply (U "function: yield { if 2 > 1 > 0 { result: -1 ^ 2 } } output [yield]" _ (misread "yield"))
    |apply (U "function: del { if 2 > 1 > 0 { result: -1 ^ 2 } } output [del]" _ (misread "del"))]; vm_compute; reflexivity.
Qed.

(** Accepted programs with result: outside functions are no Python programs. *)
Theorem C80_result_refuted : forall p src, wf p = true -> scan src = Some (toks p) ->
  ~ takes_helper p -> accepted true p -> keeps default_flags p = true -> results_inside p = false ->
  exists text, compile default_flags src = Ok text /\ forall q, ~ py_program text q.
Proof.
  intros p src W S N A K R. exists (squeeze (program_text default_flags p)). split.
  - apply (compile_exact default_flags src _ eq_refl eq_refl). exists p. split; [exact W|split; [exact S|]].
    left. split; [exact N|split; [exact A|reflexivity]].
  - apply outside_unread; try assumption. exact (scan_good _ _ S).
Qed.
Print Assumptions C80_result_refuted.

Example C80_result_sample :
  let p := [SIf (Branch (ETerm (TNum "1")) [SResult (ETerm (TNum "2"))]) [] None; SOutput (ETerm (TNum "1"))] in
  scan "if 1 { result: 2 } output 1" = Some (toks p) /\ wf p = true /\ keeps default_flags p = true /\
  results_inside p = false /\ accepted true p /\ ~ takes_helper p.
Proof.
  cbv zeta. split; [vm_compute; reflexivity|]. do 3 (split; [vm_compute; reflexivity|]). split.
  - split; [vm_compute; reflexivity|split; [vm_compute; constructor|intros c []]].
  - intros [h [_ []]].
Qed.

(** The word of a function can be any word of Python: the program is accepted,
    and is no Python program. *)
Theorem C80_keyword_refuted : forall k, In k py_keywords ->
  exists text, compile default_flags ("function: " ++ k ++ " { result: 1 } output 1") = Ok text /\
    forall q, ~ py_program text q.
Proof.
  assert (U : forall k bs q, In k py_keywords ->
    py_lex ("def " ++ k ++ "():") = Some [PN "def"; PN k; PO "("; PO ")"; PO ":"] ->
    ~ statements (PLine "@anydice_casting()" :: PBlock ("def " ++ k ++ "():") [PLine "return 1"] :: bs) q).
  { intros k bs q K L H. inversion H as [|? ? ? ? ? E Si| | |]; subst.
    - assert (E' : py_lex "@anydice_casting()" = Some [PO "@"; PN "anydice_casting"; PO "("; PO ")"]) by (vm_compute; reflexivity).
      rewrite E' in E. injection E as <-. exact (decorator_line _ _ Si).
    - match goal with A : _ = Some (PN "def" :: PN ?g :: _), N : py_name ?g |- _ =>
        pose proof (eq_trans (eq_sym L) A) as X; injection X as <- _; exact (N K) end. }
  assert (V : forall k text, In k py_keywords ->
    py_lex ("def " ++ k ++ "():") = Some [PN "def"; PN k; PO "("; PO ")"; PO ":"] ->
    code_lines text = [(0, "@anydice_casting()"); (0, "def " ++ k ++ "():"); (2, "return 1"); (0, "output(1)")]%string ->
    forall q, ~ py_program text q).
  { intros k text K L C q [[bs [B S]] _]. rewrite C in B.
    assert (NO : forall t ts, py_lex t = Some (ts ++ [PO ")"]) -> ~ opens t).
    { intros t ts E [us U']. rewrite E in U'. injection U' as U'. apply app_inj_tail in U'. destruct U' as [_ X]. discriminate. }
    assert (B' : blocks 0 [(0, "@anydice_casting()"); (0, "def " ++ k ++ "():"); (2, "return 1"); (0, "output(1)")]%string
              [PLine "@anydice_casting()"; PBlock ("def " ++ k ++ "():") [PLine "return 1"]; PLine "output(1)"] []).
    { apply bl_line.
      - apply (NO _ [PO "@"; PN "anydice_casting"; PO "("]). vm_compute. reflexivity.
      - eapply bl_block.
        + exists [PN "def"; PN k; PO "("; PO ")"]. exact L.
        + lia.
        + apply bl_line; [|apply bl_dedent; lia]. intros [us X].
          replace (py_lex "return 1") with (Some ([PN "return"] ++ [PNum "1"])) in X by (vm_compute; reflexivity).
          injection X as X. apply (app_inj_tail [PN "return"] us) in X. destruct X as [_ X]. discriminate.
        + apply bl_line; [|constructor]. apply (NO _ [PN "output"; PO "("; PNum "1"]). vm_compute. reflexivity. }
    destruct (blocks_det _ _ _ _ B _ _ B') as [-> _]. exact (U k _ q K L S). }
  intros k K.
  assert (X : exists text, compile default_flags ("function: " ++ k ++ " { result: 1 } output 1") = Ok text /\
    code_lines text = [(0, "@anydice_casting()"); (0, "def " ++ k ++ "():"); (2, "return 1"); (0, "output(1)")]%string /\
    py_lex ("def " ++ k ++ "():") = Some [PN "def"; PN k; PO "("; PO ")"; PO ":"]).
  { cbn [py_keywords In] in K.
    repeat (destruct K as [<-|K]; [eexists; split; [vm_compute; reflexivity|split; vm_compute; reflexivity]|]).
    contradiction. }
  destruct X as [text [E [C L]]]. exists text. split; [exact E|]. exact (V k text K L C).
Qed.
Print Assumptions C80_keyword_refuted.

(** * C69 *)

(** The names of the helpers that the compiler protects are not defined by any
    function of a compiled program. *)
Theorem C69_protected : forall fl src text, fl_check fl = true -> fl_prefix fl = false -> compile fl src = Ok text ->
  exists p fl', scan src = Some (toks p) /\ settled fl p fl' /\
    forall h, In h ["output"; "roll"; "myrange"; "max_func_depth"; "anydice_casting"; "settings_set"] ->
      ~ In h (flat_map def_names (py_prog fl' p)).
Proof.
  intros fl src text C P E. destruct (compiled fl src text C P E) as [p [fl' [W [S [H T]]]]].
  exists p, fl'. split; [exact S|split; [exact H|]]. intros h I.
  exact (no_helper_defined fl p fl' h (scan_good _ _ S) P H I).
Qed.
Print Assumptions C69_protected.

(** Not so for len and get_seq, which generated programs call, and for vars,
    where the variables are kept under one of the options. *)
Theorem C69_unprotected_refuted : forall fl p h,
  In h [([Some "len"], "len"); ([Some "get"; Some "seq"], "get_seq"); ([Some "vars"], "vars")] ->
  fl_prefix fl = false -> ~ takes_helper p -> In (fst h) (defs p) ->
  settled fl p fl /\ In (snd h) (flat_map def_names (py_prog fl p)).
Proof.
  intros fl p h H P N D. split; [left; now split|]. rewrite names_program. apply in_map_iff. exists (fst h).
  split; [|exact D]. unfold fun_name. rewrite P. cbn in H. destruct H as [<-|[<-|[<-|[]]]]; reflexivity.
Qed.
Print Assumptions C69_unprotected_refuted.

Example C69_unprotected_sample :
  exists text, compile default_flags "function: len { result: 7 } output #{1,2}" = Ok text /\
  py_program text
    [ PDef (call "anydice_casting" []) "len" [] [PReturn (PNumber "7")];
      PExpr (call "output" [call "len" [call "get_seq" [PList [PNumber "1"; PNumber "2"]]]]) ].
Proof.
  eexists. split; [vm_compute; reflexivity|].
  apply (reads_of "function: len { result: 7 } output #{1,2}"
           [SFunction (HWord (WName "len")) [] [SResult (ETerm (TNum "7"))];
            SOutput (ETerm (THash (TSeq [LOne (ETerm (TNum "1")); LOne (ETerm (TNum "2"))])))]); vm_compute; reflexivity.
Qed.

(** A variable is never called like a function with at least one word in its name. *)
Theorem C69_variables : forall fl s w x, shape_words s -> In (Some w) s -> a_word upper_letter x -> fun_name fl s <> x.
Proof.
  intros fl s w x Ws I [_ U] E. subst x.
  assert (L : exists c, lower_letter c /\ In c (chars w)).
  { unfold shape_words in Ws. rewrite Forall_forall in Ws. destruct (Ws _ I) as [N A]. destruct w as [|c w]; [congruence|].
    apply all_chars_cons in A. exists c. split; [tauto|now left]. }
  destruct L as [c [Lc Ic]].
  assert (J : forall sep y l, In y l -> In c (chars y) -> In c (chars (String.concat sep l))).
  { intros sep y l. induction l as [|z l IH]; intros [].
    - subst z. intros Iy. destruct l as [|z l]; [exact Iy|]. cbn [String.concat]. rewrite !chars_app. apply in_or_app. now left.
    - intros Iy. specialize (IH H Iy). destruct l as [|u l]; [contradiction|].
      change (String.concat sep (z :: u :: l)) with (z ++ sep ++ String.concat sep (u :: l))%string.
      rewrite !chars_app. apply in_or_app. right. apply in_or_app. now right. }
  assert (K : In c (chars (fun_name fl s))).
  { unfold fun_name. apply (J _ w); [|exact Ic]. apply in_or_app. right. apply in_map_iff. exists (Some w). now split. }
  unfold all_chars in U. rewrite Forall_forall in U. specialize (U c K). apply is_lower_iff in Lc. apply is_upper_iff in U.
  destruct c as [[] [] [] [] [] [] [] []]; discriminate.
Qed.
Print Assumptions C69_variables.

(** But one with only a parameter is called X, and so may be a variable; and the
    type annotations T_N, T_S and T_D are ordinary variables to a program. *)
Theorem C69_variable_refuted :
  (exists text, compile default_flags "function: A { result: A } X: 3 output [5]" = Ok text /\
   py_program text
    [ PDef (call "anydice_casting" []) "X" [("A", None)] [PReturn (PName "A")];
      PAssign (PName "X") (PNumber "3"); PExpr (call "output" [call "X" [PNumber "5"]]) ]) /\
  (exists text, compile default_flags "T_N: 3 function: f A:n { result: A } output [f d6]" = Ok text /\
   py_program text
    [ PAssign (PName "T_N") (PNumber "3");
      PDef (call "anydice_casting" []) "f_X" [("A", Some (PName "T_N"))] [PReturn (PName "A")];
      PExpr (call "output" [call "f_X" [call "roll" [PNumber "6"]]]) ]).
Proof.
  split.
  - eexists. split; [vm_compute; reflexivity|].
    apply (reads_of "function: A { result: A } X: 3 output [5]"
           [SFunction (HParam "A") [] [SResult (ETerm (TVar "A"))]; SAssign "X" (ETerm (TNum "3"));
            SOutput (ETerm (TCall [CArg (ETerm (TNum "5"))]))]); vm_compute; reflexivity.
  - eexists. split; [vm_compute; reflexivity|].
    apply (reads_of "T_N: 3 function: f A:n { result: A } output [f d6]"
           [SAssign "T_N" (ETerm (TNum "3"));
            SFunction (HWord (WName "f")) [HTyped "A" (SynSpec.PName "n")] [SResult (ETerm (TVar "A"))];
            SOutput (ETerm (TCall [CWord (WName "f"); CArg (EDie (TNum "6"))]))]); vm_compute; reflexivity.
Qed.
Print Assumptions C69_variable_refuted.
