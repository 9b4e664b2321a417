(** The lexer that ply builds reads texts as LexModel.v says. *)
From Coq Require Import String Ascii Bool List Arith Lia.
From Verif Require Import PyBase LexModel LexSpec LexFacts ReSem ReFacts ReportModel PlyLexModel PlySpec.
Import ListNotations.
Open Scope string_scope.

(** ** The tables, computed *)

Definition tbs (st : lstate) : tables :=
  match build_lexer with
  | Some T => match lookup (state_name st) T with Some t => t | None => mkTables REmpty [] "" None None end
  | None => mkTables REmpty [] "" None None
  end.
Definition the_tables : list (string * tables) := [("INITIAL", tbs Initial); ("instring", tbs Instring)].

Lemma built : build_lexer = Some the_tables.
Proof. vm_compute. reflexivity. Qed.

Lemma the_lookup st : lookup (state_name st) the_tables = Some (tbs st).
Proof. destruct st; reflexivity. Qed.

(** ** The patterns *)

Definition cls (l : list citem) : re := RIn false l.
Definition up_class : list citem := [CRange "A" "Z"; CChar "_"].
Definition low_class : list citem := [CRange "a" "z"].
Definition body_class : list citem := [CChar newline_char; CChar cQUOTE; CChar "["].
Definition re_plus (r : re) : re := RCat r (RStar true r).
Definition lit1 (c : ascii) : re := RChar c.

Definition initial_res : list (nat * re) :=
  [(1, RCat (RChar cBACK) (RCat (RStar false (RGroup 2 (RAlt RAny (RChar newline_char)))) (RChar cBACK)));
   (3, re_plus (cls [CDigit])); (4, re_plus (cls low_class)); (5, RChar cQUOTE); (6, re_plus (RChar newline_char));
   (7, re_plus (cls up_class)); (8, RCat (RChar ".") (RChar "."));
   (9, RChar "+"); (10, RChar "*"); (11, RChar "^"); (12, RCat (RChar "!") (RChar "=")); (13, RChar "@");
   (14, RChar "#"); (15, RChar "|"); (16, RChar "."); (17, RChar "("); (18, RChar ")"); (19, RChar "{"); (20, RChar "}");
   (21, RChar "["); (22, RChar "]"); (23, RChar "-"); (24, RChar "/"); (25, RChar ":"); (26, RChar "<"); (27, RChar ">");
   (28, RChar "="); (29, RChar "&"); (30, RChar "!"); (31, RChar ",")].
Definition instring_res : list (nat * re) :=
  [(1, RChar cQUOTE);
   (2, RCat (RChar "[") (RCat (re_plus (cls up_class)) (RChar "]")));
   (3, RCat (RChar "[") (RStar true (RIn true body_class)));
   (4, re_plus (RIn true body_class))].
Definition state_res (st : lstate) : list (nat * re) := match st with Initial => initial_res | Instring => instring_res end.

Lemma master st : tb_re (tbs st) = chain (state_res st).
Proof. destruct st; vm_compute; reflexivity. Qed.

Lemma single_char c : single (RChar c) (Ascii.eqb c).
Proof. intros x. reflexivity. Qed.
Lemma single_class n l p : (forall c, in_class n l c = p c) -> single (RIn n l) p.
Proof.
  intros E x. change (ways (RIn n l) x) with (one (in_class n l) x). unfold one. destruct (sp_rest x) as [|c s]; [reflexivity|]. now rewrite E.
Qed.
Lemma single_low : single (cls low_class) is_lower.
Proof. apply single_class. intros c. destruct c as [[|] [|] [|] [|] [|] [|] [|] [|]]; vm_compute; reflexivity. Qed.
Lemma single_digit : single (cls [CDigit]) is_digit.
Proof. apply single_class. intros c. destruct c as [[|] [|] [|] [|] [|] [|] [|] [|]]; vm_compute; reflexivity. Qed.
Lemma single_up : single (cls up_class) is_upper_.
Proof. apply single_class. intros c. destruct c as [[|] [|] [|] [|] [|] [|] [|] [|]]; vm_compute; reflexivity. Qed.
Lemma single_body : single (RIn true body_class) is_body.
Proof. apply single_class. intros c. destruct c as [[|] [|] [|] [|] [|] [|] [|] [|]]; vm_compute; reflexivity. Qed.

Lemma reads_ext r m n : (forall s, m s = n s) -> reads r m -> reads r n.
Proof. intros E R pos s l. rewrite <- (E s). apply R. Qed.

Definition numbered (st : lstate) : list (nat * rule) := combine (map fst (state_res st)) (rules st).

Lemma numbered_rules st : map snd (numbered st) = rules st.
Proof. destruct st; reflexivity. Qed.

Lemma all_read st : Forall2 (fun a b => fst a = fst b /\ reads (snd a) (fst (snd b))) (state_res st) (numbered st).
Proof.
  destruct st; unfold numbered; cbn [state_res rules map fst combine initial_res rules_initial instring_res rules_instring].
  - constructor; [split; [reflexivity|]|].
    { apply (reads_ext _ _ m_comment) with (2 := reads_comment 2 cBACK). intros s. reflexivity. }
    constructor; [split; [reflexivity|]|]. { exact (reads_plus _ _ single_digit). }
    constructor; [split; [reflexivity|]|]. { exact (reads_plus _ _ single_low). }
    constructor; [split; [reflexivity|]|]. { exact (reads_char cQUOTE). }
    constructor; [split; [reflexivity|]|]. { exact (reads_plus _ _ (single_char newline_char)). }
    constructor; [split; [reflexivity|]|]. { exact (reads_plus _ _ single_up). }
    repeat (constructor; [split; [reflexivity|first [exact (reads_two _ _)|exact (reads_char _)]]|]). constructor.
  - constructor; [split; [reflexivity|]|]. { exact (reads_char cQUOTE). }
    constructor; [split; [reflexivity|]|].
    { apply (reads_ext _ _ m_var) with (2 := reads_between "[" _ _ "]" single_up eq_refl). intros s. reflexivity. }
    constructor; [split; [reflexivity|]|].
    { apply (reads_ext _ _ m_nonvar) with (2 := reads_open_star "[" _ _ single_body). intros s. reflexivity. }
    constructor; [split; [reflexivity|]|]. { exact (reads_plus _ _ single_body). }
    constructor.
Qed.

(** what the master pattern finds *)
Lemma master_match st text pos :
  re_match (tb_re (tbs st)) text pos =
  match first_of (numbered st) (drop pos text) with
  | Some (v, rest, (i, _)) => Some (mkMatch (pos + String.length v) v (Some i))
  | None => None
  end.
Proof.
  unfold re_match. rewrite master.
  assert (N : state_res st <> []) by (destruct st; discriminate).
  pose proof (chain_first (state_res st) (numbered st) pos (drop pos text) None N (all_read st)) as H.
  destruct (ways (chain (state_res st)) (mkSpot pos (drop pos text) None)) as [|y ys]; cbn [hd_error] in H.
  - destruct (first_of (numbered st) (drop pos text)) as [[[v r] [i ma]]|]; [discriminate H|reflexivity].
  - destruct (first_of (numbered st) (drop pos text)) as [[[v r] [i [m a]]]|] eqn:E; [|discriminate H].
    injection H as ->. cbn [sp_pos sp_rest sp_last]. f_equal. f_equal.
    rewrite Nat.add_comm, Nat.add_sub. destruct (first_of_some _ _ _ _ _ _ _ E) as [I1 M].
    assert (R : rule_ok (m, a)).
    { pose proof (rules_ok st) as R. rewrite Forall_forall in R. apply R. rewrite <- numbered_rules. apply (in_map snd) in I1. exact I1. }
    destruct (R _ _ _ M) as (W & _). rewrite <- W. apply take_app.
Qed.

(** ** What is done with a match *)

Definition run_handle (h : handle) (ty0 : ltoken) (l' : lexer) : turn :=
  match h with
  | (None, Some ty) => TToken (mkTok ty (t_value ty0) (t_lineno ty0) (t_lexpos ty0)) l'
  | (None, None) => TGo l'
  | (Some f, ty) => ended (f ["INITIAL"; "instring"] (mkTok (match ty with Some ty => ty | None => "" end) (t_value ty0) (t_lineno ty0) (t_lexpos ty0)) l') TGo
  end.

Definition to_state (l : lexer) (st : string) (n : nat) : lexer := mkLexer (lx_data l) (lx_pos l) st (lx_line l + n) (lx_illegal l).

Definition handled (st : lstate) (ir : nat * rule) : Prop :=
  exists h, nth_error (tb_index (tbs st)) (fst ir) = Some (Some h) /\
  forall s v rest, fst (snd ir) s = Some (v, rest) -> forall line pos l', lx_state l' = state_name st ->
  run_handle h (mkTok "" v line pos) l' =
  match snd (snd ir) with
  | Emit f => TToken (mkTok (type_name (f v)) v line pos) l'
  | Drop nx => TGo (to_state l' (state_name (match nx with Some st' => st' | None => st end)) (counted (Skipped v)))
  end.

Lemma same_lexer l st : lx_state l = st -> to_state l st 0 = l.
Proof. intros <-. unfold to_state. rewrite Nat.add_0_r. now destruct l. Qed.

Lemma word_name v : (if String.eqb v "d" then "D_OP"
   else if existsb (String.eqb v) reserved_words then upper v else "LOWERNAME") = type_name (word_type v).
Proof.
  unfold word_type. destruct (String.eqb v "d"); [reflexivity|]. unfold reserved_words, reserved. cbn [existsb find fst].
  rewrite !(String.eqb_sym v). repeat (match goal with |- context [String.eqb ?a v] => destruct (String.eqb_spec a v); [subst v; reflexivity|] end).
  reflexivity.
Qed.

Lemma newlines_plus s v rest : m_plus (Ascii.eqb cNL) s = Some (v, rest) -> counted (Skipped v) = newlines v.
Proof.
  intros H. destruct (m_plus_spec _ _ _ _ H) as (_ & N & A & _). destruct v as [|c v]; [contradiction|].
  apply all_chars_cons in A. destruct A as [A _]. unfold counted. rewrite (Ascii.eqb_sym c cNL), A. reflexivity.
Qed.

Lemma all_handled st : Forall (handled st) (numbered st).
Proof.
  destruct st; unfold numbered; cbn [state_res rules map fst combine initial_res rules_initial instring_res rules_instring].
  - constructor.
    { eexists. split; [vm_compute; reflexivity|]. intros s v rest M line pos l' S. cbn [fst snd] in *.
      destruct (m_comment_spec _ _ _ M) as (b & -> & _). cbn. f_equal. symmetry. now apply same_lexer. }
    constructor. { eexists. split; [vm_compute; reflexivity|]. intros s v rest M line pos l' S. reflexivity. }
    constructor. { eexists. split; [vm_compute; reflexivity|]. intros s v rest M line pos l' S. cbn [fst snd].
      rewrite <- word_name. reflexivity. }
    constructor. { eexists. split; [vm_compute; reflexivity|]. intros s v rest M line pos l' S. cbn [fst snd] in M.
      destruct (m_lit_spec _ _ _ _ M) as (-> & _). cbn. unfold to_state. now rewrite Nat.add_0_r. }
    constructor. { eexists. split; [vm_compute; reflexivity|]. intros s v rest M line pos l' S. cbn [fst snd] in M.
      cbn [snd]. rewrite (newlines_plus _ _ _ M). cbn [state_name]. unfold to_state. rewrite <- S at 1. reflexivity. }
    repeat (constructor; [eexists; split; [vm_compute; reflexivity|]; intros s v rest M line pos l' S; reflexivity|]). constructor.
  - constructor. { eexists. split; [vm_compute; reflexivity|]. intros s v rest M line pos l' S. cbn [fst snd] in M.
      destruct (m_lit_spec _ _ _ _ M) as (-> & _). cbn. unfold to_state. now rewrite Nat.add_0_r. }
    repeat (constructor; [eexists; split; [vm_compute; reflexivity|]; intros s v rest M line pos l' S; reflexivity|]). constructor.
Qed.

(** ** One turn *)

Lemma the_ignored st c : string_has c (tb_ignore (tbs st)) = ignored st c.
Proof. destruct st; [|reflexivity]. unfold string_has. change (tb_ignore (tbs Initial)) with (String " " (String cTAB "")). cbn [list_ascii_of_string existsb ignored]. now rewrite orb_false_r. Qed.

Lemma the_errors st : tb_error (tbs st) = Some f_error /\ tb_eof (tbs st) = Some f_eof.
Proof. destruct st; split; vm_compute; reflexivity. Qed.

Definition after (l : lexer) (n : nat) (st : lstate) (lines : nat) (more : list entry) : lexer :=
  mkLexer (lx_data l) (lx_pos l + n) (state_name st) (lx_line l + lines) (lx_illegal l ++ more)%list.

Lemma turn_step st l s p st' r : lx_state l = state_name st -> drop (lx_pos l) (lx_data l) = s ->
  lex_step st s = Some (p, st', r) ->
  token_turn the_tables l =
  match p with
  | Token t => TToken (ply_token (t, mkPlace (lx_pos l) (lx_line l))) (after l (String.length (snd t)) st' 0 [])
  | Skipped v => TGo (after l (String.length v) st' (counted p) [])
  | Illegal c => TGo (after l 1 st' 0 [entry_at (lx_data l) (String c EmptyString) (mkPlace (lx_pos l) (lx_line l))])
  end.
Proof.
  intros ST D H. unfold token_turn. rewrite ST, the_lookup, D. destruct s as [|c s]; [discriminate H|]. cbn [lex_step] in H.
  rewrite the_ignored. destruct (ignored st c) eqn:IG.
  { injection H as <- <- <-. cbn [String.length]. unfold after, skip. rewrite ST, app_nil_r. do 2 f_equal.
    unfold counted. destruct (Ascii.eqb_spec c cNL); [|now rewrite Nat.add_0_r]. subst c. destruct st; discriminate IG. }
  rewrite master_match, D. rewrite <- (numbered_rules st), first_of_match in H.
  destruct (first_of (numbered st) (String c s)) as [[[v rest] [i [m a]]]|] eqn:E.
  - destruct (first_of_some _ _ _ _ _ _ _ E) as [IN M]. cbn [m_last m_end m_group].
    pose proof (all_handled st) as HD. rewrite Forall_forall in HD. destruct (HD _ IN) as (h & NH & RH). cbn [fst snd] in NH, RH.
    rewrite NH. specialize (RH _ _ _ M (lx_line l) (lx_pos l) (mkLexer (lx_data l) (lx_pos l + String.length v) (lx_state l) (lx_line l) (lx_illegal l)) ST).
    change (map fst the_tables) with ["INITIAL"; "instring"].
    transitivity (run_handle h (mkTok "" v (lx_line l) (lx_pos l)) (mkLexer (lx_data l) (lx_pos l + String.length v) (lx_state l) (lx_line l) (lx_illegal l))).
    { destruct h as [[f|] [ty|]]; rewrite ?ST; reflexivity. }
    rewrite RH. destruct a as [f|nx].
    + injection H as <- <- <-. unfold after, ply_token. cbn [fst snd at_line at_pos]. rewrite app_nil_r, Nat.add_0_r, ST. reflexivity.
    + injection H as <- <- <-. unfold after, to_state. cbn [lx_data lx_pos lx_line lx_illegal]. now rewrite app_nil_r.
  - injection H as <- <- <-. destruct (the_errors st) as [-> _]. unfold f_error. cbn [t_value].
    unfold skip, record_entry. cbn [lx_pos lx_data lx_state lx_line lx_illegal t_lexpos].
    assert (NE : Nat.eqb (lx_pos l + 1) (lx_pos l) = false) by (apply Nat.eqb_neq; lia). rewrite NE.
    unfold after. rewrite ST, Nat.add_0_r. reflexivity.
Qed.

Lemma turn_end st l : lx_state l = state_name st -> drop (lx_pos l) (lx_data l) = EmptyString ->
  token_turn the_tables l = TEnd (after l 0 st 0 (match st with
    | Instring => [entry_at (lx_data l) "Non-closed string" (mkPlace (lx_pos l) (lx_line l))] | Initial => [] end)).
Proof.
  intros ST D. unfold token_turn. rewrite ST, the_lookup, D. destruct (the_errors st) as [_ ->]. unfold f_eof, ended, after. rewrite ST.
  destruct st; cbn [state_name String.eqb].
  - change (String.eqb "INITIAL" "instring") with false. cbv iota. rewrite app_nil_r, !Nat.add_0_r. f_equal. destruct l. cbn in ST |- *. now rewrite ST.
  - change (String.eqb "instring" "instring") with true. cbv iota. unfold record_entry. cbn [t_lexpos].
    rewrite !Nat.add_0_r, ST. reflexivity.
Qed.

(** ** Whole texts *)

Definition illegal_entries (src : string) (pos line : nat) (ps : list piece) : list entry :=
  flat_map (fun pp => match fst pp with
                      | Illegal c => [entry_at src (String c EmptyString) (snd pp)]
                      | _ => []
                      end) (placed pos line ps).

Definition open_entries (src : string) (e : lstate) (pos line : nat) : list entry :=
  match e with Instring => [entry_at src "Non-closed string" (mkPlace pos line)] | Initial => [] end.

Lemma after_after l n1 st1 k1 m1 n2 st2 k2 m2 :
  after (after l n1 st1 k1 m1) n2 st2 k2 m2 = after l (n1 + n2) st2 (k1 + k2) (m1 ++ m2)%list.
Proof. unfold after. cbn [lx_data lx_pos lx_line lx_illegal]. now rewrite !Nat.add_assoc, app_assoc. Qed.

Lemma tokens_read : forall n st l s ps e, String.length s <= n -> lx_state l = state_name st -> drop (lx_pos l) (lx_data l) = s ->
  lex_loop n st s = (ps, e) ->
  all_tokens the_tables (S n) l = Ok (map ply_token (tokens_at (lx_pos l) (lx_line l) ps),
    after l (String.length s) e (all_counted ps)
      (illegal_entries (lx_data l) (lx_pos l) (lx_line l) ps ++
       open_entries (lx_data l) e (lx_pos l + String.length s) (lx_line l + all_counted ps))%list).
Proof.
  assert (EMPTY : forall n st l, lx_state l = state_name st -> drop (lx_pos l) (lx_data l) = "" ->
    all_tokens the_tables (S n) l = Ok ([], after l 0 st 0 (open_entries (lx_data l) st (lx_pos l + 0) (lx_line l + 0)))).
  { intros n st l ST D. cbn [all_tokens]. rewrite (turn_end st l ST D). unfold open_entries. rewrite !Nat.add_0_r. reflexivity. }
  induction n as [|n IH]; intros st l s ps e LE ST D H.
  - destruct s as [|c s]; [|cbn in LE; lia]. cbn [lex_loop] in H. injection H as <- <-. apply (EMPTY 0 st l ST D).
  - cbn [lex_loop] in H. destruct (lex_step st s) as [[[p st'] r]|] eqn:E.
    + destruct (lex_loop n st' r) as [ps' e'] eqn:E2. injection H as <- <-.
      destruct (lex_step_spec _ _ _ _ _ E) as (W & NP & _). pose proof (lex_step_shorter _ _ _ _ _ E) as SH.
      assert (LN : forall k, k = String.length (piece_text p) -> drop (lx_pos l + k) (lx_data l) = r).
      { intros k ->. rewrite drop_plus, D, <- W. apply drop_app. }
      assert (LE' : String.length r <= n) by lia.
      assert (LS : String.length s = String.length (piece_text p) + String.length r) by (rewrite <- W; apply slen_app).
      change (all_tokens the_tables (S (S n)) l) with
        (match token_turn the_tables l with
         | TGo l' => all_tokens the_tables (S n) l'
         | TToken t l' => '(ts, l2) <- all_tokens the_tables (S n) l' ;; Ok (t :: ts, l2)
         | TEnd l' => Ok ([], l')
         | TRaise e => Err e
         end).
      rewrite (turn_step st l s p st' r ST D E). unfold tokens_at, illegal_entries. cbn [placed flat_map fst].
      change (all_counted (p :: ps')) with (counted p + all_counted ps').
      rewrite LS. destruct p as [[ty v]|v|c]; cbn [piece_text] in *.
      * cbn [snd]. rewrite (IH st' (after l (String.length v) st' 0 []) r ps' e' LE' eq_refl (LN _ eq_refl) E2). cbn [bind map app]. unfold tokens_at, illegal_entries.
        rewrite after_after. cbn [counted]. rewrite !Nat.add_0_l. unfold after. cbn [lx_data lx_pos lx_line lx_illegal snd app].
        rewrite !Nat.add_0_r, !Nat.add_assoc. reflexivity.
      * rewrite (IH st' (after l (String.length v) st' (counted (Skipped v)) []) r ps' e' LE' eq_refl (LN _ eq_refl) E2). unfold tokens_at, illegal_entries.
        rewrite after_after. unfold after. cbn [lx_data lx_pos lx_line lx_illegal map app].
        rewrite !Nat.add_assoc. reflexivity.
      * rewrite (IH st' (after l 1 st' 0 [entry_at (lx_data l) (String c EmptyString) (mkPlace (lx_pos l) (lx_line l))]) r ps' e' LE' eq_refl (LN 1 eq_refl) E2). unfold tokens_at, illegal_entries.
        rewrite after_after. cbn [counted]. rewrite !Nat.add_0_l. unfold after. cbn [lx_data lx_pos lx_line lx_illegal map app String.length].
        rewrite !Nat.add_0_r, !Nat.add_assoc. reflexivity.
    + pose proof (lex_step_none _ _ E) as ->. injection H as <- <-. apply (EMPTY (S n) st l ST D).
Qed.

Theorem first_reading src : let '(ps, e) := lex src in
  read_tokens the_tables src new_lexer =
  Ok (map ply_token (tokens_at 0 1 ps), mkLexer src (String.length src) (state_name e) (1 + all_counted ps) (lex_report src)).
Proof.
  destruct (lex src) as [ps e] eqn:E. unfold read_tokens.
  rewrite (tokens_read (String.length src) Initial (input src new_lexer) src ps e (le_n _) eq_refl (drop_zero src) E).
  unfold after, lex_report, illegal_entries, open_entries. rewrite E. reflexivity.
Qed.

Theorem second_reading src ps : lex src = (ps, Initial) -> illegals_of ps = [] ->
  forall l, l = mkLexer src (String.length src) "INITIAL" (1 + all_counted ps) [] ->
  read_tokens the_tables src l =
  Ok (map ply_token (placed_tokens src), mkLexer src (String.length src) "INITIAL" (1 + all_counted ps + all_counted ps) []).
Proof.
  intros E N l ->. unfold read_tokens.
  rewrite (tokens_read (String.length src) Initial (input src (mkLexer src (String.length src) "INITIAL" (1 + all_counted ps) [])) src ps Initial (le_n _) eq_refl (drop_zero src) E).
  unfold after, open_entries, placed_tokens. rewrite E. cbn [input lx_pos lx_data lx_line lx_illegal lx_state app state_name].
  assert (Z : forall pos line, illegal_entries src pos line ps = []).
  { clear E. induction ps as [|p ps IH]; intros pos line; [reflexivity|]. unfold illegal_entries. cbn [placed flat_map fst].
    destruct p as [t|v|c]; [| |discriminate N]; apply (IH N). }
  rewrite Z. reflexivity.
Qed.

(** ** Where tokens stand *)

Definition stands_in (src : string) (t : ltoken) : Prop :=
  exists k, type_name k = t_type t /\ token_text k (t_value t) /\
            take (String.length (t_value t)) (drop (t_lexpos t) src) = t_value t.

Lemma tokens_stand src : forall ps pos line, drop pos src = whole_text ps -> Forall piece_ok ps ->
  Forall (stands_in src) (map ply_token (tokens_at pos line ps)).
Proof.
  induction ps as [|p ps IH]; intros pos line D F; [constructor|]. inversion F as [|? ? P F']; subst.
  rewrite whole_cons in D. unfold tokens_at. cbn [placed flat_map fst].
  assert (N : drop (pos + String.length (piece_text p)) src = whole_text ps) by (rewrite drop_plus, D; apply drop_app).
  specialize (IH _ (line + counted p) N F'). unfold tokens_at in IH. destruct p as [[k v]|v|c]; [|exact IH|exact IH].
  cbn [app map]. constructor; [|exact IH]. exists k. split; [reflexivity|]. split; [exact P|].
  cbn [ply_token fst snd t_value t_lexpos at_pos]. rewrite D. apply take_app.
Qed.

Theorem all_stand src ts l : read_tokens the_tables src new_lexer = Ok (ts, l) -> Forall (stands_in src) ts.
Proof.
  intros H. pose proof (first_reading src) as R. pose proof (lex_partition src) as [W F]. destruct (lex src) as [ps e].
  rewrite R in H. injection H as <- _. apply tokens_stand; [now rewrite drop_zero|exact F].
Qed.

Lemma reports_nothing src ps : lex src = (ps, Initial) -> illegals_of ps = [] -> lex_report src = [].
Proof.
  intros E N. unfold lex_report. rewrite E. rewrite app_nil_r. clear E. generalize 0, 1.
  induction ps as [|p ps IH]; intros pos line; [reflexivity|]. cbn [placed flat_map fst].
  destruct p as [t|v|c]; [| |discriminate N]; apply (IH N).
Qed.
