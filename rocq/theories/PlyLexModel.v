(** The lexer as ply/lex.py builds it from the definitions in myparser.py and runs it:
    the rules are found by their names, sorted, joined to one pattern per state, and
    matched by Python's regular expressions (ReSem.v).

    Simplifications: names, patterns and first lines of the definitions are listed here
    in the order of the file (the dictionary of a module keeps that order); the checks of
    [validate_all] (ply/lex.py lines 431-435) are those that these definitions could
    fail: each pattern can be compiled and does not match the empty text, string rules
    belong to tokens, no state is without rules.  Messages are left out.  The local
    variable [lexpos] of [Lexer.token] is identified with the attribute. *)
From Coq Require Import String Ascii Bool List Arith.
From Verif Require Import PyBase LexModel ReSem ReportModel.
Import ListNotations.
Open Scope string_scope.

(** ** The running lexer *)

(** ply/lex.py lines 57-59, attributes set in lines 222-225 *)
Record ltoken := mkTok { t_type : string; t_value : string; t_lineno : nat; t_lexpos : nat }.

(** ply/lex.py lines 94-120: the attributes that change.  The tables of the current state
    are found by its name.  [lx_illegal] is LEX_ILLEGAL_CHARS (parse_and_exec.py line 12). *)
Record lexer := mkLexer { lx_data : string; lx_pos : nat; lx_state : string; lx_line : nat; lx_illegal : list entry }.

(** What a function of myparser.py does with a token and its lexer: the token it returns, if
    any, and the lexer; [known] are the states that [begin] knows. *)
Definition lexfun := list string -> ltoken -> lexer -> res (option ltoken * lexer).

(** [Lexer.begin], ply/lex.py lines 160-168 *)
Definition begin_state (known : list string) (st : string) (l : lexer) : res lexer :=
  if existsb (String.eqb st) known then Ok (mkLexer (lx_data l) (lx_pos l) st (lx_line l) (lx_illegal l)) else Err ValueErr.

(** [Lexer.skip], ply/lex.py lines 192-193 *)
Definition skip (n : nat) (l : lexer) : lexer :=
  mkLexer (lx_data l) (lx_pos l + n) (lx_state l) (lx_line l) (lx_illegal l).

(** myparser.py lines 74-77 *)
Definition f_ignore_COMMENT : lexfun := fun _ _ l => Ok (None, l).
(** myparser.py lines 80-83 *)
Definition f_NUMBER : lexfun := fun _ t l => Ok (Some t, l).
(** myparser.py lines 21-22 *)
Definition reserved_words : list string :=
  ["output"; "function"; "loop"; "over"; "named"; "set"; "to"; "if"; "else"; "result"].
(** [str.upper], on the reserved words *)
Definition upper_char (c : ascii) : ascii :=
  if between 97 122 c then ascii_of_nat (nat_of_ascii c - 32) else c.
Fixpoint upper (s : string) : string :=
  match s with EmptyString => EmptyString | String c s' => String (upper_char c) (upper s') end.
(** myparser.py lines 86-92 *)
Definition f_LOWERNAME : lexfun := fun _ t l =>
  let ty := if String.eqb (t_value t) "d" then "D_OP"
            else if existsb (String.eqb (t_value t)) reserved_words then upper (t_value t) else "LOWERNAME" in
  Ok (Some (mkTok ty (t_value t) (t_lineno t) (t_lexpos t)), l).
(** myparser.py lines 95-97 *)
Definition f_begin_instring : lexfun := fun known _ l => l' <- begin_state known "instring" l ;; Ok (None, l').
(** myparser.py lines 106-108 *)
Definition f_instring_end : lexfun := fun known _ l => l' <- begin_state known "INITIAL" l ;; Ok (None, l').
(** myparser.py lines 112-114 *)
Definition f_ignore_newline : lexfun := fun _ t l =>
  Ok (None, mkLexer (lx_data l) (lx_pos l) (lx_state l) (lx_line l + newlines (t_value t)) (lx_illegal l)).

Definition record_entry (v : string) (t : ltoken) (l : lexer) : lexer :=
  mkLexer (lx_data l) (lx_pos l) (lx_state l) (lx_line l)
    (lx_illegal l ++ [mkEntry v (t_lexpos t) (lx_line l) (find_column (lx_data l) (t_lexpos t))])%list.
(** myparser.py lines 118-121 *)
Definition f_error : lexfun := fun _ t l =>
  match t_value t with
  | String c _ => Ok (None, skip 1 (record_entry (String c EmptyString) t l))
  | EmptyString => Err IndexErr
  end.
(** myparser.py lines 125-129 *)
Definition f_eof : lexfun := fun _ t l =>
  Ok (None, if String.eqb (lx_state l) "instring" then record_entry "Non-closed string" t l else l).

(** ** The definitions of the module *)

Inductive def :=
| DString (s : string)
| DFunction (line : nat) (doc : string) (f : lexfun).

(** The text of a pattern uses a doubled quotation mark for one. *)
Definition strbody : string := "[^\n""[]".   (* myparser.py line 101 *)

(** myparser.py lines 36-129: all names that begin with t_, in order *)
Definition module_dict : list (string * def) :=
  [("t_ignore", DString (String " " (String cTAB EmptyString)));
   ("t_instring_ignore", DString "");
   ("t_PLUS", DString "\+"); ("t_MINUS", DString "-"); ("t_TIMES", DString "\*"); ("t_DIVIDE", DString "/");
   ("t_POWER", DString "\^"); ("t_COLON", DString ":"); ("t_LESS", DString "<"); ("t_GREATER", DString ">");
   ("t_EQUALS", DString "="); ("t_NOTEQUALS", DString "!="); ("t_AT", DString "\@"); ("t_HASH", DString "\#");
   ("t_OR", DString "\|"); ("t_AND", DString "&"); ("t_EXCLAMATION", DString "!"); ("t_DOUBLE_DOT", DString "\.\.");
   ("t_DOT", DString "\."); ("t_COMMA", DString ","); ("t_LPAREN", DString "\("); ("t_RPAREN", DString "\)");
   ("t_LBRACE", DString "\{"); ("t_RBRACE", DString "\}"); ("t_LBRACKET", DString "\["); ("t_RBRACKET", DString "\]");
   ("t_UPPERNAME", DString "[A-Z_][A-Z_]*");
   ("t_ignore_COMMENT", DFunction 74 "\\(.|\n)*?\\" f_ignore_COMMENT);
   ("t_NUMBER", DFunction 80 "\d+" f_NUMBER);
   ("t_LOWERNAME", DFunction 86 "[a-z][a-z]*" f_LOWERNAME);
   ("t_begin_instring", DFunction 95 """" f_begin_instring);
   ("t_instring_INSTRING_VAR", DString "\[[A-Z_]+\]");
   ("t_instring_INSTRING_NONVAR", DString ("\[" ++ strbody ++ "*"));
   ("t_instring_INSTRING_ANY", DString (strbody ++ "+"));
   ("t_instring_end", DFunction 106 """" f_instring_end);
   ("t_INITIAL_ignore_newline", DFunction 112 "\n+" f_ignore_newline);
   ("t_ANY_error", DFunction 118 "" f_error);
   ("t_ANY_eof", DFunction 125 "" f_eof)].

(** myparser.py lines 24-33 *)
Definition token_names : list string :=
  ["PLUS"; "MINUS"; "TIMES"; "DIVIDE"; "POWER"; "COLON"; "LESS"; "GREATER"; "EQUALS"; "NOTEQUALS"; "AT";
   "HASH"; "OR"; "AND"; "EXCLAMATION"; "DOT"; "DOUBLE_DOT"; "COMMA";
   "LPAREN"; "RPAREN"; "LBRACE"; "RBRACE"; "LBRACKET"; "RBRACKET"; "LOWERNAME"; "UPPERNAME"; "NUMBER"; "D_OP";
   "INSTRING_ANY"; "INSTRING_VAR"; "INSTRING_NONVAR"] ++ map upper reserved_words.

(** ply/lex.py lines 418 and 486-512 with myparser.py lines 16-18: the states; true if inclusive *)
Definition stateinfo : list (string * bool) := [("INITIAL", true); ("instring", false)].
Definition states : list string := map fst stateinfo.

(** ** Collecting the rules *)

(** [str.split('_')] *)
Fixpoint split_ (s : string) : list string :=
  match s with
  | EmptyString => [""]
  | String c s' =>
      match split_ s' with
      | p :: ps => if Ascii.eqb c "_" then "" :: p :: ps else String c p :: ps
      | [] => []
      end
  end.

(** The loop of [_statetoken] over the parts after the first, numbered from [i]: where it
    stops, or the last number if it does not. *)
Fixpoint state_parts (names : list string) (i : nat) (parts : list string) : nat :=
  match parts with
  | [] => i - 1
  | p :: ps => if existsb (String.eqb p) names || String.eqb p "ANY" then state_parts names (S i) ps else i
  end.

(** [_statetoken], ply/lex.py lines 388-403 *)
Definition statetoken (s : string) (names : list string) : list string * string :=
  let parts := split_ s in
  let i := state_parts names 1 (tl parts) in
  let sts := if Nat.ltb 1 i then firstn (i - 1) (skipn 1 parts) else ["INITIAL"] in
  let sts := if existsb (String.eqb "ANY") sts then names else sts in
  (sts, String.concat "_" (skipn i parts)).

(** [list.sort] with a key: stable; [before a b] if [b] may not come before [a] *)
Fixpoint insert_by {A} (before : A -> A -> bool) (a : A) (l : list A) : list A :=
  match l with
  | [] => [a]
  | b :: l' => if before a b then a :: l else b :: insert_by before a l'
  end.
Definition sort_by {A} (before : A -> A -> bool) (l : list A) : list A := fold_right (insert_by before) [] l.

Definition in_state (st : string) (name : string) : bool := existsb (String.eqb st) (fst (statetoken name states)).
Definition tokname (name : string) : string := snd (statetoken name states).

(** [get_rules], ply/lex.py lines 517-572, for one state: the functions that are rules *)
Definition funcsym (d : list (string * def)) (st : string) : list (string * (nat * string * lexfun)) :=
  flat_map (fun nd => match snd nd with
                      | DFunction line doc f =>
                          if in_state st (fst nd) && negb (String.eqb (tokname (fst nd)) "error" || String.eqb (tokname (fst nd)) "eof")
                          then [(fst nd, (line, doc, f))] else []
                      | DString _ => []
                      end) d.
(** the strings that are rules *)
Definition strsym (d : list (string * def)) (st : string) : list (string * string) :=
  flat_map (fun nd => match snd nd with
                      | DString s => if in_state st (fst nd) && negb (String.eqb (tokname (fst nd)) "ignore") then [(fst nd, s)] else []
                      | DFunction _ _ _ => []
                      end) d.
(** the last definition with a given token name: [ignore], [errorf], [eoff] *)
Definition string_for (d : list (string * def)) (what st : string) : option string :=
  fold_left (fun acc nd => match snd nd with
                           | DString s => if in_state st (fst nd) && String.eqb (tokname (fst nd)) what then Some s else acc
                           | _ => acc
                           end) d None.
Definition function_for (d : list (string * def)) (what st : string) : option lexfun :=
  fold_left (fun acc nd => match snd nd with
                           | DFunction _ _ f => if in_state st (fst nd) && String.eqb (tokname (fst nd)) what then Some f else acc
                           | _ => acc
                           end) d None.

(** Sorted: functions by line, strings by decreasing length of the pattern (ply/lex.py
    lines 574-580; [sort] is stable, with [reverse] too). *)
Definition funcs_sorted d st := sort_by (fun a b => Nat.leb (fst (fst (snd a))) (fst (fst (snd b)))) (funcsym d st).
Definition strs_sorted d st := sort_by (fun a b => Nat.leb (String.length (snd b)) (String.length (snd a))) (strsym d st).

(** ** Building the tables *)

(** ply/lex.py lines 783 and 789 *)
Definition named_group (nr : string * string) : string := "(?P<" ++ fst nr ++ ">" ++ snd nr ++ ")".
(** The pieces of the master pattern of a state, ply/lex.py lines 778-793 *)
Definition regex_list d st : list string :=
  map named_group (map (fun f => (fst f, snd (fst (snd f)))) (funcs_sorted d st) ++ strs_sorted d st).

Definition lookup {A} (k : string) (l : list (string * A)) : option A :=
  match find (fun kv => String.eqb (fst kv) k) l with Some (_, a) => Some a | None => None end.

(** [str.find(sub) > 0]: it occurs, and not at the beginning *)
Fixpoint occurs (sub s : string) : bool :=
  String.prefix sub s || match s with EmptyString => false | String _ s' => occurs sub s' end.
Definition find_after_0 (sub s : string) : bool :=
  negb (String.prefix sub s) && occurs sub s.

(** An entry of [lexindexfunc]: a function, if any, and the type of the token, if any *)
Definition handle := (option lexfun * option string)%type.
(** [_form_master_re], ply/lex.py lines 350-378: the pattern and what to do for each
    number of a group.  (The patterns are compiled together; the parts of the module are
    few enough.) *)
Definition form_master d (relist : list string) : option (re * list (option handle)) :=
  match re_compile true (String.concat "|" relist) with
  | None => None
  | Some (r, groupindex) =>
      let size := S (fold_right Nat.max 0 (map snd groupindex)) in
      Some (r, map (fun i => match find (fun ni => Nat.eqb (snd ni) i) groupindex with
                             | Some (n, _) => match lookup n d with
                                              | Some (DFunction _ _ f) => Some (Some f, Some (tokname n))
                                              | Some (DString _) => Some (None, if find_after_0 "ignore_" n then None else Some (tokname n))
                                              | None => None
                                              end
                             | None => None
                             end) (seq 0 size))
  end.

(** [validate_rules], ply/lex.py lines 583-651 *)
Definition pattern_ok (nr : string * string) : bool :=
  match re_compile true (named_group nr) with
  | Some (r, _) => match re_match r "" 0 with None => true | Some _ => false end
  | None => false
  end.
Definition rules_valid d st : bool :=
  forallb (fun f => pattern_ok (fst f, snd (fst (snd f)))) (funcs_sorted d st)
  && forallb (fun s => pattern_ok s && existsb (String.eqb (tokname (fst s))) token_names) (strs_sorted d st)
  && negb (Nat.eqb (List.length (funcs_sorted d st) + List.length (strs_sorted d st)) 0).

Record tables := mkTables { tb_re : re; tb_index : list (option handle); tb_ignore : string; tb_error : option lexfun; tb_eof : option lexfun }.

(** [lex], ply/lex.py lines 717-853: the tables of each state, or the SyntaxError.  The code
    for further inclusive states is left out: there is none. *)
Definition build_state d (st : string) : option tables :=
  if rules_valid d st then
    match form_master d (regex_list d st) with
    | Some (r, index) =>
        Some (mkTables r index (match string_for d "ignore" st with Some s => s | None => "" end)
                (function_for d "error" st) (function_for d "eof" st))
    | None => None
    end
  else None.
Fixpoint build_states d (sts : list string) : option (list (string * tables)) :=
  match sts with
  | [] => Some []
  | st :: sts' => match build_state d st, build_states d sts' with
                  | Some t, Some l => Some ((st, t) :: l)
                  | _, _ => None
                  end
  end.
Definition build_lexer : option (list (string * tables)) := build_states module_dict states.

(** ** Running it *)

Inductive turn :=
| TGo (l : lexer)
| TToken (t : ltoken) (l : lexer)
| TEnd (l : lexer)
| TRaise (e : pyerr).

Definition ended (r : res (option ltoken * lexer)) (k : lexer -> turn) : turn :=
  match r with
  | Ok (Some t, l) => TToken t l
  | Ok (None, l) => k l
  | Err e => TRaise e
  end.

Definition string_has (c : ascii) (s : string) : bool := existsb (Ascii.eqb c) (list_ascii_of_string s).

(** One turn of the loop of [Lexer.token] (ply/lex.py lines 209-288), or the end of the text
    (lines 290-304). *)
Definition token_turn (T : list (string * tables)) (l : lexer) : turn :=
  match lookup (lx_state l) T with
  | None => TRaise KeyErr
  | Some tb =>
      match drop (lx_pos l) (lx_data l) with
      | EmptyString =>
          match tb_eof tb with
          | Some f => ended (f (map fst T) (mkTok "eof" "" (lx_line l) (lx_pos l)) l) TEnd
          | None => TEnd l
          end
      | String c rest =>
          if string_has c (tb_ignore tb) then TGo (skip 1 l)
          else match re_match (tb_re tb) (lx_data l) (lx_pos l) with
               | Some m =>
                   match m_last m with
                   | None => TRaise TypeErr
                   | Some i =>
                       match nth_error (tb_index tb) i with
                       | Some (Some (func, ty)) =>
                           let l' := mkLexer (lx_data l) (m_end m) (lx_state l) (lx_line l) (lx_illegal l) in
                           match func, ty with
                           | None, Some ty => TToken (mkTok ty (m_group m) (lx_line l) (lx_pos l)) l'
                           | None, None => TGo l'
                           | Some f, ty =>
                               ended (f (map fst T) (mkTok (match ty with Some ty => ty | None => "" end) (m_group m) (lx_line l) (lx_pos l)) l') TGo
                           end
                       | Some None => TRaise TypeErr
                       | None => TRaise IndexErr
                       end
                   end
               | None =>
                   match tb_error tb with
                   | Some f =>
                       match f (map fst T) (mkTok "error" (String c rest) (lx_line l) (lx_pos l)) l with
                       | Err e => TRaise e
                       | Ok (t, l') =>
                           if Nat.eqb (lx_pos l') (lx_pos l) then TRaise Unmodelled
                           else match t with Some t => TToken t l' | None => TGo l' end
                       end
                   | None => TRaise Unmodelled
                   end
               end
      end
  end.

(** [Lexer.token] called until it returns None ([do_lex], parse_and_exec.py lines 17-19, and the
    parser): the tokens, and the lexer afterwards.  Each turn takes from the text, so
    that [fuel] is the number of characters and one more. *)
Fixpoint all_tokens (T : list (string * tables)) (fuel : nat) (l : lexer) : res (list ltoken * lexer) :=
  match fuel with
  | O => Err Unmodelled
  | S f =>
      match token_turn T l with
      | TGo l' => all_tokens T f l'
      | TToken t l' => '(ts, l2) <- all_tokens T f l' ;; Ok (t :: ts, l2)
      | TEnd l' => Ok ([], l')
      | TRaise e => Err e
      end
  end.

(** [Lexer.input], ply/lex.py lines 152-155 *)
Definition input (s : string) (l : lexer) : lexer := mkLexer s 0 (lx_state l) (lx_line l) (lx_illegal l).
(** a new lexer: ply/lex.py lines 95-120 and parse_and_exec.py line 12 *)
Definition new_lexer : lexer := mkLexer "" 0 "INITIAL" 1 [].

(** parse_and_exec.py lines 17-19; the parser reads the text once more (ply/yacc.py
    lines 299-301) *)
Definition read_tokens (T : list (string * tables)) (src : string) (l : lexer) : res (list ltoken * lexer) :=
  all_tokens T (S (String.length src)) (input src l).
