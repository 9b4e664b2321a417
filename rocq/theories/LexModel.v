(** The lexer of the AnyDice compiler: src/parser/myparser.py lines 13-134,
    driven by src/parser/ply/lex.py [Lexer.token] (lines 201-290).

    Simplification: texts are strings of 8-bit characters, read as the code
    points 0-255 of a Python [str].  (In that range [\d] is exactly 0-9.)
    Line and column numbers, used only in messages, are left out. *)
From Coq Require Import String Ascii Bool List Arith.
Import ListNotations.
Open Scope string_scope.

(** Token names, myparser.py lines 24-33; [tEnd] is the '$end' symbol that
    ply/yacc.py lines 327-333 substitutes when the lexer returns None. *)
Inductive tt : Set :=
| tPLUS | tMINUS | tTIMES | tDIVIDE | tPOWER
| tCOLON | tLESS | tGREATER | tEQUALS | tNOTEQUALS | tAT
| tHASH | tOR | tAND | tEXCLAMATION
| tDOT | tDOUBLE_DOT | tCOMMA
| tLPAREN | tRPAREN | tLBRACE | tRBRACE | tLBRACKET | tRBRACKET
| tLOWERNAME | tUPPERNAME | tNUMBER
| tD_OP
| tINSTRING_ANY | tINSTRING_VAR | tINSTRING_NONVAR
| tOUTPUT | tFUNCTION | tLOOP | tOVER | tNAMED | tSET | tTO | tIF | tELSE | tRESULT
| tEnd.

Definition tok : Set := (tt * string)%type.

(** ** Characters and regular expressions *)

Definition chr (n : nat) : ascii := ascii_of_nat n.
Definition cNL : ascii := chr 10.
Definition cTAB : ascii := chr 9.
Definition cQUOTE : ascii := chr 34.
Definition cBACK : ascii := chr 92.

Definition between (lo hi : nat) (c : ascii) : bool :=
  Nat.leb lo (nat_of_ascii c) && Nat.leb (nat_of_ascii c) hi.

Definition is_lower : ascii -> bool := between 97 122.             (* [a-z] *)
Definition is_upper_ (c : ascii) : bool :=                         (* [A-Z_] *)
  between 65 90 c || Ascii.eqb c "_".
Definition is_digit : ascii -> bool := between 48 57.              (* \d *)
Definition is_body (c : ascii) : bool :=                           (* not newline, quote, [ *)
  negb (Ascii.eqb c cNL || Ascii.eqb c cQUOTE || Ascii.eqb c "[").

(** A matcher returns the matched text and the rest, as [re.match] does at the
    current position; it never returns an empty match. *)
Definition matcher := string -> option (string * string).

Fixpoint span (p : ascii -> bool) (s : string) : string * string :=
  match s with
  | EmptyString => (EmptyString, EmptyString)
  | String c s' =>
      if p c then let '(a, b) := span p s' in (String c a, b)
      else (EmptyString, s)
  end.

(** [[...]+] for a character class. *)
Definition m_plus (p : ascii -> bool) : matcher := fun s =>
  match s with
  | String c _ => if p c then Some (span p s) else None
  | EmptyString => None
  end.

(** A literal of one or two characters. *)
Fixpoint m_lit (l : string) : matcher := fun s =>
  match l with
  | EmptyString => Some (EmptyString, s)
  | String c l' =>
      match s with
      | String d s' =>
          if Ascii.eqb c d then
            match m_lit l' s' with
            | Some (a, b) => Some (String c a, b)
            | None => None
            end
          else None
      | EmptyString => None
      end
  end.

(** Everything up to and including the next occurrence of a character. *)
Fixpoint through (c : ascii) (s : string) : option (string * string) :=
  match s with
  | EmptyString => None
  | String d s' =>
      if Ascii.eqb c d then Some (String d EmptyString, s')
      else match through c s' with
           | Some (a, b) => Some (String d a, b)
           | None => None
           end
  end.

(** [\\(.|\n)*?\\]: a backslash, then as little as possible up to another. *)
Definition m_comment : matcher := fun s =>
  match s with
  | String c s' =>
      if Ascii.eqb c cBACK then
        match through cBACK s' with
        | Some (a, b) => Some (String c a, b)
        | None => None
        end
      else None
  | EmptyString => None
  end.

(** [\[[A-Z_]+\]]. *)
Definition m_var : matcher := fun s =>
  match s with
  | String c s' =>
      if Ascii.eqb c "[" then
        match m_plus is_upper_ s' with
        | Some (a, String d r) =>
            if Ascii.eqb d "]" then Some (String c (a ++ String d EmptyString), r) else None
        | _ => None
        end
      else None
  | EmptyString => None
  end.

(** A [ and then any number of body characters (INSTRING_NONVAR). *)
Definition m_nonvar : matcher := fun s =>
  match s with
  | String c s' =>
      if Ascii.eqb c "[" then let '(a, b) := span is_body s' in Some (String c a, b) else None
  | EmptyString => None
  end.

(** ** Rules *)

Inductive lstate := Initial | Instring.

(** What a rule does with its match: return a token of a type that may depend
    on the text, or drop it, possibly changing state. *)
Inductive action :=
| Emit (f : string -> tt)
| Drop (next : option lstate).

Definition rule := (matcher * action)%type.

(** myparser.py lines 21-22. *)
Definition reserved : list (string * tt) :=
  [("output", tOUTPUT); ("function", tFUNCTION); ("loop", tLOOP); ("over", tOVER);
   ("named", tNAMED); ("set", tSET); ("to", tTO); ("if", tIF); ("else", tELSE);
   ("result", tRESULT)].

(** myparser.py t_LOWERNAME, lines 86-92. *)
Definition word_type (w : string) : tt :=
  if String.eqb w "d" then tD_OP
  else match find (fun kv => String.eqb (fst kv) w) reserved with
       | Some (_, t) => t
       | None => tLOWERNAME
       end.

Definition lit (t : tt) (s : string) : rule := (m_lit s, Emit (fun _ => t)).

(** The rules of state INITIAL in the order in which ply/lex.py tries them:
    functions by line number, then strings by decreasing length of the regular
    expression (lex.py lines 574-580); t_UPPERNAME is the longest. *)
Definition rules_initial : list rule :=
  [ (m_comment, Drop None);                                 (* t_ignore_COMMENT *)
    (m_plus is_digit, Emit (fun _ => tNUMBER));             (* t_NUMBER *)
    (m_plus is_lower, Emit word_type);                      (* t_LOWERNAME *)
    (m_lit (String cQUOTE EmptyString), Drop (Some Instring)); (* t_begin_instring *)
    (m_plus (Ascii.eqb cNL), Drop None);                    (* t_INITIAL_ignore_newline *)
    (m_plus is_upper_, Emit (fun _ => tUPPERNAME));
    lit tDOUBLE_DOT "..";
    lit tPLUS "+"; lit tTIMES "*"; lit tPOWER "^"; lit tNOTEQUALS "!="; lit tAT "@";
    lit tHASH "#"; lit tOR "|"; lit tDOT "."; lit tLPAREN "("; lit tRPAREN ")";
    lit tLBRACE "{"; lit tRBRACE "}"; lit tLBRACKET "["; lit tRBRACKET "]";
    lit tMINUS "-"; lit tDIVIDE "/"; lit tCOLON ":"; lit tLESS "<"; lit tGREATER ">";
    lit tEQUALS "="; lit tAND "&"; lit tEXCLAMATION "!"; lit tCOMMA ","].

(** State instring, lines 100-110. *)
Definition rules_instring : list rule :=
  [ (m_lit (String cQUOTE EmptyString), Drop (Some Initial)); (* t_instring_end *)
    (m_var, Emit (fun _ => tINSTRING_VAR));
    (m_nonvar, Emit (fun _ => tINSTRING_NONVAR));
    (m_plus is_body, Emit (fun _ => tINSTRING_ANY))].

Definition rules (st : lstate) : list rule :=
  match st with Initial => rules_initial | Instring => rules_instring end.

(** t_ignore, t_instring_ignore: lines 36-37. *)
Definition ignored (st : lstate) (c : ascii) : bool :=
  match st with
  | Initial => Ascii.eqb c " " || Ascii.eqb c cTAB
  | Instring => false
  end.

(** ** The scanner *)

(** What happened to a stretch of the text. *)
Inductive piece :=
| Token (t : tok)
| Skipped (s : string)
| Illegal (c : ascii).

Fixpoint first_match (rs : list rule) (s : string) : option (string * string * action) :=
  match rs with
  | [] => None
  | (m, a) :: rs' =>
      match m s with
      | Some (v, r) => Some (v, r, a)
      | None => first_match rs' s
      end
  end.

(** One turn of the loop of [Lexer.token] (lex.py lines 208-277), on a
    non-empty rest of the text.  t_ANY_error (myparser.py lines 118-121)
    records one character and skips it. *)
Definition lex_step (st : lstate) (s : string) : option (piece * lstate * string) :=
  match s with
  | EmptyString => None
  | String c s' =>
      if ignored st c then Some (Skipped (String c EmptyString), st, s')
      else match first_match (rules st) s with
           | Some (v, r, Emit f) => Some (Token (f v, v), st, r)
           | Some (v, r, Drop nx) =>
               Some (Skipped v, match nx with Some st' => st' | None => st end, r)
           | None => Some (Illegal c, st, s')
           end
  end.

Fixpoint lex_loop (fuel : nat) (st : lstate) (s : string) : list piece * lstate :=
  match fuel with
  | O => ([], st)
  | S f =>
      match lex_step st s with
      | None => ([], st)
      | Some (p, st', r) => let '(ps, e) := lex_loop f st' r in (p :: ps, e)
      end
  end.

(** Every step consumes at least one character (LexFacts.v), so the length of
    the text is enough fuel. *)
Definition lex (s : string) : list piece * lstate := lex_loop (String.length s) Initial s.

Definition tokens_of (ps : list piece) : list tok :=
  flat_map (fun p => match p with Token t => [t] | _ => [] end) ps.

Definition illegals_of (ps : list piece) : list ascii :=
  flat_map (fun p => match p with Illegal c => [c] | _ => [] end) ps.

(** [lexer.LEX_ILLEGAL_CHARS] is empty: no illegal character and, by t_ANY_eof
    (myparser.py lines 125-129), no string left open at the end. *)
Definition lex_ok (s : string) : bool :=
  let '(ps, e) := lex s in
  match illegals_of ps, e with
  | [], Initial => true
  | _, _ => false
  end.

(** parse_and_exec.py [do_lex] and the assertion of [compile_anydice]
    (lines 17-23, 80-81), and the token stream the parser then reads.
    [yaccer.parse] scans the text again; the lexer is back in its initial
    state because no string was left open. *)
Definition scan (s : string) : option (list tok) :=
  if lex_ok s then Some (tokens_of (fst (lex s))) else None.
