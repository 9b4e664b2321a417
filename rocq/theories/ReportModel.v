(** What the compiler says about a text it refuses: the places recorded by the lexer
    and the parser, and the error recovery of the parser. *)
From Coq Require Import String Ascii Bool List Arith.
From Verif Require Import PyBase LexModel LexSpec GramModel ParseModel ResolveModel.
Import ListNotations.
Open Scope list_scope.

(** ** Places *)

(** A token carries [lexpos] and [lineno] (ply/lex.py lines 222-225). *)
Record place := mkPlace { at_pos : nat; at_line : nat }.

Fixpoint newlines (s : string) : nat :=
  match s with
  | EmptyString => 0
  | String c s' => (if Ascii.eqb c cNL then 1 else 0) + newlines s'
  end.

(** myparser.py lines 112-114: t_INITIAL_ignore_newline alone counts lines.  The
    other dropped stretches are blanks, quotes and comments; a comment begins with a
    backslash and its newlines are not counted (lines 74-77). *)
Definition counted (p : piece) : nat :=
  match p with
  | Skipped (String c s) => if Ascii.eqb c cNL then newlines (String c s) else 0
  | _ => 0
  end.
Definition all_counted (ps : list piece) : nat := list_sum (map counted ps).

(** The loop of [Lexer.token] (ply/lex.py lines 202-304) moves [lexpos] over each
    stretch; [lineno] changes after the stretch that changes it. *)
Fixpoint placed (pos line : nat) (ps : list piece) : list (piece * place) :=
  match ps with
  | [] => []
  | p :: ps' =>
      (p, mkPlace pos line) :: placed (pos + String.length (piece_text p)) (line + counted p) ps'
  end.

(** [str.rfind] of a newline before position [n]. *)
Fixpoint rfind_newline (s : string) (n : nat) : option nat :=
  match n, s with
  | S n', String c s' =>
      match rfind_newline s' n' with
      | Some i => Some (S i)
      | None => if Ascii.eqb c cNL then Some 0 else None
      end
  | _, _ => None
  end.

(** [find_column], myparser.py lines 132-134 ([rfind] gives -1 for nothing). *)
Definition find_column (inp : string) (lexpos : nat) : nat :=
  let line_start := match rfind_newline inp lexpos with Some i => S i | None => 0 end in
  (lexpos - line_start) + 1.

(** The tuples of LEX_ILLEGAL_CHARS and YACC_ILLEGALs: value, position, line, column. *)
Record entry := mkEntry { e_value : string; e_pos : nat; e_line : nat; e_col : nat }.
Definition entry_at (src v : string) (p : place) : entry :=
  mkEntry v (at_pos p) (at_line p) (find_column src (at_pos p)).

(** LEX_ILLEGAL_CHARS after [do_lex] (parse_and_exec.py lines 17-19): t_ANY_error
    (myparser.py lines 118-121) and, at the end of the text, t_ANY_eof (lines 125-129). *)
Definition lex_report (src : string) : list entry :=
  let '(ps, e) := lex src in
  flat_map (fun pp => match fst pp with
                      | Illegal c => [entry_at src (String c EmptyString) (snd pp)]
                      | _ => []
                      end) (placed 0 1 ps)
  ++ match e with
     | Instring => [entry_at src "Non-closed string" (mkPlace (String.length src) (1 + all_counted ps))]
     | Initial => []
     end.

(** The tokens the parser reads.  [Lexer.input] (ply/lex.py lines 152-155) sets the
    position back but not the line, which has gone over the text once already. *)
Definition placed_tokens (src : string) : list (tok * place) :=
  let '(ps, _) := lex src in
  flat_map (fun pp => match fst pp with Token t => [(t, snd pp)] | _ => [] end)
    (placed 0 (1 + all_counted ps) ps).

(** ** The parser with its error recovery *)

Record ystate := mkY { y_stack : stack; y_rest : list (tok * place); y_count : nat; y_errs : list (tok * place) }.

Inductive youtcome :=
| YGo (s : ystate)
| YReturn (v : sval) (errs : list (tok * place))
| YRaise (e : pyerr).

(** ply/yacc.py line 79. *)
Definition error_count : nat := 3.

(** Going back to the bottom of the stack (lines 532-578): the error token takes the
    place of the lookahead and states are popped until one is left.  The grammar does
    not mention the error token, so that only a state that reduces without looking
    ahead could stop it; the model gives up there (it never happens, ReportFacts.v). *)
Definition unwinds (s : stack) : bool :=
  match s with
  | [] => true
  | _ :: below => forallb (fun q => match default_red (act_row q) with None => true | Some _ => false end)
                          (map fst below ++ [0])
  end.

(** One turn of the loop (ply/yacc.py lines 319-578).  [p_error] (myparser.py lines
    617-622) records the token; at the end of the text it only logs and the parser
    returns None.  A token is reported only if [errorcount] is 0 ([self.errorok] is true
    only until the first error, when it is 0); it is 3 after each error and goes down
    with each shift.  The offending token is dropped and parsing starts again with an
    empty stack. *)
Definition ystep (y : ystate) : youtcome :=
  let '(mkY s ts cnt errs) := y in
  match action_at (top_state s) (la (map fst ts)) with
  | Some (Shift j) =>
      match ts with
      | ((_, v), _) :: ts' => YGo (mkY ((j, VStr v) :: s) ts' (cnt - 1) errs)
      | [] => YRaise Unmodelled
      end
  | Some (Reduce p) =>
      let pr := nprod p in
      let n := List.length (p_rhs pr) in
      match semact (p_fun pr) (rev (map snd (firstn n s))) with
      | Err e => YRaise e
      | Ok v =>
          match assoc_nt (p_lhs pr) (goto_row (top_state (skipn n s))) with
          | Some j => YGo (mkY ((j, v) :: skipn n s) ts cnt errs)
          | None => YRaise KeyErr
          end
      end
  | Some Accept => YReturn (match s with (_, v) :: _ => v | [] => VNone end) errs
  | None =>
      match ts with
      | [] => YReturn VNone errs
      | t :: ts' =>
          let errs' := if Nat.eqb cnt 0 then errs ++ [t] else errs in
          if unwinds s then YGo (mkY [] ts' error_count errs') else YRaise Unmodelled
      end
  end.

Fixpoint yrun (fuel : nat) (y : ystate) : youtcome :=
  match fuel with
  | O => YRaise Unmodelled
  | S f => match ystep y with YGo y' => yrun f y' | r => r end
  end.

(** [do_yacc], parse_and_exec.py lines 26-31.  The parser always stops within this many
    turns (ReportFacts.v). *)
Definition yacc (ts : list (tok * place)) : youtcome :=
  yrun (20 * S (List.length ts)) (mkY [] ts 0 []).

(** ** The compiler with its reports *)

Inductive compiled :=
| Text (s : string)             (** the generated program *)
| Blank                         (** nothing to compile: 'Empty input' *)
| Characters (l : list entry)   (** 'Lex Illegal characters found: ' *)
| Tokens (l : list entry)       (** 'Yacc Illegal tokens found: ' *)
| Raised (e : pyerr).             (** another exception *)

Definition token_entry (src : string) (t : tok * place) : entry := entry_at src (snd (fst t)) (snd t).

(** [compile_anydice], parse_and_exec.py lines 77-85, with the lists that the messages
    of its assertions show. *)
Definition compile_report (fl : flags) (src : string) : compiled :=
  if is_blank src then Blank
  else match lex_report src with
       | e :: l => Characters (e :: l)
       | [] =>
           match yacc (placed_tokens src) with
           | YRaise e => Raised e
           | YGo _ => Raised Unmodelled
           | YReturn v errs =>
               match errs, v with
               | [], VNode n => match resolve fl n with Ok t => Text t | Err e => Raised e end
               | _, _ => Tokens (map (token_entry src) errs)
               end
           end
       end.
