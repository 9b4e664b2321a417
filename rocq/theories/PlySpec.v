(** How the tokens of the dice language are named by the code, and what a lexer hands out. *)
From Coq Require Import String List Arith.
From Verif Require Import LexModel ReportModel PlyLexModel.
Import ListNotations.
Open Scope string_scope.

(** the names in myparser.py lines 21-33 *)
Definition type_name (t : tt) : string :=
  match t with
  | tPLUS => "PLUS" | tMINUS => "MINUS" | tTIMES => "TIMES" | tDIVIDE => "DIVIDE" | tPOWER => "POWER"
  | tCOLON => "COLON" | tLESS => "LESS" | tGREATER => "GREATER" | tEQUALS => "EQUALS" | tNOTEQUALS => "NOTEQUALS"
  | tAT => "AT" | tHASH => "HASH" | tOR => "OR" | tAND => "AND" | tEXCLAMATION => "EXCLAMATION"
  | tDOT => "DOT" | tDOUBLE_DOT => "DOUBLE_DOT" | tCOMMA => "COMMA"
  | tLPAREN => "LPAREN" | tRPAREN => "RPAREN" | tLBRACE => "LBRACE" | tRBRACE => "RBRACE"
  | tLBRACKET => "LBRACKET" | tRBRACKET => "RBRACKET"
  | tLOWERNAME => "LOWERNAME" | tUPPERNAME => "UPPERNAME" | tNUMBER => "NUMBER" | tD_OP => "D_OP"
  | tINSTRING_ANY => "INSTRING_ANY" | tINSTRING_VAR => "INSTRING_VAR" | tINSTRING_NONVAR => "INSTRING_NONVAR"
  | tOUTPUT => "OUTPUT" | tFUNCTION => "FUNCTION" | tLOOP => "LOOP" | tOVER => "OVER" | tNAMED => "NAMED"
  | tSET => "SET" | tTO => "TO" | tIF => "IF" | tELSE => "ELSE" | tRESULT => "RESULT"
  | tEnd => "$end"
  end.

Definition state_name (st : lstate) : string :=
  match st with Initial => "INITIAL" | Instring => "instring" end.

(** a token with its place *)
Definition ply_token (tp : tok * place) : ltoken :=
  mkTok (type_name (fst (fst tp))) (snd (fst tp)) (at_line (snd tp)) (at_pos (snd tp)).

(** the tokens among the pieces of a text, with their places *)
Definition tokens_at (pos line : nat) (ps : list piece) : list (tok * place) :=
  flat_map (fun pp => match fst pp with Token t => [(t, snd pp)] | _ => [] end) (placed pos line ps).
