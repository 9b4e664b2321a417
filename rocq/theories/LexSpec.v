(** What the pieces of a program text should look like: a specification of the
    lexer, written from the description of the language. *)
From Coq Require Import String Ascii Bool List.
From Verif Require Import LexModel.
Import ListNotations.
Open Scope string_scope.

Definition chars (s : string) : list ascii := list_ascii_of_string s.

Definition all_chars (p : ascii -> Prop) (s : string) : Prop := Forall p (chars s).

Definition lower_letter (c : ascii) : Prop := In c (chars "abcdefghijklmnopqrstuvwxyz").
Definition upper_letter (c : ascii) : Prop := In c (chars "_ABCDEFGHIJKLMNOPQRSTUVWXYZ").
Definition digit (c : ascii) : Prop := In c (chars "0123456789").
Definition string_char (c : ascii) : Prop := c <> cNL /\ c <> cQUOTE /\ c <> "["%char.

Definition a_word (p : ascii -> Prop) (s : string) : Prop := s <> "" /\ all_chars p s.

(** The ten reserved words. *)
Inductive keyword : string -> tt -> Prop :=
| k_output : keyword "output" tOUTPUT
| k_function : keyword "function" tFUNCTION
| k_loop : keyword "loop" tLOOP
| k_over : keyword "over" tOVER
| k_named : keyword "named" tNAMED
| k_set : keyword "set" tSET
| k_to : keyword "to" tTO
| k_if : keyword "if" tIF
| k_else : keyword "else" tELSE
| k_result : keyword "result" tRESULT.

(** The text of each kind of token. *)
Inductive token_text : tt -> string -> Prop :=
| x_plus : token_text tPLUS "+"
| x_minus : token_text tMINUS "-"
| x_times : token_text tTIMES "*"
| x_divide : token_text tDIVIDE "/"
| x_power : token_text tPOWER "^"
| x_colon : token_text tCOLON ":"
| x_less : token_text tLESS "<"
| x_greater : token_text tGREATER ">"
| x_equals : token_text tEQUALS "="
| x_notequals : token_text tNOTEQUALS "!="
| x_at : token_text tAT "@"
| x_hash : token_text tHASH "#"
| x_or : token_text tOR "|"
| x_and : token_text tAND "&"
| x_exclamation : token_text tEXCLAMATION "!"
| x_dot : token_text tDOT "."
| x_dots : token_text tDOUBLE_DOT ".."
| x_comma : token_text tCOMMA ","
| x_lparen : token_text tLPAREN "("
| x_rparen : token_text tRPAREN ")"
| x_lbrace : token_text tLBRACE "{"
| x_rbrace : token_text tRBRACE "}"
| x_lbracket : token_text tLBRACKET "["
| x_rbracket : token_text tRBRACKET "]"
| x_number s : a_word digit s -> token_text tNUMBER s
| x_upper s : a_word upper_letter s -> token_text tUPPERNAME s
| x_d : token_text tD_OP "d"
| x_keyword s t : keyword s t -> token_text t s
| x_lower s : a_word lower_letter s -> s <> "d" -> (forall t, ~ keyword s t) ->
    token_text tLOWERNAME s
| x_any s : a_word string_char s -> token_text tINSTRING_ANY s
| x_var v : a_word upper_letter v -> token_text tINSTRING_VAR ("[" ++ v ++ "]")
| x_nonvar s : all_chars string_char s -> token_text tINSTRING_NONVAR ("[" ++ s).

(** What may be dropped without notice. *)
Inductive ignorable : string -> Prop :=
| i_space : ignorable " "
| i_tab : ignorable (String cTAB "")
| i_newlines s : a_word (fun c => c = cNL) s -> ignorable s
| i_comment s : all_chars (fun c => c <> cBACK) s ->
    ignorable (String cBACK (s ++ String cBACK ""))
| i_quote : ignorable (String cQUOTE "").

(** A character that no token, blank or string can start with.  A newline can
    also be illegal (inside a string), and so can the backslash of a comment
    that is never closed. *)
Definition alien (c : ascii) : Prop :=
  ~ lower_letter c /\ ~ upper_letter c /\ ~ digit c /\
  ~ In c (chars " +-*/^:<>=@#|&!.,(){}[]") /\ c <> cTAB /\ c <> cQUOTE /\ c <> cNL.

Definition piece_ok (p : piece) : Prop :=
  match p with
  | Token (t, s) => token_text t s
  | Skipped s => ignorable s
  | Illegal c => alien c \/ c = cNL \/ c = cBACK
  end.

Definition piece_text (p : piece) : string :=
  match p with
  | Token (_, s) => s
  | Skipped s => s
  | Illegal c => String c ""
  end.

Definition whole_text (ps : list piece) : string := String.concat "" (map piece_text ps).
