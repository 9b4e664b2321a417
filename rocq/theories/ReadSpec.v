(** How far a token reaches, and what may stand between tokens: a specification of
    the lexer, written from the description of the language. *)
From Coq Require Import String Ascii Bool List.
From Verif Require Import LexModel LexSpec.
Import ListNotations.
Open Scope string_scope.

(** Outside of strings. *)
Definition outside (t : tt) : bool :=
  match t with tINSTRING_ANY | tINSTRING_VAR | tINSTRING_NONVAR => false | _ => true end.

(** A character that, right behind a token of this kind, would belong to it. *)
Definition longer (t : tt) (c : ascii) : Prop :=
  match t with
  | tNUMBER => digit c
  | tUPPERNAME => upper_letter c
  | tLOWERNAME | tD_OP | tOUTPUT | tFUNCTION | tLOOP | tOVER | tNAMED | tSET | tTO | tIF
  | tELSE | tRESULT => lower_letter c
  | tDOT => c = "."%char
  | tEXCLAMATION => c = "="%char
  | tINSTRING_ANY | tINSTRING_NONVAR => string_char c
  | _ => False
  end.

(** Nothing of the text behind belongs to the token. *)
Definition ends_there (t : tt) (r : string) : Prop := forall c x, r = String c x -> ~ longer t c.

(** Blanks and comments. *)
Inductive layout : string -> Prop :=
| l_space : layout " "
| l_tab : layout (String cTAB "")
| l_newline : layout (String cNL "")
| l_comment s : all_chars (fun c => c <> cBACK) s -> layout (String cBACK (s ++ String cBACK ""))
| l_more a b : layout a -> layout b -> layout (a ++ b).

(** A token that can be written: its text is one of its kind, and a piece of a string
    with an opening bracket is not a variable in brackets. *)
Definition writable (t : tok) : Prop :=
  token_text (fst t) (snd t) /\
  (fst t = tINSTRING_NONVAR -> forall v x, a_word upper_letter v -> snd t <> "[" ++ v ++ "]" ++ x).

(** A way to write a token, and tokens one after the other. *)
Definition quoted (s : string) : string := String cQUOTE (s ++ String cQUOTE "").
Definition write (t : tok) : string := if outside (fst t) then snd t else quoted (snd t).
Fixpoint written (ts : list tok) : string :=
  match ts with [] => "" | t :: r => write t ++ " " ++ written r end.
