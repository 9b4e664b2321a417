(** Strings of the dice language and formatted strings of Python: a
    specification. *)
From Coq Require Import String Ascii Bool List.
From Verif Require Import LexModel LexSpec PySpec.
Import ListNotations.
Open Scope string_scope.
Open Scope list_scope.

(** What may stand between the quotes of a string of the dice language. *)
Definition between_quotes (s : string) : Prop := all_chars (fun c => c <> cNL /\ c <> cQUOTE) s.

(** No character that means something special to Python's tokenizer: a
    backslash, a carriage return, NUL. *)
Definition quiet (s : string) : Prop :=
  all_chars (fun c => c <> c_backslash /\ c <> c_return /\ c <> c_nul) s.

(** [filled v s r]: [r] is the text [s] in which each [[NAME]] is replaced by
    the value [v NAME]; everything else stays. *)
Inductive filled (v : string -> string) : string -> string -> Prop :=
| fi_end : filled v "" ""
| fi_var x s r : a_word upper_letter x -> filled v s r ->
    filled v ("[" ++ x ++ "]" ++ s) (v x ++ r)
| fi_char c s r : (forall x s', a_word upper_letter x -> String c s <> ("[" ++ x ++ "]" ++ s')%string) ->
    filled v s r -> filled v (String c s) (String c r).

(** [formatted val ps r]: the text that Python makes of a formatted string with
    the pieces [ps], if [val] gives the texts of the values of expressions. *)
Inductive formatted (val : pexpr -> string) : list piece -> string -> Prop :=
| fo_end : formatted val [] ""
| fo_char c ps r : formatted val ps r -> formatted val (Lit c :: ps) (String c r)
| fo_field f e ps r : py_expression f e -> formatted val ps r ->
    formatted val (Field f :: ps) (val e ++ r).
