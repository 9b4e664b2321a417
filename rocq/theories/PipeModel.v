(** Model of example_parse.py: from the text of a program to what is printed.

    Simplifications: the generated program is executed by [unsafe_exec] in place of
    [safe_exec], in a fresh process; the log is left out; a generated text that is no
    Python program (C80) has no result here. *)
From Coq Require Import String List ZArith Bool.
From Verif Require Import PyBase Num Val RVModel Obj ResolveModel PrintModel SettingsModel LexModel PySpec PySem ExecModel
  RunModel ReportModel PlyParseModel.
Import ListNotations.
Open Scope Z_scope.
Open Scope list_scope.

Section Printed.
  (** the text of labels and of floats, and [x ** 2] on floats: see PrintModel.v *)
  Variable show : sval -> string.
  Variable ftext : bool -> num -> string.
  Variable square : num -> res num.

  (** example_parse.py 69-70, one call of [output], which prints its text.  A name that is
      no text is [Unmodelled]: a program can only give texts. *)
  Definition print_call (s : settings) (call : obj * option obj) : res string :=
    match cfg_of s with
    | None => Err Unmodelled
    | Some c =>
        match snd call with
        | None => report c show ftext square (cfg_width c) (fst call) None true (Some 50) (NI 0)
        | Some (OStr t) => report c show ftext square (cfg_width c) (fst call) (Some t) true (Some 50) (NI 0)
        | Some _ => Err Unmodelled
        end
    end.
  (** lines 69-70: what is printed until a call fails *)
  Fixpoint print_calls (s : settings) (calls : list (obj * option obj)) : list string * res unit :=
    match calls with
    | [] => ([], Ok Datatypes.tt)
    | call :: calls' =>
        match print_call s call with
        | Ok t => let (ts, r) := print_calls s calls' in (t :: ts, r)
        | Err e => ([], Err e)
        end
    end.

  (** lines 42-74 for one text: the texts printed, and the exception that ends it.  [n]
      bounds the depth of calls. *)
  Inductive prints (fl : flags) (n : nat) (src : string) : list string * res unit -> Prop :=
  | prints_refused c : compiles_with fl src c ->                   (* lines 44-46, 49-51, 53-59, 60-62 *)
      match c with Blank | Characters _ | Tokens _ => True | _ => False end -> prints fl n src ([], Ok Datatypes.tt)
  | prints_raised e : compiles_with fl src (Raised e) -> prints fl n src ([], Err e)
  | prints_failed text q e w : compiles_with fl src (Text text) -> py_program text q ->
      unsafe_exec library n q fresh_world = Some (Err e, w) -> prints fl n src ([], Err e)
  | prints_outputs text q w : compiles_with fl src (Text text) -> py_program text q ->
      unsafe_exec library n q fresh_world = Some (Ok Datatypes.tt, w) ->
      prints fl n src (print_calls (rw_settings w) (rw_outputs w)).
End Printed.
