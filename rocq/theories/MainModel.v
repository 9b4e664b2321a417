(** Model of example_parse.py 39-74: several texts, one after another in one process.
    The simplifications are those of PipeModel.v.  [next_run]: see SessSpec.v. *)
From Coq Require Import String List ZArith Bool.
From Verif Require Import PyBase Num Val RVModel Obj ResolveModel PrintModel SettingsModel LexModel PySpec PySem ExecModel
  RunModel ReportModel PlyParseModel PipeModel SessSpec.
Import ListNotations.
Open Scope Z_scope.
Open Scope list_scope.

Section Main.
  (** see PrintModel.v *)
  Variable show : sval -> string.
  Variable ftext : bool -> num -> string.
  Variable square : num -> res num.

  (** lines 42-74 for one text in the state [w] of the process: the texts printed, the
      exception that ends it, and the state afterwards *)
  Inductive turn (fl : flags) (n : nat) (src : string) (w : world) : list string * res unit -> world -> Prop :=
  | turn_refused c : compiles_with fl src c ->
      match c with Blank | Characters _ | Tokens _ => True | _ => False end -> turn fl n src w ([], Ok Datatypes.tt) w
  | turn_raised e : compiles_with fl src (Raised e) -> turn fl n src w ([], Err e) w
  | turn_failed text q e w' : compiles_with fl src (Text text) -> py_program text q ->
      unsafe_exec library n q (next_run w) = Some (Err e, w') -> turn fl n src w ([], Err e) w'
  | turn_outputs text q w' : compiles_with fl src (Text text) -> py_program text q ->
      unsafe_exec library n q (next_run w) = Some (Ok Datatypes.tt, w') ->
      turn fl n src w (print_calls show ftext square (rw_settings w') (rw_outputs w')) w'.

  (** lines 41-74: the texts in order, up to the first that raises an exception; that is
      logged (lines 72-74) *)
  Inductive main (fl : flags) (n : nat) : list string -> world -> list string * res unit -> world -> Prop :=
  | main_end w : main fl n [] w ([], Ok Datatypes.tt) w
  | main_next src srcs w ts w1 ts' r w2 : turn fl n src w (ts, Ok Datatypes.tt) w1 -> main fl n srcs w1 (ts', r) w2 ->
      main fl n (src :: srcs) w (ts ++ ts', r) w2
  | main_stop src srcs w ts e w1 : turn fl n src w (ts, Err e) w1 -> main fl n (src :: srcs) w (ts, Err e) w1.
End Main.
