(** What several texts should print in one process, in terms of the exact probabilities
    that they say (IdealSpec.v). *)
From Coq Require Import String List ZArith QArith Bool.
From Verif Require Import PyBase LexModel ParseModel SynSpec NameSpec ResolveModel PySpec PyTrans PyProgLaws RunSpec Runtime MeanSpec
  ReportModel PlyParseModel IdealSpec PipeSpec SessSpec.
Import ListNotations.
Open Scope list_scope.

(** The program [p] is written in the text, is accepted, and is one that C81 is about;
    [fl'] are the options with which it is compiled in the end. *)
Record says (fl : flags) (src : string) (p : program) (fl' : flags) : Prop := {
  sy_wf : wf p = true;
  sy_text : scan src = Some (toks p);
  sy_settled : settled fl p fl';
  sy_accepted : accepted (negb (fl_prefix fl')) p;
  sy_keeps : keeps fl' p = true;
  sy_results : results_inside p = true;
  sy_tame : tame fl' p = true }.

(** A text that is not accepted. *)
Definition refused (fl : flags) (src : string) : Prop :=
  exists c, compiles_with fl src c /\ match c with Blank | Characters _ | Tokens _ => True | _ => False end.

(** What a program means, exactly. *)
Definition meaning (fl fl' : flags) (n : nat) (p : program) (w : iworld) : option (res unit * iworld) :=
  mean_program ideal (fl_oplib fl) (negb (fl_prefix fl')) n p w.

(** The texts [srcs] have, in a process left in the state [w], the outputs [outs].  They
    leave their settings to the next, not their outputs. *)
Inductive session (fl : flags) (n : nat) : list string -> iworld -> list (ival * option ival) -> Prop :=
| session_end w : session fl n [] w []
| session_refused src srcs w outs : refused fl src -> session fl n srcs w outs -> session fl n (src :: srcs) w outs
| session_runs src srcs w p fl' w' outs : says fl src p fl' ->
    meaning fl fl' n p (ideal_next w) = Some (Ok Datatypes.tt, w') -> Forall moderate_output (iw_outputs w') ->
    session fl n srcs w' outs -> session fl n (src :: srcs) w (iw_outputs w' ++ outs).

(** A text with what it has as outputs in a new process: one that is refused, or one whose
    program sets nothing. *)
Inductive by_itself (fl : flags) (n : nat) : string -> list (ival * option ival) -> Prop :=
| itself_refused src : refused fl src -> by_itself fl n src []
| itself_runs src p fl' w : says fl src p fl' -> sets_nothing p = true ->
    meaning fl fl' n p ideal_start = Some (Ok Datatypes.tt, w) -> Forall moderate_output (iw_outputs w) ->
    by_itself fl n src (iw_outputs w).
