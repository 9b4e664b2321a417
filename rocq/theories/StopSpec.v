(** Programs that must stop: their functions do not change how deep calls may go. *)
From Coq Require Import String Bool List Arith.
From Verif Require Import PyBase LexModel ParseModel SynSpec RunSpec.
Import ListNotations.
Open Scope string_scope.
Open Scope list_scope.

(** The text of a string without variables. *)
Fixpoint literal (ps : list part) : option string :=
  match ps with
  | [] => Some ""
  | (PAny s | PNonvar s) :: ps' => option_map (String.append s) (literal ps')
  | PVar _ :: _ => None
  end.

(** The name of this setting. *)
Definition depth_setting : string := "maximum function depth".

(** A statement that sets it, or may: the name of the setting has variables in it. *)
Fixpoint sets_depth (s : stmt) : bool :=
  match s with
  | SSet p ps _ => match literal (p :: ps) with Some t => String.eqb t depth_setting | None => true end
  | SFunction _ _ body | SLoop _ _ body => existsb sets_depth body
  | SIf b bs els =>
      sets_depth_b b || existsb sets_depth_b bs
      || match els with None => false | Some body => existsb sets_depth body end
  | SOutput _ | SNamed _ _ _ | SResult _ | SAssign _ _ => false
  end
with sets_depth_b (b : branch) : bool := match b with Branch _ body => existsb sets_depth body end.

(** No function of the program does. *)
Definition steady (p : program) : bool :=
  forallb (fun f => negb (existsb sets_depth (snd f))) (flat_map functions_s p).
