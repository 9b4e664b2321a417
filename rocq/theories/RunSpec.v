(** When the generated Python means what the dice program means: conditions on
    programs, on the abstract syntax of SynSpec.v. *)
From Coq Require Import String Bool List Arith.
From Verif Require Import PyBase LexModel ParseModel SynSpec NameSpec ResolveModel PyTrans PySem.
Import ListNotations.
Open Scope string_scope.
Open Scope list_scope.

(** ** The variables of a program *)

Definition part_vars (p : part) : list string := match p with PVar v => [v] | _ => [] end.

(** All variables of an expression, those in strings too. *)
Fixpoint vars_e (e : expr) : list string :=
  match e with
  | EBin _ l r => vars_e l ++ vars_e r
  | EDice n d => vars_t n ++ vars_t d
  | EDie d => vars_t d
  | ETerm t => vars_t t
  end
with vars_t (t : term) : list string :=
  match t with
  | TNum _ | TDec _ _ => []
  | TVar x => [x]
  | TStr p ps => flat_map part_vars (p :: ps)
  | TSeq es => flat_map vars_l es
  | TGroup e => vars_e e
  | TCall cs => flat_map vars_c cs
  | TUn _ t | THash t => vars_t t
  end
with vars_l (x : element) : list string :=
  match x with LOne e => vars_e e | LRange a b => vars_e a ++ vars_e b end
with vars_c (c : citem) : list string :=
  match c with CWord _ => [] | CArg e => vars_e e end.

Fixpoint vars_s (s : stmt) : list string :=
  match s with
  | SOutput e | SResult e => vars_e e
  | SNamed e p ps | SSet p ps e => vars_e e ++ flat_map part_vars (p :: ps)
  | SAssign x e => x :: vars_e e
  | SFunction h hs body => map fst (params (h :: hs)) ++ flat_map vars_s body
  | SLoop x e body => x :: vars_e e ++ flat_map vars_s body
  | SIf b bs els =>
      vars_b b ++ flat_map vars_b bs ++ match els with None => [] | Some body => flat_map vars_s body end
  end
with vars_b (b : branch) : list string :=
  match b with Branch c body => vars_e c ++ flat_map vars_s body end.

(** The variables that are given values, outside of functions. *)
Fixpoint given_s (s : stmt) : list string :=
  match s with
  | SAssign x _ => [x]
  | SLoop x _ body => x :: flat_map given_s body
  | SIf b bs els =>
      given_b b ++ flat_map given_b bs ++ match els with None => [] | Some body => flat_map given_s body end
  | _ => []
  end
with given_b (b : branch) : list string :=
  match b with Branch _ body => flat_map given_s body end.
Definition given (p : program) : list string := flat_map given_s p.

(** ** The functions of a program: their parameters and bodies *)

Fixpoint functions_s (s : stmt) : list (list (string * option ptype) * list stmt) :=
  match s with
  | SFunction h hs body => (params (h :: hs), body) :: flat_map functions_s body
  | SLoop _ _ body => flat_map functions_s body
  | SIf b bs els =>
      functions_b b ++ flat_map functions_b bs
      ++ match els with None => [] | Some body => flat_map functions_s body end
  | _ => []
  end
with functions_b (b : branch) : list (list (string * option ptype) * list stmt) :=
  match b with Branch _ body => flat_map functions_s body end.

(** ** The conditions *)

Definition mem (x : string) (l : list string) : bool := existsb (String.eqb x) l.

(** A parameter has no type, or one of the types n, s and d. *)
Definition known_type (p : string * option ptype) : bool :=
  match snd p with
  | None | Some PD => true
  | Some (PName s) => mem s ["n"; "s"; "d"]
  end.

(** A function defines no function, and a variable that it gives a value is a
    parameter, or is given no value outside of functions. *)
Definition self_contained (outside : list string) (f : list (string * option ptype) * list stmt) : bool :=
  forallb known_type (fst f)
  && match flat_map functions_s (snd f) with [] => true | _ => false end
  && forallb (fun x => mem x (map fst (fst f)) || negb (mem x outside)) (flat_map given_s (snd f)).

(** Names that generated programs rely on, and that a function may take without the
    compiler noticing; and builtins of Python. *)
Definition relied_names : list string :=
  ["get_seq"; "math"; "itertools"; "random"; "functools"] ++ builtin_names.
(** The name of a function is none of these, and not that of a variable. *)
Definition free_name (fl : flags) (s : shape) : bool :=
  negb (mem (fun_name fl s) relied_names)
  && (fl_prefix fl || existsb (fun x => match x with Some _ => true | None => false end) s).

(** Variables with the names of Python objects that generated programs find. *)
Definition taken_variables : list string := ["RV"; "T_N"; "T_S"; "T_D"].

Definition tame (fl : flags) (p : program) : bool :=
  negb (fl_vars fl)
  && forallb (self_contained (given p)) (flat_map functions_s p)
  && forallb (free_name fl) (defs p)
  && forallb (fun x => negb (mem x taken_variables)) (flat_map vars_s p).
