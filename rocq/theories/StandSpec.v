(** A variable that has one value throughout a program, and its value in its place. *)
From Coq Require Import String List Bool.
From Verif Require Import PyBase LexModel ParseModel SynSpec NameSpec.
Import ListNotations.
Open Scope list_scope.

(** Numbers, and sequences and ranges of such. *)
Fixpoint constant_e (e : expr) : bool := match e with ETerm t => constant_t t | _ => false end
with constant_t (t : term) : bool :=
  match t with
  | TNum _ | TDec _ _ => true
  | TSeq es => forallb constant_l es
  | TGroup e => constant_e e
  | _ => false
  end
with constant_l (x : element) : bool :=
  match x with LOne e => constant_e e | LRange a b => constant_e a && constant_e b end.
Definition is_numeral (t : term) : bool := match t with TNum _ | TDec _ _ => true | _ => false end.

Section stand.
  Variable x : string.

  (** No statement gives [x] a value, and no function has a parameter [x]. *)
  Fixpoint fixed_s (s : stmt) : bool :=
    match s with
    | SAssign y _ => negb (String.eqb x y)
    | SLoop y _ body => negb (String.eqb x y) && forallb fixed_s body
    | SFunction h hs body => negb (existsb (String.eqb x) (map fst (params (h :: hs)))) && forallb fixed_s body
    | SIf b bs els => fixed_b b && forallb fixed_b bs && match els with Some body => forallb fixed_s body | None => true end
    | _ => true
    end
  with fixed_b (b : branch) : bool := match b with Branch _ body => forallb fixed_s body end.

  (** The program with [t] where [x] is read, except inside strings. *)
  Variable t : term.
  Fixpoint use_e (e : expr) : expr :=
    match e with
    | EBin o l r => EBin o (use_e l) (use_e r)
    | EDice n d => EDice (use_t n) (use_t d)
    | EDie d => EDie (use_t d)
    | ETerm u => ETerm (use_t u)
    end
  with use_t (u : term) : term :=
    match u with
    | TNum _ | TDec _ _ | TStr _ _ => u
    | TVar y => if String.eqb x y then t else u
    | TSeq es => TSeq (map use_l es)
    | TGroup e => TGroup (use_e e)
    | TCall cs => TCall (map use_c cs)
    | TUn o u => TUn o (use_t u)
    | THash u => THash (use_t u)
    end
  with use_l (l : element) : element :=
    match l with LOne e => LOne (use_e e) | LRange a b => LRange (use_e a) (use_e b) end
  with use_c (c : citem) : citem := match c with CWord _ => c | CArg e => CArg (use_e e) end.
  Fixpoint use_s (s : stmt) : stmt :=
    match s with
    | SOutput e => SOutput (use_e e)
    | SNamed e p ps => SNamed (use_e e) p ps
    | SFunction h hs body => SFunction h hs (map use_s body)
    | SLoop y e body => SLoop y (use_e e) (map use_s body)
    | SResult e => SResult (use_e e)
    | SSet p ps e => SSet p ps (use_e e)
    | SAssign y e => SAssign y (use_e e)
    | SIf b bs els => SIf (use_b b) (map use_b bs) (option_map (map use_s) els)
    end
  with use_b (b : branch) : branch := match b with Branch c body => Branch (use_e c) (map use_s body) end.

  Definition fixed (p : program) : bool := forallb fixed_s p.
  Definition used (p : program) : program := map use_s p.
End stand.
