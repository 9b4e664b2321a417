(** Changes to a program that should make no difference: other names for its variables,
    functions left out that nothing calls, another order of its functions. *)
From Coq Require Import String List Bool Permutation.
From Verif Require Import PyBase LexModel ParseModel SynSpec NameSpec Runtime MeanSpec.
Import ListNotations.
Open Scope list_scope.

Section change.
  (** the new name of each variable, and which functions to leave out *)
  Variable name : string -> string.
  Variable dead : shape -> bool.

  Definition new_part (p : part) : part := match p with PVar x => PVar (name x) | _ => p end.
  Fixpoint new_e (e : expr) : expr :=
    match e with
    | EBin o l r => EBin o (new_e l) (new_e r)
    | EDice n d => EDice (new_t n) (new_t d)
    | EDie d => EDie (new_t d)
    | ETerm t => ETerm (new_t t)
    end
  with new_t (t : term) : term :=
    match t with
    | TNum _ | TDec _ _ => t
    | TVar x => TVar (name x)
    | TStr p ps => TStr (new_part p) (map new_part ps)
    | TSeq es => TSeq (map new_l es)
    | TGroup e => TGroup (new_e e)
    | TCall cs => TCall (map new_c cs)
    | TUn u t => TUn u (new_t t)
    | THash t => THash (new_t t)
    end
  with new_l (x : element) : element :=
    match x with LOne e => LOne (new_e e) | LRange a b => LRange (new_e a) (new_e b) end
  with new_c (c : citem) : citem :=
    match c with CWord _ => c | CArg e => CArg (new_e e) end.
  Definition new_h (h : hitem) : hitem :=
    match h with HParam x => HParam (name x) | HTyped x ty => HTyped (name x) ty | _ => h end.

  (** A definition is left out if its function is, and the types in it exist. *)
  Definition kept (s : stmt) : bool :=
    match s with
    | SFunction h hs _ => negb (dead (header_shape (h :: hs)) && match kinds_of (params (h :: hs)) with Ok _ => true | Err _ => false end)
    | _ => true
    end.
  Fixpoint new_s (s : stmt) : stmt :=
    let block := flat_map (fun s => if kept s then [new_s s] else []) in
    match s with
    | SOutput e => SOutput (new_e e)
    | SNamed e p ps => SNamed (new_e e) (new_part p) (map new_part ps)
    | SFunction h hs body => SFunction (new_h h) (map new_h hs) (block body)
    | SLoop x e body => SLoop (name x) (new_e e) (block body)
    | SResult e => SResult (new_e e)
    | SSet p ps e => SSet (new_part p) (map new_part ps) (new_e e)
    | SAssign x e => SAssign (name x) (new_e e)
    | SIf b bs els => SIf (new_b b) (map new_b bs) (option_map block els)
    end
  with new_b (b : branch) : branch :=
    match b with Branch c body => Branch (new_e c) (flat_map (fun s => if kept s then [new_s s] else []) body) end.
  Definition new_program (p : program) : program := flat_map (fun s => if kept s then [new_s s] else []) p.
End change.

(** The program with other names, and the program without some functions. *)
Definition renamed (name : string -> string) (p : program) : program := new_program name (fun _ => false) p.
Definition without (dead : shape -> bool) (p : program) : program := new_program (fun x => x) dead p.

(** A definition of a function, in which the types exist. *)
Definition is_definition (s : stmt) : Prop :=
  match s with SFunction h hs _ => exists ks, kinds_of (params (h :: hs)) = Ok ks | _ => False end.
Definition shape_of (s : stmt) : shape := match s with SFunction h hs _ => header_shape (h :: hs) | _ => [] end.
