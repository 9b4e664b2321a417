(** Which functions a program defines and calls: a specification, on the
    abstract syntax of SynSpec.v. *)
From Coq Require Import String Bool List Arith.
From Verif Require Import LexModel LexSpec SynSpec.
Import ListNotations.
Open Scope string_scope.
Open Scope list_scope.

(** A function is known by its shape: its words, and the places of its
    arguments ([None]). *)
Definition shape := list (option string).

Definition shape_of_item (h : hitem) : option string :=
  match h with
  | HWord w => Some (snd (word_tok w))
  | HD => Some "d"
  | HParam _ | HTyped _ _ => None
  end.
Definition header_shape (hs : list hitem) : shape := map shape_of_item hs.

Definition call_shape (cs : list citem) : shape :=
  map (fun c => match c with CWord w => Some (snd (word_tok w)) | CArg _ => None end) cs.

(** How many arguments a function of a shape takes. *)
Definition slots (s : shape) : nat :=
  length (filter (fun x => match x with None => true | Some _ => false end) s).

(** ** Calls, in the order in which they are complete *)

Fixpoint calls_e (e : expr) : list shape :=
  match e with
  | EBin _ l r => calls_e l ++ calls_e r
  | EDice n d => calls_t n ++ calls_t d
  | EDie d => calls_t d
  | ETerm t => calls_t t
  end
with calls_t (t : term) : list shape :=
  match t with
  | TNum _ | TDec _ _ | TVar _ | TStr _ _ => []
  | TSeq es => flat_map calls_l es
  | TGroup e => calls_e e
  | TCall cs => flat_map calls_c cs ++ [call_shape cs]
  | TUn _ t | THash t => calls_t t
  end
with calls_l (x : element) : list shape :=
  match x with LOne e => calls_e e | LRange a b => calls_e a ++ calls_e b end
with calls_c (c : citem) : list shape :=
  match c with CWord _ => [] | CArg e => calls_e e end.

Fixpoint calls_s (s : stmt) : list shape :=
  match s with
  | SOutput e | SNamed e _ _ | SResult e | SSet _ _ e | SAssign _ e => calls_e e
  | SFunction _ _ body => flat_map calls_s body
  | SLoop _ e body => calls_e e ++ flat_map calls_s body
  | SIf b bs els =>
      calls_b b ++ flat_map calls_b bs
      ++ match els with None => [] | Some body => flat_map calls_s body end
  end
with calls_b (b : branch) : list shape :=
  match b with Branch c body => calls_e c ++ flat_map calls_s body end.

(** ** Definitions and outputs, at any depth *)

Fixpoint defs_s (s : stmt) : list shape :=
  match s with
  | SFunction h hs body => header_shape (h :: hs) :: flat_map defs_s body
  | SLoop _ _ body => flat_map defs_s body
  | SIf b bs els =>
      defs_b b ++ flat_map defs_b bs
      ++ match els with None => [] | Some body => flat_map defs_s body end
  | _ => []
  end
with defs_b (b : branch) : list shape :=
  match b with Branch _ body => flat_map defs_s body end.

Fixpoint outputs_s (s : stmt) : nat :=
  match s with
  | SOutput _ | SNamed _ _ _ => 1
  | SFunction _ _ body | SLoop _ _ body => list_sum (map outputs_s body)
  | SIf b bs els =>
      outputs_b b + list_sum (map outputs_b bs)
      + match els with None => 0 | Some body => list_sum (map outputs_s body) end
  | _ => 0
  end
with outputs_b (b : branch) : nat :=
  match b with Branch _ body => list_sum (map outputs_s body) end.

Definition calls (p : program) : list shape := flat_map calls_s p.
Definition defs (p : program) : list shape := flat_map defs_s p.
Definition outputs (p : program) : nat := list_sum (map outputs_s p).

(** ** Parameters *)

Definition param_of (h : hitem) : list (string * option ptype) :=
  match h with
  | HParam x => [(x, None)]
  | HTyped x ty => [(x, Some ty)]
  | _ => []
  end.
Definition params (hs : list hitem) : list (string * option ptype) := flat_map param_of hs.

(** A parameter that repeats the name of an earlier one has a type. *)
Fixpoint repeats_typed (seen : list string) (ps : list (string * option ptype)) : bool :=
  match ps with
  | [] => true
  | (x, ty) :: ps' =>
      (negb (existsb (String.eqb x) seen) || match ty with Some _ => true | None => false end)
      && repeats_typed (x :: seen) ps'
  end.
Definition header_ok (hs : list hitem) : bool := repeats_typed [] (params hs).

Fixpoint headers_ok_s (s : stmt) : bool :=
  match s with
  | SFunction h hs body => header_ok (h :: hs) && forallb headers_ok_s body
  | SLoop _ _ body => forallb headers_ok_s body
  | SIf b bs els =>
      headers_ok_b b && forallb headers_ok_b bs
      && match els with None => true | Some body => forallb headers_ok_s body end
  | _ => true
  end
with headers_ok_b (b : branch) : bool :=
  match b with Branch _ body => forallb headers_ok_s body end.
Definition headers_ok (p : program) : bool := forallb headers_ok_s p.

(** ** The functions that exist without being defined *)

Definition library_shapes : list shape :=
  [ [Some "absolute"; None]; [None; Some "contains"; None]; [Some "count"; None; Some "in"; None];
    [Some "explode"; None]; [Some "highest"; None; Some "of"; None]; [Some "lowest"; None; Some "of"; None];
    [Some "middle"; None; Some "of"; None]; [Some "highest"; Some "of"; None; Some "and"; None];
    [Some "lowest"; Some "of"; None; Some "and"; None]; [Some "maximum"; Some "of"; None];
    [Some "reverse"; None]; [Some "sort"; None]; [Some "true"; Some "div"; None; None] ].

(** The helpers whose names a function may not take. *)
Definition helper_shapes : list shape :=
  [ [Some "output"]; [Some "roll"]; [Some "myrange"]; [Some "max"; Some "func"; Some "depth"];
    [Some "anydice"; Some "casting"]; [Some "settings"; Some "set"] ].

(** All words of the program come from the lexer. *)
Definition lower_word (w : string) : Prop := LexSpec.a_word LexSpec.lower_letter w.
Definition shape_words (s : shape) : Prop :=
  Forall (fun x => match x with Some w => lower_word w | None => True end) s.

(** ** Programs that can run *)

(** Every header is sound, there is something to show, and every call finds a
    function: one of the program, or, if [lib], one of the library. *)
Definition accepted (lib : bool) (p : program) : Prop :=
  headers_ok p = true /\ 1 <= outputs p /\
  forall c, In c (calls p) -> In c (defs p) \/ (lib = true /\ In c library_shapes).

(** A function of the program takes the name of a helper. *)
Definition takes_helper (p : program) : Prop := exists h, In h helper_shapes /\ In h (defs p).

(** The Python annotation of a parameter type. *)
Definition annotation (ty : ptype) : string :=
  match ty with
  | PD | PName "d" => "T_D"
  | PName "s" => "T_S"
  | PName "n" => "T_N"
  | PName s => s
  end%string.
