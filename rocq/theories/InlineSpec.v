(** Writing the result of a function in the place of a call. *)
From Coq Require Import String List ZArith Bool.
From Verif Require Import PyBase LexModel ParseModel SynSpec NameSpec SettingsModel Runtime RunModel SessSpec.
Import ListNotations.
Open Scope list_scope.

(** An expression of numbers, variables, operators, dice and sequences: no calls, no text. *)
Fixpoint plain_e (e : expr) : bool :=
  match e with
  | EBin _ l r => plain_e l && plain_e r
  | EDice n d => plain_t n && plain_t d
  | EDie d => plain_t d
  | ETerm t => plain_t t
  end
with plain_t (t : term) : bool :=
  match t with
  | TNum _ | TDec _ _ | TVar _ => true
  | TStr _ _ | TCall _ => false
  | TSeq es => forallb plain_l es
  | TGroup e => plain_e e
  | TUn _ t => plain_t t
  | THash t => plain_t t
  end
with plain_l (x : element) : bool :=
  match x with LOne e => plain_e e | LRange a b => plain_e a && plain_e b end.

(** An expression with the terms [s] for its variables. *)
Section put.
  Variable s : string -> option term.
  Fixpoint put_e (e : expr) : expr :=
    match e with
    | EBin o l r => EBin o (put_e l) (put_e r)
    | EDice n d => EDice (put_t n) (put_t d)
    | EDie d => EDie (put_t d)
    | ETerm t => ETerm (put_t t)
    end
  with put_t (t : term) : term :=
    match t with
    | TVar x => match s x with Some t => t | None => TVar x end
    | TSeq es => TSeq (map put_l es)
    | TGroup e => TGroup (put_e e)
    | TUn u t => TUn u (put_t t)
    | THash t => THash (put_t t)
    | _ => t
    end
  with put_l (x : element) : element :=
    match x with LOne e => LOne (put_e e) | LRange a b => LRange (put_e a) (put_e b) end.
End put.

(** The arguments of a call, and what stands for a parameter. *)
Definition call_args (cs : list citem) : list expr := flat_map (fun c => match c with CArg e => [e] | CWord _ => [] end) cs.
Fixpoint given (ps : list (string * option ptype)) (ts : list term) (x : string) : option term :=
  match ps, ts with
  | p :: ps', t :: ts' => if String.eqb x (fst p) then Some t else given ps' ts' x
  | _, _ => None
  end.

(** The shapes of the functions that statements define where they stand. *)
Fixpoint heads_s (s : stmt) : list shape :=
  match s with
  | SFunction h hs _ => [header_shape (h :: hs)]
  | SLoop _ _ body => flat_map heads_s body
  | SIf b bs els => heads_b b ++ flat_map heads_b bs ++ match els with Some l => flat_map heads_s l | None => [] end
  | _ => []
  end
with heads_b (b : branch) : list shape := match b with Branch _ body => flat_map heads_s body end.

(** A number, or a variable that has a value after [pre]. *)
Definition known (pre : list stmt) (t : term) : Prop :=
  match t with TNum _ => True | TVar x => exists e, In (SAssign x e) pre | _ => False end.

(** Places of an expression in an expression, and in a statement of the program. *)
Inductive within : (expr -> expr) -> Prop :=
| within_itself : within (fun e => e)
| within_left o r C : within C -> within (fun e => EBin o (C e) r)
| within_right o l C : within C -> within (fun e => EBin o l (C e))
| within_group C : within C -> within (fun e => ETerm (TGroup (C e))).
Inductive around : (expr -> stmt) -> Prop :=
| around_output : around SOutput
| around_named p ps : around (fun e => SNamed e p ps)
| around_assign x : around (fun e => SAssign x e)
| around_over x body : around (fun e => SLoop x e body)
| around_if body bs els : around (fun e => SIf (Branch e body) bs els).

(** [p'] is [p] with the result of a function written in place of a call of it:

    - the function was defined by the part [pre1 ++ SFunction ... :: pre2] before, which
      sets no settings, and [pre2] defines no function of the same shape;
    - it has no types and consists of a result;
    - the arguments are numbers or variables that were given values before. *)
Inductive written_out : program -> program -> Prop :=
| written_at pre1 h hs E pre2 S C cs ts post :
    sets_nothing (pre1 ++ pre2) = true ->
    Forall (fun p => snd p = None) (params (h :: hs)) -> plain_e E = true ->
    ~ In (header_shape (h :: hs)) (flat_map heads_s pre2) ->
    around S -> within C ->
    call_shape cs = header_shape (h :: hs) -> call_args cs = map ETerm ts -> length ts = length (params (h :: hs)) ->
    Forall (known (pre1 ++ SFunction h hs [SResult E] :: pre2)) ts ->
    written_out
      ((pre1 ++ SFunction h hs [SResult E] :: pre2) ++ S (C (ETerm (TCall cs))) :: post)
      ((pre1 ++ SFunction h hs [SResult E] :: pre2) ++ S (C (ETerm (TGroup (put_e (given (params (h :: hs)) ts) E)))) :: post).

(** Two runs end with the same value in the same world, or raise the same exception in worlds
    that differ in the depth of calls only, or both do not end. *)
Definition but_depth (w w' : world) : Prop :=
  rw_memo w = rw_memo w' /\ rw_outputs w = rw_outputs w' /\ rw_printed w = rw_printed w' /\
  forall n, n <> "INTERNAL_CURR_DEPTH"%string -> get n (rw_settings w) = get n (rw_settings w').
Definition same_run {A} (a b : option (res A * world)) : Prop :=
  match a, b with
  | Some (Ok x, w), Some (Ok y, w') => x = y /\ w = w'
  | Some (Err e, w), Some (Err e', w') => e = e' /\ but_depth w w'
  | None, None => True
  | _, _ => False
  end.
