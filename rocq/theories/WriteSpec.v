(** Other ways to write the same: parentheses, loops written out, branches that are decided,
    statements that are never reached. *)
From Coq Require Import Ascii String List ZArith Bool.
From Verif Require Import PyBase LexModel ParseModel SynSpec NameSpec Runtime.
Import ListNotations.
Open Scope list_scope.

(** An expression without parentheses. *)
Fixpoint bare_e (e : expr) : expr :=
  match e with
  | EBin o l r => EBin o (bare_e l) (bare_e r)
  | EDice n d => EDice (bare_t n) (bare_t d)
  | EDie d => EDie (bare_t d)
  | ETerm (TGroup e) => bare_e e
  | ETerm t => ETerm (bare_t t)
  end
with bare_t (t : term) : term :=
  match t with
  | TNum _ | TDec _ _ | TVar _ | TStr _ _ => t
  | TSeq es => TSeq (map bare_l es)
  | TGroup e => match bare_e e with ETerm t => t | e' => TGroup e' end
  | TCall cs => TCall (map bare_c cs)
  | TUn u t => TUn u (bare_t t)
  | THash t => THash (bare_t t)
  end
with bare_l (x : element) : element :=
  match x with LOne e => LOne (bare_e e) | LRange a b => LRange (bare_e a) (bare_e b) end
with bare_c (c : citem) : citem :=
  match c with CWord _ => c | CArg e => CArg (bare_e e) end.

(** The trees of two expressions are the same but for parentheses. *)
Definition same_tree (e e' : expr) : Prop := bare_e e = bare_e e'.

Definition number (s : string) : expr := ETerm (TNum s).
Definition quoted (s : string) : expr := ETerm (TStr (PAny s) []).

(** [ss] are the numbers from [a] to [b], in digits. *)
Inductive counts : Z -> Z -> list string -> Prop :=
| counts_end a b : (b < a)%Z -> counts a b []
| counts_on a b s ss : (a <= b)%Z -> decimal_value s = a -> counts (a + 1) b ss -> counts a b (s :: ss).
(** The numbers of a sequence of numbers and ranges of numbers. *)
Inductive entries : list element -> list string -> Prop :=
| entries_nil : entries [] []
| entries_one s es ss : entries es ss -> entries (LOne (number s) :: es) (s :: ss)
| entries_range a b rs es ss : counts (decimal_value a) (decimal_value b) rs -> entries es ss ->
    entries (LRange (number a) (number b) :: es) (rs ++ ss).

(** Blocks of statements that say the same. *)
Inductive alike : list stmt -> list stmt -> Prop :=
(* a loop over numbers is its body once for each, with the variable set before *)
| alike_unroll x es ss body : entries es ss ->
    alike [SLoop x (ETerm (TSeq es)) body] (flat_map (fun s => SAssign x (number s) :: body) ss)
(* a loop over a text is its body once for each character *)
| alike_letters x s body :
    alike [SLoop x (quoted s) body] (flat_map (fun a => SAssign x (quoted (String a EmptyString)) :: body) (list_ascii_of_string s))
(* a number as a condition: 0 does not hold, any other does *)
| alike_if_true s body bs els : decimal_value s <> 0%Z -> alike [SIf (Branch (number s) body) bs els] body
| alike_if_false s body b bs els : decimal_value s = 0%Z ->
    alike [SIf (Branch (number s) body) (b :: bs) els] [SIf b bs els]
| alike_if_else s body els : decimal_value s = 0%Z ->
    alike [SIf (Branch (number s) body) [] els] (match els with Some l => l | None => [] end)
(* nothing after a result is reached *)
| alike_result e l : alike (SResult e :: l) [SResult e]
(* else if, written as an if inside of else *)
| alike_else_if b b1 bs els : alike [SIf b (b1 :: bs) els] [SIf b [] (Some [SIf b1 bs els])]
| alike_no_else b bs : alike [SIf b bs (Some [])] [SIf b bs None]
(* parentheses *)
| alike_output e e' : same_tree e e' -> alike [SOutput e] [SOutput e']
| alike_named e e' p ps : same_tree e e' -> alike [SNamed e p ps] [SNamed e' p ps]
| alike_result_of e e' : same_tree e e' -> alike [SResult e] [SResult e']
| alike_set p ps e e' : same_tree e e' -> alike [SSet p ps e] [SSet p ps e']
| alike_assign x e e' : same_tree e e' -> alike [SAssign x e] [SAssign x e']
| alike_over x e e' body : same_tree e e' -> alike [SLoop x e body] [SLoop x e' body]
| alike_condition c c' body bs els : same_tree c c' -> alike [SIf (Branch c body) bs els] [SIf (Branch c' body) bs els]
(* inside of other statements *)
| alike_function h hs l l' : alike l l' -> alike [SFunction h hs l] [SFunction h hs l']
| alike_loop x e l l' : alike l l' -> alike [SLoop x e l] [SLoop x e l']
| alike_then c l l' bs els : alike l l' -> alike [SIf (Branch c l) bs els] [SIf (Branch c l') bs els]
| alike_else b l l' : alike l l' -> alike [SIf b [] (Some l)] [SIf b [] (Some l')]
(* one after the other *)
| alike_app a a' b b' : alike a a' -> alike b b' -> alike (a ++ b) (a' ++ b')
| alike_refl l : alike l l
| alike_sym l l' : alike l l' -> alike l' l
| alike_trans a b c : alike a b -> alike b c -> alike a c.
