(** What a dice program means when functions work on a copy of the variables of their
    caller (the option that python_resolver.py 30-34 describes), and conditions on
    programs. *)
From Coq Require Import String Bool List Arith.
From Verif Require Import PyBase LexModel ParseModel SynSpec NameSpec ResolveModel PyTrans Runtime MeanSpec RunSpec.
Import ListNotations.
Open Scope string_scope.
Open Scope list_scope.
Open Scope run_scope.

(** ** Meaning *)

Section meaning.
  Context {V W : Type} (rt : runtime V W).
  Variable oplib : bool.

  (** The body of a function: it sees its parameters, then the variables that its caller
      sees.  What it changes is gone when it returns. *)
  Definition body_over (callf : variables -> functions -> fdef -> list V -> M W V)
      (seen : variables) (fs : functions) (f : fdef) (l : list V) : M W V :=
    match give_all (d_params f) l with
    | None => raise TypeErr
    | Some own =>
        r <== mean_block rt oplib callf (d_body f) (mkPlace (own ++ seen) fs None) ;;
        ret (match r with Result v => v | Onward _ => rt_none rt end)
    end.

  Fixpoint call_over (fuel : nat) (seen : variables) (fs : functions) (f : fdef) (l : list V) : M W V :=
    match fuel with
    | O => fun _ => None
    | S n =>
        ks <== lift (kinds_of (d_params f)) ;;
        rt_call rt ks (body_over (call_over n) seen fs f) l
    end.

  Definition mean_over (lib : bool) (fuel : nat) (p : program) : M W unit :=
    r <== mean_block rt oplib (call_over fuel) p (mkPlace [] (if lib then library_functions else []) None) ;;
    ret Datatypes.tt.
End meaning.

(** ** Conditions *)

(** The variables of loops, outside of functions.  These and parameters are names in the
    generated program, other variables are keys. *)
Fixpoint loops_s (s : stmt) : list string :=
  match s with
  | SLoop x _ body => x :: flat_map loops_s body
  | SIf b bs els =>
      loops_b b ++ flat_map loops_b bs ++ match els with None => [] | Some body => flat_map loops_s body end
  | _ => []
  end
with loops_b (b : branch) : list string :=
  match b with Branch _ body => flat_map loops_s body end.

Definition free_variable (x : string) : bool := negb (mem x taken_variables).

(** A function defines no function, and its parameters have no type or one of n, s, d. *)
Definition flat_function (f : list (string * option ptype) * list stmt) : bool :=
  forallb known_type (fst f)
  && match flat_map functions_s (snd f) with [] => true | _ => false end
  && forallb free_variable (map fst (fst f) ++ flat_map loops_s (snd f)).

(** The function of the library that takes no further argument (utils.py 63) is not
    called. *)
Definition div_shape : shape := [Some "true"; Some "div"; None; None].
Definition no_div (fl : flags) (p : program) : bool :=
  fl_prefix fl || forallb (fun s => negb (shape_eqb s div_shape)) (calls p).

Definition tame_over (fl : flags) (p : program) : bool :=
  fl_vars fl
  && forallb flat_function (flat_map functions_s p)
  && forallb (free_name fl) (defs p)
  && forallb free_variable (flat_map loops_s p)
  && no_div fl p.

(** ** The library *)

Definition lib_arity (f : libfn) : nat :=
  match f with
  | LContains | LCount | LHighest | LLowest | LMiddle | LHighestOf | LLowestOf | LDiv => 2
  | LAbsolute | LExplode | LMaximum | LReverse | LSort => 1
  end.

(** The other functions ignore a further argument. *)
Definition lenient {V W : Type} (rt : runtime V W) : Prop :=
  forall f l w, f <> LDiv -> List.length l = lib_arity f -> rt_lib rt f (l ++ [rt_none rt]) w = rt_lib rt f l w.

(** A function that uses no variable but its parameters. *)
Definition alone (f : list (string * option ptype) * list stmt) : bool :=
  forallb (fun x => mem x (map fst (fst f))) (flat_map vars_s (snd f)).
