(** Python's [sorted]: stable, so it is a function of the order only.  Stable
    insertion sort computes the same list.  *)
From Coq Require Import List Bool.
Import ListNotations.

Section Sort.
  Context {A : Type} (leb : A -> A -> bool).

  Fixpoint insert (x : A) (l : list A) : list A :=
    match l with
    | [] => [x]
    | y :: l' => if leb x y then x :: y :: l' else y :: insert x l'
    end.

  (** [sorted(l)] *)
  Fixpoint isort (l : list A) : list A :=
    match l with
    | [] => []
    | x :: l' => insert x (isort l')
    end.

  (** [sorted(l, reverse=True)]: CPython reverses, sorts stably, reverses. *)
  Definition isort_rev (l : list A) : list A := rev (isort (rev l)).
End Sort.

Definition leb_of {A : Type} (cmp : A -> A -> comparison) (x y : A) : bool :=
  match cmp x y with Gt => false | _ => true end.
