(** Python exceptions as values.

    Every modelled function that can raise returns [res A].  The error
    constructors name the Python exception class; [Unmodelled] marks behaviour
    outside the model (inf/NaN, libm functions), about which no theorem says
    anything. *)
From Coq Require Import List ZArith.
Import ListNotations.

Inductive pyerr : Type :=
| TypeErr | AssertErr | ZeroDivErr | OverflowErr | ValueErr | AttrErr
| IndexErr | NotImplErr | NameErr | KeyErr | Unmodelled.

Inductive res (A : Type) : Type :=
| Ok (a : A)
| Err (e : pyerr).
Arguments Ok {A} a.
Arguments Err {A} e.

Definition bind {A B : Type} (x : res A) (f : A -> res B) : res B :=
  match x with Ok a => f a | Err e => Err e end.

Definition rmap {A B : Type} (f : A -> B) (x : res A) : res B :=
  match x with Ok a => Ok (f a) | Err e => Err e end.

Declare Scope py_scope.
Notation "x <- e ;; f" := (bind e (fun x => f))
  (at level 61, e at next level, right associativity) : py_scope.
Notation "' p <- e ;; f" := (bind e (fun p => f))
  (at level 61, p pattern, e at next level, right associativity) : py_scope.
Open Scope py_scope.

(** A Python list comprehension [[f(x) for x in l]]: left to right, the first
    exception wins. *)
Fixpoint mapM {A B : Type} (f : A -> res B) (l : list A) : res (list B) :=
  match l with
  | [] => Ok []
  | x :: l' => y <- f x ;; ys <- mapM f l' ;; Ok (y :: ys)
  end.

(** A left-to-right accumulation loop whose body may raise. *)
Fixpoint foldM {A B : Type} (f : B -> A -> res B) (b : B) (l : list A) : res B :=
  match l with
  | [] => Ok b
  | x :: l' => b' <- f b x ;; foldM f b' l'
  end.

Definition assert_ {A : Type} (b : bool) (k : res A) : res A :=
  if b then k else Err AssertErr.

Definition is_ok {A : Type} (x : res A) : bool :=
  match x with Ok _ => true | Err _ => false end.
