(** What a running program asks of the library: an interface.

    The semantics of generated Python (PySem.v) and the meaning of dice programs
    (MeanSpec.v) are given over any such runtime, so that what is proved about
    compiling does not depend on what operators and helpers compute.  RunModel.v
    is the runtime made of the modelled library. *)
From Coq Require Import String Ascii List ZArith Bool.
From Verif Require Import PyBase LexModel ParseModel SynSpec.
Import ListNotations.

(** Running: from a world (settings, tables, recorded outputs, ...) to a result or
    exception, and the world afterwards.  [None]: the given bound on the depth of
    calls was not enough. *)
Definition M (W A : Type) : Type := W -> option (res A * W).

Section monad.
  Context {W : Type}.
  Definition ret {A} (a : A) : M W A := fun w => Some (Ok a, w).
  Definition raise {A} (e : pyerr) : M W A := fun w => Some (Err e, w).
  Definition lift {A} (r : res A) : M W A := fun w => Some (r, w).
  Definition bnd {A B} (m : M W A) (f : A -> M W B) : M W B :=
    fun w => match m w with
             | Some (Ok a, w') => f a w'
             | Some (Err e, w') => Some (Err e, w')
             | None => None
             end.
  Fixpoint each {A B} (f : A -> M W B) (l : list A) : M W (list B) :=
    match l with
    | [] => ret []
    | x :: l' => bnd (f x) (fun y => bnd (each f l') (fun ys => ret (y :: ys)))
    end.
End monad.
Declare Scope run_scope.
Notation "x <== e ;; f" := (bnd e (fun x => f))
  (at level 61, e at next level, right associativity) : run_scope.
Notation "' p <== e ;; f" := (bnd e (fun p => f))
  (at level 61, p pattern, e at next level, right associativity) : run_scope.

(** The number that digits stand for. *)
Definition digit_value (c : ascii) : Z := (Z.of_nat (nat_of_ascii c) - 48)%Z.
Definition decimal_value (s : string) : Z :=
  fold_left (fun n c => (10 * n + digit_value c)%Z) (list_ascii_of_string s) 0%Z.

(** The marked types of parameters: number, sequence, die. *)
Inductive kind : Set := KN | KS | KD.

(** The functions of the library that a program may call. *)
Inductive libfn : Set :=
| LAbsolute | LContains | LCount | LExplode | LHighest | LLowest | LMiddle
| LHighestOf | LLowestOf | LMaximum | LReverse | LSort | LDiv.

(** The operators that exist as functions. *)
Inductive myfn : Set := MyAt | MyLen | MyNot | MyAnd | MyOr.

Record runtime (V W : Type) : Type := mkRuntime {
  (** values *)
  rt_int : Z -> V;                          (* an integer *)
  rt_float : Z -> nat -> res V;             (* the float nearest to z / 10^k *)
  rt_text : string -> V;
  rt_list : list V -> V;                    (* a Python list *)
  rt_none : V;
  (** what Python asks of a value *)
  rt_str : V -> M W string;                 (* its text in a formatted string *)
  rt_truth : V -> M W bool;                 (* its truth in a condition *)
  rt_iter : V -> M W (list V);              (* what a loop runs over *)
  rt_op : binop -> V -> V -> M W V;         (* the operators + - * // ** @ & | < > == != <= >= *)
  rt_un : unop -> V -> M W V;               (* + - ~ *)
  rt_len : V -> M W V;                      (* len *)
  (** the helpers *)
  rt_roll : V -> option V -> M W V;
  rt_seq : V -> M W V;
  rt_range : V -> V -> M W V;
  rt_output : V -> option V -> M W V;       (* with a name or without *)
  rt_set : V -> V -> M W V;
  rt_my : myfn -> list V -> M W V;
  rt_lib : libfn -> list V -> M W V;
  (** a call of a decorated function, given the marked types of its parameters and what
      its body does *)
  rt_call : list (option kind) -> (list V -> M W V) -> list V -> M W V;
  (** it depends only on what the body does *)
  rt_call_ext : forall ks f g l w, (forall l w, f l w = g l w) -> rt_call ks f l w = rt_call ks g l w
}.
Arguments rt_int {V W} _ _.
Arguments rt_float {V W} _ _ _.
Arguments rt_text {V W} _ _.
Arguments rt_list {V W} _ _.
Arguments rt_none {V W} _.
Arguments rt_str {V W} _ _ _.
Arguments rt_truth {V W} _ _ _.
Arguments rt_iter {V W} _ _ _.
Arguments rt_op {V W} _ _ _ _ _.
Arguments rt_un {V W} _ _ _ _.
Arguments rt_len {V W} _ _ _.
Arguments rt_roll {V W} _ _ _ _.
Arguments rt_seq {V W} _ _ _.
Arguments rt_range {V W} _ _ _ _.
Arguments rt_output {V W} _ _ _ _.
Arguments rt_set {V W} _ _ _ _.
Arguments rt_my {V W} _ _ _ _.
Arguments rt_lib {V W} _ _ _ _.
Arguments rt_call {V W} _ _ _ _ _.
Arguments rt_call_ext {V W} _.
