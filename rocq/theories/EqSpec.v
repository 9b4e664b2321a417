(** What comparing values as a whole should decide. *)
From Coq Require Import String List ZArith QArith Bool.
From Verif Require Import PyBase Num Val RVModel Obj RollSpec SeqSpec Spec RVFacts ConstructFacts.
Import ListNotations.
Open Scope Z_scope.

(** the values of a number, text, list or sequence *)
Definition plain (o : obj) : Prop :=
  match o with OV (VN _) | OStr _ | OSeq _ | OSSeq _ | OIter _ => True | _ => False end.

(** The law a value stands for: a die its own; a number, a text or a list one of its
    entries (see SeqSpec), all equally likely, and 0 if there is none. *)
Inductive law_of : obj -> list (pval * Z) -> Prop :=
| law_of_die x : canon (rv_dist x) -> positive_weights (rv_dist x) -> law_of (ORV x) (rv_dist x)
| law_of_plain o L : plain o -> leaves o L -> ~ In ONone L ->
    law_of o (match contents L with [] => [(vint 0, 1)] | l => fair l end).

(** Python's [==] of two entries: numbers by value *)
Definition same_entry (a b : pval) : Prop := veqb a b = true.
