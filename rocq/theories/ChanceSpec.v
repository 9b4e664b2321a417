(** Binomial chances: what a textbook says about counting successes in n independent
    tries.  Nothing here refers to the model. *)
From Coq Require Import List ZArith QArith Factorial.
Import ListNotations.
Open Scope Q_scope.

(** n! / (k! (n-k)!) *)
Definition choose (n k : nat) : Q :=
  inject_Z (Z.of_nat (fact n)) / (inject_Z (Z.of_nat (fact k)) * inject_Z (Z.of_nat (fact (n - k)))).

(** exactly [j] of [n] tries succeed, each with chance [p] *)
Definition exactly (n : nat) (p : Q) (j : nat) : Q :=
  choose n j * (p ^ Z.of_nat j * (1 - p) ^ Z.of_nat (n - j)).

Fixpoint any_of (n : nat) (p : Q) (js : list nat) : Q :=
  match js with [] => 0 | j :: js' => exactly n p j + any_of n p js' end.

(** at least [j] of [n] tries succeed *)
Definition at_least (n : nat) (p : Q) (j : nat) : Q := any_of n p (seq j (n + 1 - j)).
