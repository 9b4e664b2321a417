(** C27 again, for the operator # of the language and the [len] of Python. *)
From Coq Require Import String List ZArith Bool Lia.
From Verif Require Import PyBase Num Val RVModel UtilModel Obj RollModel RollSpec AtModel DispModel Spec SeqSpec PropRoll.
Import ListNotations.
Open Scope Z_scope.

(** [len(roll(n, d))] is n, or that of d for n = 1, or 1 if nothing is rolled. *)
Theorem C27_len_of_roll : forall c calls n x r,
  Forall int_call calls -> int_vals (rv_dist x) ->
  roll_after c calls (oint n) (Some (ORV x)) = Ok (ORV r) ->
  my_len (ORV r) = if n =? 1 then my_len (ORV x) else Ok (if 2 <=? n then n else 1).
Proof.
  intros c calls n x r A B E. destruct (C27_roll_length c calls n x r A B E) as [L [H _]].
  destruct (Z.eqb_spec n 1) as [N|N].
  - now rewrite (H N).
  - unfold my_len. rewrite L. destruct (Z.leb_spec 2 n); [|reflexivity].
    destruct (Z.ltb_spec n 0); [lia|reflexivity].
Qed.
Print Assumptions C27_len_of_roll.

(** Everything computed from dice counts as one die. *)
Theorem C27_len_of_result : forall c o x y f z r,
  rv_op c o x y = Ok r \/ rv_map c f z = Ok r -> my_len (ORV r) = Ok 1.
Proof.
  intros c o x y f z r [E|E]; unfold my_len.
  - now rewrite (proj1 (C27_arithmetic_length c o x y r E)).
  - now rewrite (proj1 (C27_map_length c f z r E)).
Qed.
Print Assumptions C27_len_of_result.

Example C27_len_example :
  match roll_after default_cfg [] (oint 3) (Some (ORV die2)) with
  | Ok r => my_len r = Ok 3
  | Err _ => False
  end.
Proof. vm_compute. reflexivity. Qed.
