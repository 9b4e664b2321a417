(** Properties C110 and C111.  C110: the chance that a position of a roll reaches a mark.  [at_least n p j] is
    the binomial chance that at least [j] of [n] tries succeed (ChanceSpec.v), and
    [PrP (vleb m) d] the chance that a die shows [m] or more. *)
From Coq Require Import String List ZArith QArith Bool Lia.
From Verif Require Import PyBase Num Val Sorting RVModel Obj RollModel RollSpec AtModel Spec RVFacts ConstructFacts OpFacts UnaryFacts SelectFacts ChanceSpec ChanceFacts ChancePool.
Import ListNotations.
Open Scope Z_scope.

(** [k @ (n d x)] counting from the highest die: it shows [m] or more exactly when at least
    [k] of the [n] dice do; counting from the lowest, when at least [n + 1 - k] do *)
Theorem C110_position : forall c calls n x k r m,
  Forall int_call calls -> int_vals (rv_dist x) -> 2 <= n ->
  roll_after c calls (oint n) (Some (ORV x)) = Ok (ORV r) ->
  cfg_trunc c = false -> canon (rv_dist x) -> 0 < total (rv_dist x) -> no_dropped c (rv_dist x) ->
  1 <= k <= n -> total (rv_dist x) ^ n <= SUM_LIMIT ->
  exists q, rv_rmatmul c (oint k) r = Ok (ORV q) /\
    (PrP (vleb m) (rv_dist q) ==
     at_least (Z.to_nat n) (PrP (vleb m) (rv_dist x)) (Z.to_nat (if cfg_highest c then k else n + 1 - k)))%Q.
Proof. exact position_chance. Qed.
Print Assumptions C110_position.

(** the best of [n] dice misses the mark only when all of them do *)
Theorem C110_best : forall c calls n x r m,
  Forall int_call calls -> int_vals (rv_dist x) -> 2 <= n ->
  roll_after c calls (oint n) (Some (ORV x)) = Ok (ORV r) ->
  cfg_trunc c = false -> cfg_highest c = true ->
  canon (rv_dist x) -> 0 < total (rv_dist x) -> no_dropped c (rv_dist x) -> total (rv_dist x) ^ n <= SUM_LIMIT ->
  exists q, rv_rmatmul c (oint 1) r = Ok (ORV q) /\
    (PrP (vleb m) (rv_dist q) == 1 - (1 - PrP (vleb m) (rv_dist x)) ^ n)%Q.
Proof. exact best_chance. Qed.
Print Assumptions C110_best.

(** the worst reaches it only when all of them do *)
Theorem C110_worst : forall c calls n x r m,
  Forall int_call calls -> int_vals (rv_dist x) -> 2 <= n ->
  roll_after c calls (oint n) (Some (ORV x)) = Ok (ORV r) ->
  cfg_trunc c = false -> cfg_highest c = true ->
  canon (rv_dist x) -> 0 < total (rv_dist x) -> no_dropped c (rv_dist x) -> total (rv_dist x) ^ n <= SUM_LIMIT ->
  exists q, rv_rmatmul c (oint n) r = Ok (ORV q) /\
    (PrP (vleb m) (rv_dist q) == PrP (vleb m) (rv_dist x) ^ n)%Q.
Proof. exact worst_chance. Qed.
Print Assumptions C110_worst.

(** a lower position never reaches the mark more often *)
Theorem C110_falling : forall c calls n x i j r m,
  Forall int_call calls -> int_vals (rv_dist x) -> 2 <= n ->
  roll_after c calls (oint n) (Some (ORV x)) = Ok (ORV r) ->
  cfg_trunc c = false -> cfg_highest c = true ->
  canon (rv_dist x) -> 0 < total (rv_dist x) -> no_dropped c (rv_dist x) -> total (rv_dist x) ^ n <= SUM_LIMIT ->
  1 <= i <= j -> j <= n ->
  exists p q, rv_rmatmul c (oint i) r = Ok (ORV p) /\ rv_rmatmul c (oint j) r = Ok (ORV q) /\
    (PrP (vleb m) (rv_dist q) <= PrP (vleb m) (rv_dist p))%Q.
Proof. exact positions_fall. Qed.
Print Assumptions C110_falling.

(** equal laws give every event on values the same chance *)
Theorem C110_events : forall a b, total b <> 0 -> same_law a b ->
  forall P, (forall v w, veqb v w = true -> P v = P w) -> (PrP P a == PrP P b)%Q.
Proof. exact law_events. Qed.
Print Assumptions C110_events.

(** ** C111.  Rolling [n] times the die [x op m], which shows 1 where the comparison holds *)
Definition meets (op : binop) (m a : pval) : bool :=
  match op with
  | OEq => veqb a m | ONe => negb (veqb a m) | OLt => vltb a m | OLe => vleb a m | OGt => vltb m a | OGe => vleb m a
  | _ => false
  end.
Definition comparison_op (op : binop) : bool :=
  match op with OEq | ONe | OLt | OLe | OGt | OGe => true | _ => false end.

Theorem C111_pool : forall c calls op n x m s,
  Forall int_call calls -> cfg_trunc c = false -> proper x -> 0 <= n -> total x ^ n <= SUM_LIMIT ->
  comparison_op op = true -> rv_op_const c op x m = Ok s ->
  exists r, roll_after c calls (oint n) (Some (ORV s)) = Ok (ORV r) /\
    forall j, (Pr (rv_dist r) (vint (Z.of_nat j)) ==
      if Nat.leb j (Z.to_nat n) then exactly (Z.to_nat n) (PrP (meets op m) x) j else 0)%Q.
Proof.
  intros c calls op n x m s H Ht P N L O E.
  apply (pool_law c calls op (meets op m) n x m s H Ht P N L); [|exact E].
  intro a. destruct op; try discriminate O; reflexivity.
Qed.
Print Assumptions C111_pool.

(** such a die exists for every die and mark *)
Theorem C111_defined : forall c op x m, cfg_trunc c = false -> nonneg x -> comparison_op op = true ->
  exists s, rv_op_const c op x m = Ok s.
Proof. exact (fun c op x m Ht N O => pool_defined c op (meets op m) x m Ht N ltac:(intro a; destruct op; try discriminate O; reflexivity)). Qed.
Print Assumptions C111_defined.

(** ** Non-vacuity: three dice with faces 1, 2, 5 and weights 1, 3, 2 *)
Definition lopsided : rv := rv_of [(vint 1, 1); (vint 2, 3); (vint 5, 2)].

Example C110_example : exists r q,
  roll_after default_cfg [] (oint 3) (Some (ORV lopsided)) = Ok (ORV r) /\
  rv_rmatmul default_cfg (oint 2) r = Ok (ORV q) /\
  int_vals (rv_dist lopsided) /\ canon (rv_dist lopsided) /\ 0 < total (rv_dist lopsided) /\
  no_dropped default_cfg (rv_dist lopsided) /\ total (rv_dist lopsided) ^ 3 <= SUM_LIMIT /\
  (PrP (vleb (vint 5)) (rv_dist lopsided) == 1 # 3)%Q /\
  (PrP (vleb (vint 5)) (rv_dist q) == 7 # 27)%Q /\ (at_least 3 (1 # 3) 2 == 7 # 27)%Q.
Proof.
  eexists. eexists. split; [vm_compute; reflexivity|]. split; [vm_compute; reflexivity|].
  split; [repeat constructor|]. split.
  { split; [|left; reflexivity]. split; [discriminate|]. split; repeat constructor; discriminate. }
  split; [reflexivity|]. split; [intro H; discriminate H|]. split; [discriminate|].
  split; [reflexivity|]. split; reflexivity.
Qed.

(** four such dice, each counted when it shows 2 or more *)
Example C111_example : exists s r,
  rv_op_const default_cfg OGe (rv_dist lopsided) (vint 2) = Ok s /\
  roll_after default_cfg [] (oint 4) (Some (ORV s)) = Ok (ORV r) /\
  proper (rv_dist lopsided) /\ total (rv_dist lopsided) ^ 4 <= SUM_LIMIT /\
  (PrP (meets OGe (vint 2)) (rv_dist lopsided) == 5 # 6)%Q /\
  (Pr (rv_dist r) (vint 3) == 500 # 1296)%Q /\ (exactly 4 (5 # 6) 3 == 500 # 1296)%Q.
Proof.
  eexists. eexists. split; [vm_compute; reflexivity|]. split; [vm_compute; reflexivity|].
  split; [split; [repeat constructor; discriminate|reflexivity]|]. split; [discriminate|].
  split; [reflexivity|]. split; reflexivity.
Qed.
