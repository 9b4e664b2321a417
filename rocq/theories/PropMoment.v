(** Property C109: means and variances of sums, products and rolls.  [expectation] is the
    exact mean of a law (Spec.v) and [variance] the mean squared distance from it
    (PrintSpec.v). *)
From Coq Require Import String List ZArith QArith Qabs Bool Lia.
From Verif Require Import PyBase Num Val RVModel Obj RollModel RollSpec Spec RollObjFacts RollFacts PrintSpec MomentFacts.
Import ListNotations.
Open Scope Z_scope.

(** ** Independent dice *)
Theorem C109_plus : forall c x y r,
  cfg_trunc c = false -> proper x -> proper y -> int_vals x -> int_vals y ->
  total x * total y <= SUM_LIMIT -> rv_op c OAdd x y = Ok r ->
  (expectation (rv_dist r) == expectation x + expectation y)%Q /\
  (variance (rv_dist r) == variance x + variance y)%Q.
Proof.
  intros c x y r Ht Px Py Ix Iy L H.
  destruct (plus_minus c OAdd 1 x y r (or_introl (conj eq_refl eq_refl)) Ht Px Py Ix Iy L H) as [E V].
  split; [rewrite E; apply Qplus_comp; [reflexivity|apply Qmult_1_l]|exact V].
Qed.
Print Assumptions C109_plus.

Theorem C109_minus : forall c x y r,
  cfg_trunc c = false -> proper x -> proper y -> int_vals x -> int_vals y ->
  total x * total y <= SUM_LIMIT -> rv_op c OSub x y = Ok r ->
  (expectation (rv_dist r) == expectation x - expectation y)%Q /\
  (variance (rv_dist r) == variance x + variance y)%Q.
Proof.
  intros c x y r Ht Px Py Ix Iy L H.
  destruct (plus_minus c OSub (-1) x y r (or_intror (conj eq_refl eq_refl)) Ht Px Py Ix Iy L H) as [E V].
  split; [rewrite E; change (inject_Z (-1)) with (- (1))%Q; ring|exact V].
Qed.
Print Assumptions C109_minus.

Theorem C109_times : forall c x y r,
  cfg_trunc c = false -> proper x -> proper y -> int_vals x -> int_vals y ->
  total x * total y <= SUM_LIMIT -> rv_op c OMul x y = Ok r ->
  (expectation (rv_dist r) == expectation x * expectation y)%Q.
Proof. exact product_mean. Qed.
Print Assumptions C109_times.

(** ** Dice and a number.  The means are in C11. *)
Theorem C109_numbers : forall c k x r, cfg_trunc c = false -> proper x -> int_vals x ->
  (rv_op_const c OMul x (vint k) = Ok r -> (variance (rv_dist r) == inject_Z (k * k) * variance x)%Q) /\
  (rv_op_const c OAdd x (vint k) = Ok r -> (variance (rv_dist r) == variance x)%Q) /\
  (rv_neg c x = Ok r -> (variance (rv_dist r) == variance x)%Q).
Proof. exact constant_variances. Qed.
Print Assumptions C109_numbers.

(** ** Rolls *)
Theorem C109_roll : forall c calls n x, Forall int_call calls -> cfg_trunc c = false ->
  proper (rv_dist x) -> int_vals (rv_dist x) -> total (rv_dist x) ^ Z.abs n <= SUM_LIMIT ->
  exists r, roll_after c calls (oint n) (Some (ORV x)) = Ok (ORV r) /\
    (expectation (rv_dist r) == inject_Z n * expectation (rv_dist x))%Q /\
    (variance (rv_dist r) == inject_Z (Z.abs n) * variance (rv_dist x))%Q.
Proof. exact roll_moments. Qed.
Print Assumptions C109_roll.

(** mean() of a roll *)
Theorem C109_roll_mean : forall c calls n x, Forall int_call calls -> cfg_trunc c = false ->
  proper (rv_dist x) -> int_vals (rv_dist x) -> total (rv_dist x) ^ Z.abs n <= SUM_LIMIT ->
  exists r, roll_after c calls (oint n) (Some (ORV x)) = Ok (ORV r) /\ rv_mean (rv_dist r) <> Ok None /\
    forall m, rv_mean (rv_dist r) = Ok (Some m) -> nearest_double (inject_Z n * expectation (rv_dist x)) (numQ m).
Proof. exact roll_mean. Qed.
Print Assumptions C109_roll_mean.

(** a random number of dice: the variance of the dice counts once for each die, that of
    the number with the square of the mean of a die *)
Theorem C109_random_count : forall c calls (N x : rv), Forall int_call calls -> cfg_trunc c = false ->
  proper (rv_dist x) -> int_vals (rv_dist x) -> proper (rv_dist N) -> int_vals (rv_dist N) ->
  total (rv_dist x) ^ sumZ (map (fun v => Z.abs (toZ v)) (vals (rv_dist N))) * total (rv_dist N) <= SUM_LIMIT ->
  exists r, roll_after c calls (ORV N) (Some (ORV x)) = Ok (ORV r) /\
    (expectation (rv_dist r) == expectation (rv_dist N) * expectation (rv_dist x))%Q /\
    (variance (rv_dist r) == average (fun n => inject_Z (Z.abs (toZ n))) (rv_dist N) * variance (rv_dist x)
       + variance (rv_dist N) * (expectation (rv_dist x) * expectation (rv_dist x)))%Q.
Proof. exact roll_random_moments. Qed.
Print Assumptions C109_random_count.

(** ** Examples *)
Definition six : rv := rv_of (map (fun k => (vint k, 1)) [1; 2; 3; 4; 5; 6]).
Definition loaded : rv := rv_of [(vint (-1), 2); (vint 0, 1); (vint 4, 3)].

Definition moments (r : res rv) : option (Q * Q) :=
  match r with Ok x => Some (Qred (expectation (rv_dist x)), Qred (variance (rv_dist x))) | Err _ => None end.
Definition rolled (r : res obj) : res rv := match r with Ok (ORV x) => Ok x | _ => Err Unmodelled end.

Example C109_dice :
  proper (rv_dist six) /\ int_vals (rv_dist six) /\ proper (rv_dist loaded) /\ int_vals (rv_dist loaded) /\
  total (rv_dist six) * total (rv_dist loaded) <= SUM_LIMIT /\ total (rv_dist six) ^ Z.abs (-3) <= SUM_LIMIT /\
  total (rv_dist six) ^ sumZ (map (fun v => Z.abs (toZ v)) (vals (rv_dist loaded))) * total (rv_dist loaded) <= SUM_LIMIT.
Proof. repeat split; try (repeat constructor; discriminate); try reflexivity; try discriminate. Qed.

Example C109_example :
  moments (Ok six) = Some (7 # 2, 35 # 12)%Q /\ moments (Ok loaded) = Some (5 # 3, 50 # 9)%Q /\
  moments (rv_op default_cfg OAdd (rv_dist six) (rv_dist loaded)) = Some (31 # 6, 305 # 36)%Q /\
  moments (rv_op default_cfg OSub (rv_dist six) (rv_dist loaded)) = Some (11 # 6, 305 # 36)%Q /\
  option_map fst (moments (rv_op default_cfg OMul (rv_dist six) (rv_dist loaded))) = Some (35 # 6)%Q /\
  moments (rolled (roll_after default_cfg [] (oint (-3)) (Some (ORV six)))) = Some (-21 # 2, 35 # 4)%Q /\
  moments (rolled (roll_after default_cfg [] (ORV loaded) (Some (ORV six)))) = Some (35 # 6, 2695 # 36)%Q.
Proof. vm_compute. repeat split. Qed.
