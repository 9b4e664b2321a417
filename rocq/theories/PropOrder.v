(** Properties C30-C36: positions of a roll and casting to sequences. *)
From Coq Require Import String List ZArith QArith Qabs Bool Permutation Sorted Lia.
From Verif Require Import PyBase Num Val Sorting RVModel Obj RollModel RollSpec AtModel Spec RVFacts ConstructFacts OpFacts UnaryFacts SelectFacts.
Import ListNotations.
Open Scope Z_scope.

Definition coin : rv := rv_of [(vint 1, 1); (vint 2, 1)].
(** faces 1, 2, 5 with weights 1, 3, 2 *)
Definition odd_die : rv := rv_of [(vint 1, 1); (vint 2, 3); (vint 5, 2)].
Definition lowest_first : cfg := mkCfg false false false 2 10 180.

Lemma odd_die_ok :
  int_vals (rv_dist odd_die) /\ canon (rv_dist odd_die) /\ 0 < total (rv_dist odd_die) /\
  no_dropped default_cfg (rv_dist odd_die) /\ no_dropped lowest_first (rv_dist odd_die).
Proof.
  split; [repeat constructor|]. split; [|split; [reflexivity|split; intro H; discriminate H]].
  split; [|left; reflexivity]. split; [discriminate|]. split; repeat constructor; discriminate.
Qed.

(** ** C30.  [rv_rmatmul c k r] is [k @ r].  [entry k (descending t)]: the k-th
    largest entry of [t]. *)
Theorem C30_roll_position : forall c calls n x k r,
  Forall int_call calls -> int_vals (rv_dist x) -> 2 <= n ->
  roll_after c calls (oint n) (Some (ORV x)) = Ok (ORV r) ->
  cfg_trunc c = false -> canon (rv_dist x) -> 0 < total (rv_dist x) -> no_dropped c (rv_dist x) ->
  1 <= k <= n -> total (rv_dist x) ^ n <= SUM_LIMIT ->
  exists q, rv_rmatmul c (oint k) r = Ok (ORV q) /\
    forall v, (Pr (rv_dist q) v ==
      PrP (fun t => veqb v (if cfg_highest c then entry k (descending t) else entry k (ascending t)))
          (tuples (Z.to_nat n) (rv_dist x)))%Q.
Proof. exact roll_position. Qed.
Print Assumptions C30_roll_position.

(** beyond 10^31, up to the largest double *)
Theorem C30_roll_position_close : forall c calls n x k r,
  Forall int_call calls -> int_vals (rv_dist x) -> 2 <= n ->
  roll_after c calls (oint n) (Some (ORV x)) = Ok (ORV r) ->
  cfg_trunc c = false -> canon (rv_dist x) -> 0 < total (rv_dist x) -> no_dropped c (rv_dist x) ->
  1 <= k <= n -> total (rv_dist x) ^ n < 2 ^ 1024 - 2 ^ 970 -> Z.of_nat (length (rv_dist x)) <= 10 ^ 10 ->
  exists q, rv_rmatmul c (oint k) r = Ok (ORV q) /\
    forall v, (Qabs (Pr (rv_dist q) v -
      PrP (fun t => veqb v (if cfg_highest c then entry k (descending t) else entry k (ascending t)))
          (tuples (Z.to_nat n) (rv_dist x))) <= 1 # 1000000000)%Q.
Proof. exact roll_position_close. Qed.
Print Assumptions C30_roll_position_close.

Theorem C30_outside : forall c calls n x k r,
  Forall int_call calls -> int_vals (rv_dist x) -> 2 <= n ->
  roll_after c calls (oint n) (Some (ORV x)) = Ok (ORV r) ->
  cfg_trunc c = false -> nonneg (rv_dist x) -> ~ 1 <= k <= n -> rv_rmatmul c (oint k) r = Ok (oint 0).
Proof. exact roll_position_outside. Qed.
Print Assumptions C30_outside.

(** one die that was not itself made by rolling *)
Theorem C30_one_die : forall c x,
  cfg_trunc c = false -> rv_roll x = 1 -> rv_src x = None ->
  canon (rv_dist x) -> proper (rv_dist x) -> no_dropped c (rv_dist x) -> total (rv_dist x) <= SUM_LIMIT ->
  exists q, rv_rmatmul c (oint 1) x = Ok (ORV q) /\ same_law (rv_dist q) (rv_dist x).
Proof. exact die_position. Qed.
Print Assumptions C30_one_die.

(** [roll(1, X)] is [X] itself, so with [X = roll(3, d2)] the first of the one die
    is the highest of three coins. *)
Theorem C30_one_rolled_die_refuted : exists x r q,
  roll_after default_cfg [] (oint 3) (Some (ORV coin)) = Ok (ORV x) /\
  roll_after default_cfg [] (oint 1) (Some (ORV x)) = Ok (ORV r) /\
  rv_rmatmul default_cfg (oint 1) r = Ok (ORV q) /\
  ~ same_law (rv_dist q) (rv_dist x).
Proof.
  do 3 eexists. split; [vm_compute; reflexivity|]. split; [vm_compute; reflexivity|]. split; [vm_compute; reflexivity|].
  intro H. specialize (H (vint 2)). vm_compute in H. discriminate H.
Qed.
Print Assumptions C30_one_rolled_die_refuted.

Example C30_example :
  rmap (fun o => match o with ORV r => rv_dist r | _ => [] end)
    (o <- roll_after default_cfg [] (oint 3) (Some (ORV odd_die)) ;;
     match o with ORV r => rv_rmatmul default_cfg (oint 2) r | _ => Err TypeErr end)
  = Ok [(vint 1, 2); (vint 2, 18); (vint 5, 7)] /\
  rmap (fun o => match o with ORV r => rv_dist r | _ => [] end)
    (o <- roll_after lowest_first [] (oint 3) (Some (ORV odd_die)) ;;
     match o with ORV r => rv_rmatmul lowest_first (oint 1) r | _ => Err TypeErr end)
  = Ok [(vint 1, 91); (vint 2, 117); (vint 5, 8)].
Proof. split; reflexivity. Qed.

(** ** C31.  A die produced by [RV([1, 2], [3*10^31 + 1, 3*10^31]) + RV.from_const(0)]:
    the second highest of two is wrong and the highest of two raises. *)
Theorem C31_rescaled_die_refuted : exists a z x r q,
  mk_rv default_cfg [vint 1; vint 2] [3 * 10 ^ 31 + 1; 3 * 10 ^ 31] = Ok a /\
  from_const default_cfg (vint 0) = Ok z /\
  rv_op default_cfg OAdd (rv_dist a) (rv_dist z) = Ok x /\
  roll_after default_cfg [] (oint 2) (Some (ORV x)) = Ok (ORV r) /\
  rv_rmatmul default_cfg (oint 2) r = Ok (ORV q) /\
  ~ (Qabs (Pr (rv_dist q) (vint 2) - PrP (fun t => veqb (vint 2) (entry 2 (descending t))) (tuples 2 (rv_dist x))) <= 1 # 10)%Q /\
  rv_rmatmul default_cfg (oint 1) r = Err AssertErr.
Proof.
  do 5 eexists. split; [vm_compute; reflexivity|]. split; [vm_compute; reflexivity|]. split; [vm_compute; reflexivity|].
  split; [vm_compute; reflexivity|]. split; [vm_compute; reflexivity|]. split; [|vm_compute; reflexivity].
  intro H. vm_compute in H. apply H. reflexivity.
Qed.
Print Assumptions C31_rescaled_die_refuted.

(** ** C32.  [expanded_rolls r]: the sequences a T_S parameter receives, with weights. *)
Theorem C32_expansion : forall c calls n x r,
  Forall int_call calls -> int_vals (rv_dist x) -> 2 <= n ->
  roll_after c calls (oint n) (Some (ORV x)) = Ok (ORV r) -> wf (rv_dist x) ->
  exists L, expanded_rolls r = Ok L /\ NoDup (map fst L) /\
    (forall t, In t (map fst L) <->
       length t = Z.to_nat n /\ Forall (fun a => In a (vals (rv_dist x))) t /\
       StronglySorted (fun a b => vleb b a = true) t) /\
    (forall t w, In (t, w) L -> w = mass (fun u => list_eqb veqb (descending u) t) (tuples (Z.to_nat n) (rv_dist x))) /\
    total L = total (rv_dist x) ^ n.
Proof. exact roll_expanded. Qed.
Print Assumptions C32_expansion.

Theorem C32_general : forall y x,
  rv_die y = x -> strict x -> 0 <= rv_roll y ->
  exists L, expanded_rolls y = Ok L /\ NoDup (map fst L) /\
    (forall t, In t (map fst L) <->
       length t = Z.to_nat (rv_roll y) /\ Forall (fun a => In a (vals x)) t /\
       StronglySorted (fun a b => vleb b a = true) t) /\
    (forall t w, In (t, w) L -> w = mass (fun u => list_eqb veqb (descending u) t) (tuples (Z.to_nat (rv_roll y)) x)) /\
    total L = total x ^ rv_roll y /\
    forall P, mass P L = mass (fun u => P (descending u)) (tuples (Z.to_nat (rv_roll y)) x).
Proof. exact expanded_spec. Qed.
Print Assumptions C32_general.

Example C32_example :
  (o <- roll_after default_cfg [] (oint 2) (Some (ORV odd_die)) ;;
   match o with ORV r => expanded_rolls r | _ => Err TypeErr end)
  = Ok [([vint 5; vint 5], 4); ([vint 5; vint 2], 12); ([vint 5; vint 1], 4);
        ([vint 2; vint 2], 9); ([vint 2; vint 1], 6); ([vint 1; vint 1], 1)].
Proof. reflexivity. Qed.

(** ** C33.  [picked S t]: the sum of the entries of [descending t] at the positions [S]. *)
Theorem C33_select : forall c calls n x S r,
  Forall int_call calls -> int_vals (rv_dist x) -> 2 <= n ->
  roll_after c calls (oint n) (Some (ORV x)) = Ok (ORV r) ->
  cfg_trunc c = false -> wf (rv_dist x) -> 0 < total (rv_dist x) ->
  length S <> 1%nat -> total (rv_dist x) ^ n <= SUM_LIMIT ->
  exists q, rv_rmatmul c (OIter (map oint S)) r = Ok (ORV q) /\
    forall v, (Pr (rv_dist q) v == PrP (fun t => veqb v (picked S t)) (tuples (Z.to_nat n) (rv_dist x)))%Q.
Proof. exact roll_select. Qed.
Print Assumptions C33_select.

(** beyond 10^31, when there are at most 10^10 sorted rolls *)
Theorem C33_select_close : forall c calls n x S r,
  Forall int_call calls -> int_vals (rv_dist x) -> 2 <= n ->
  roll_after c calls (oint n) (Some (ORV x)) = Ok (ORV r) ->
  cfg_trunc c = false -> wf (rv_dist x) -> 0 < total (rv_dist x) ->
  length S <> 1%nat -> total (rv_dist x) ^ n < 2 ^ 1024 - 2 ^ 970 ->
  Z.of_nat (length (cwr (Z.to_nat n) (vals (rv_dist x)))) <= 10 ^ 10 ->
  exists q, rv_rmatmul c (OIter (map oint S)) r = Ok (ORV q) /\
    forall v, (Qabs (Pr (rv_dist q) v - PrP (fun t => veqb v (picked S t)) (tuples (Z.to_nat n) (rv_dist x)))
               <= 1 # 1000000000)%Q.
Proof. exact roll_select_close. Qed.
Print Assumptions C33_select_close.

(** a sequence object selects like the list of its entries *)
Theorem C33_selector_kinds : forall c S x,
  rv_rmatmul c (OSeq (map vint S)) x = rv_rmatmul c (OIter (map oint S)) x /\
  forall k, rv_rmatmul c (OIter [oint k]) x = rv_rmatmul c (oint k) x.
Proof. exact (fun c S x => conj (at_seq c S x) (fun k => at_one c k x)). Qed.
Print Assumptions C33_selector_kinds.

Example C33_example :
  rmap (fun o => match o with ORV r => rv_dist r | _ => [] end)
    (o <- roll_after default_cfg [] (oint 2) (Some (ORV odd_die)) ;;
     match o with ORV r => rv_rmatmul default_cfg (OIter (map oint [1; 1; 7])) r | _ => Err TypeErr end)
  = Ok [(vint 2, 1); (vint 4, 15); (vint 10, 20)] /\
  picked [1; 1; 7] [vint 2; vint 5] = vint 10.
Proof. split; reflexivity. Qed.

(** ** C34 *)
Theorem C34_out_of_range : forall c calls n x k j r,
  Forall int_call calls -> int_vals (rv_dist x) -> 2 <= n ->
  roll_after c calls (oint n) (Some (ORV x)) = Ok (ORV r) ->
  cfg_trunc c = false -> cfg_highest c = true -> canon (rv_dist x) -> 0 < total (rv_dist x) ->
  no_dropped c (rv_dist x) ->
  1 <= k <= n -> ~ 1 <= j <= n -> total (rv_dist x) ^ n <= SUM_LIMIT ->
  exists p q, rv_rmatmul c (oint k) r = Ok (ORV p) /\ rv_rmatmul c (OIter [oint k; oint j]) r = Ok (ORV q) /\
    same_law (rv_dist p) (rv_dist q).
Proof. exact roll_out_of_range. Qed.
Print Assumptions C34_out_of_range.

(** "lowest first": [1 @ 2d2] counts from the lowest, [{1, 9} @ 2d2] from the highest *)
Theorem C34_lowest_first_refuted : exists r p q,
  roll_after lowest_first [] (oint 2) (Some (ORV coin)) = Ok (ORV r) /\
  rv_rmatmul lowest_first (oint 1) r = Ok (ORV p) /\
  rv_rmatmul lowest_first (OIter [oint 1; oint 9]) r = Ok (ORV q) /\
  ~ same_law (rv_dist p) (rv_dist q).
Proof.
  do 3 eexists. split; [vm_compute; reflexivity|]. split; [vm_compute; reflexivity|]. split; [vm_compute; reflexivity|].
  intro H. specialize (H (vint 2)). vm_compute in H. discriminate H.
Qed.
Print Assumptions C34_lowest_first_refuted.

(** ** C35.  [one_to n] is [1; 2; ...; n]. *)
Theorem C35_all_positions : forall c calls n x r,
  Forall int_call calls -> int_vals (rv_dist x) -> 2 <= n ->
  roll_after c calls (oint n) (Some (ORV x)) = Ok (ORV r) ->
  cfg_trunc c = false -> wf (rv_dist x) -> 0 < total (rv_dist x) -> total (rv_dist x) ^ n <= SUM_LIMIT ->
  exists q, rv_rmatmul c (OIter (map oint (one_to n))) r = Ok (ORV q) /\ same_law (rv_dist q) (rv_dist r).
Proof. exact roll_select_all. Qed.
Print Assumptions C35_all_positions.

Example C35_example :
  one_to 3 = [1; 2; 3] /\
  (o <- roll_after default_cfg [] (oint 3) (Some (ORV odd_die)) ;;
   match o with ORV r => rv_rmatmul default_cfg (OIter (map oint (one_to 3))) r | _ => Err TypeErr end)
  = Ok (ORV (rv_of [(vint 3, 1); (vint 4, 9); (vint 5, 27); (vint 6, 27); (vint 7, 6);
                    (vint 8, 36); (vint 9, 54); (vint 11, 12); (vint 12, 36); (vint 15, 8)])).
Proof. split; reflexivity. Qed.

(** ** C36.  [vsumZ t]: the sum of the entries of [t]. *)
Theorem C36_cast_total : forall c calls n x r,
  Forall int_call calls -> int_vals (rv_dist x) -> 2 <= n ->
  roll_after c calls (oint n) (Some (ORV x)) = Ok (ORV r) ->
  cfg_trunc c = false -> wf (rv_dist x) -> 0 < total (rv_dist x) -> total (rv_dist x) ^ n <= SUM_LIMIT ->
  exists L, expanded_rolls r = Ok L /\ forall v, (PrP (fun t => veqb v (vsumZ t)) L == Pr (rv_dist r) v)%Q.
Proof. exact roll_expanded_total. Qed.
Print Assumptions C36_cast_total.

Theorem C36_cast_die : forall x,
  wf (rv_dist x) -> int_vals (rv_dist x) -> rv_roll x = 1 -> rv_src x = None ->
  exists L, expanded_rolls x = Ok L /\ forall v, (PrP (fun t => veqb v (vsumZ t)) L == Pr (rv_dist x) v)%Q.
Proof. exact die_expanded_total. Qed.
Print Assumptions C36_cast_die.

(** one or two coins, each equally likely: cast as a single coin *)
Theorem C36_random_count_refuted : exists r L,
  roll_after default_cfg [] (ORV coin) (Some (ORV coin)) = Ok (ORV r) /\ expanded_rolls r = Ok L /\
  ~ (forall v, (PrP (fun t => veqb v (vsumZ t)) L == Pr (rv_dist r) v)%Q).
Proof.
  do 2 eexists. split; [vm_compute; reflexivity|]. split; [vm_compute; reflexivity|].
  intro H. specialize (H (vint 1)). vm_compute in H. discriminate H.
Qed.
Print Assumptions C36_random_count_refuted.
