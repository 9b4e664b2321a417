(** Properties C01-C06: building dice with RV(vals, probs). *)
From Coq Require Import String List ZArith QArith Bool Permutation Sorted.
From Verif Require Import PyBase Num Val Sorting RVModel Spec RVFacts ConstructFacts.
Import ListNotations.
Open Scope string_scope.
Open Scope list_scope.
Open Scope Z_scope.

(** [empty_input c vs ps]: no value was given, or every weight is 0 and zero
    weights are to be ignored. *)

Theorem C01_construction_preserves_weights : forall c vs ps d,
  cfg_trunc c = false -> mk_dist c vs ps = Ok d ->
  (empty_input c vs ps -> d = [(vint 0, 1)]) /\
  (~ empty_input c vs ps ->
     (exists g, 0 < g /\ forall v, wt (combine vs ps) v = g * wt d v) /\
     forall v, listed v d =
               if cfg_skip0 c then 0 <? wt (combine vs ps) v else listed v (combine vs ps)).
Proof. exact construct_preserves. Qed.
Print Assumptions C01_construction_preserves_weights.

Example C01_example :
  let vs := [vint 3; VN (NF 1 0); VS (s_str "a"); vint 1; vint 3] in
  let ps := [2; 4; 6; 0; 4] in
  cfg_trunc default_cfg = false /\
  mk_dist default_cfg vs ps = Ok [(VN (NF 1 0), 2); (vint 3, 3); (VS (s_str "a"), 3)] /\
  ~ empty_input default_cfg vs ps.
Proof. repeat split; try reflexivity. intros [H|[H _]]; discriminate. Qed.

Theorem C02_construction_canonical : forall c tr vs ps d,
  mk_dist_tr c tr vs ps = Ok d ->
  d <> [] /\ StronglySorted (fun a b => vltb a b = true) (vals d) /\
  Forall (fun p => 0 <= p) (probs d) /\
  (no_common_factor (probs d) \/ Forall (fun p => p = 0) (probs d)).
Proof. exact construct_canonical. Qed.
Print Assumptions C02_construction_canonical.

(** Proportional weights on the same listed values give the identical die. *)
Theorem C02_construction_unique : forall c vs ps vs' ps' d d' ka kb,
  cfg_trunc c = false -> mk_dist c vs ps = Ok d -> mk_dist c vs' ps' = Ok d' ->
  0 < ka -> 0 < kb ->
  (forall v, ka * wt (combine vs ps) v = kb * wt (combine vs' ps') v) ->
  (forall v, listed v (combine vs ps) = listed v (combine vs' ps')) ->
  Forall2 (fun x y => veqb x y = true) (vals d) (vals d') /\ probs d = probs d'.
Proof. exact construct_unique. Qed.
Print Assumptions C02_construction_unique.

Example C02_example :
  mk_dist default_cfg [vint 2; vint 1; vint 2] [2; 6; 4] = Ok [(vint 1, 1); (vint 2, 1)] /\
  mk_dist default_cfg [vint 1; vint 2] [5; 5] = Ok [(vint 1, 1); (vint 2, 1)] /\
  forall v, 5 * wt (combine [vint 2; vint 1; vint 2] [2; 6; 4]) v
            = 6 * wt (combine [vint 1; vint 2] [5; 5]) v.
Proof.
  split; [reflexivity|]. split; [reflexivity|]. intro v. unfold wt. cbn [combine mass].
  destruct (veqb v (vint 1)), (veqb v (vint 2)); reflexivity.
Qed.

Theorem C03_construction_accepts : forall c tr vs ps,
  (exists d, mk_dist_tr c tr vs ps = Ok d) <->
  length vs = length ps /\ Forall (fun p => 0 <= p) ps /\
  (truncating c tr = true -> all_numbers vs).
Proof. exact construct_accepts. Qed.
Print Assumptions C03_construction_accepts.

Theorem C03_construction_error_kinds : forall c tr vs ps e,
  mk_dist_tr c tr vs ps = Err e -> e = AssertErr \/ e = TypeErr.
Proof. exact construct_error. Qed.
Print Assumptions C03_construction_error_kinds.

Example C03_example :
  mk_dist default_cfg [vint 1; vint 2] [1; -1] = Err AssertErr /\
  mk_dist default_cfg [vint 1] [1; 1] = Err AssertErr /\
  mk_dist_tr default_cfg (Some true) [VS (s_str "a")] [1] = Err TypeErr.
Proof. repeat split. Qed.

Theorem C04_construction_order_irrelevant : forall c vs ps vs' ps' d,
  cfg_trunc c = false -> length vs' = length ps' ->
  Permutation (combine vs ps) (combine vs' ps') ->
  mk_dist c vs ps = Ok d ->
  exists d', mk_dist c vs' ps' = Ok d' /\
    Forall2 (fun x y => veqb x y = true) (vals d) (vals d') /\ probs d = probs d'.
Proof. exact construct_permutation. Qed.
Print Assumptions C04_construction_order_irrelevant.

Example C04_example :
  Permutation (combine [vint 1; vint 2; vint 2] [3; 1; 2]) (combine [vint 2; vint 1; vint 2] [1; 3; 2]) /\
  mk_dist default_cfg [vint 1; vint 2; vint 2] [3; 1; 2] = Ok [(vint 1, 1); (vint 2, 1)].
Proof. split; [apply perm_swap | reflexivity]. Qed.

Theorem C05_dices_are_equal : forall c vs ps vs' ps' d d',
  mk_dist c vs ps = Ok d -> mk_dist c vs' ps' = Ok d' ->
  positive_weights d -> positive_weights d' ->
  (dists_equal d d' = true <-> same_law d d').
Proof. exact dices_equal_iff_constructed. Qed.
Print Assumptions C05_dices_are_equal.

Theorem C05_equivalence :
  (forall d, dists_equal d d = true) /\
  (forall d d', dists_equal d d' = dists_equal d' d) /\
  (forall a b c, dists_equal a b = true -> dists_equal b c = true -> dists_equal a c = true).
Proof. exact (conj dists_equal_refl (conj dists_equal_sym dists_equal_trans)). Qed.
Print Assumptions C05_equivalence.

Example C05_example :
  exists d, mk_dist default_cfg [vint 1; vint 2] [2; 4] = Ok d /\ positive_weights d /\
  exists d', mk_dist default_cfg [vint 2; vint 1; vint 2] [1; 1; 1] = Ok d' /\ positive_weights d' /\
  dists_equal d d' = true.
Proof.
  eexists; split; [reflexivity|]. split; [repeat constructor|].
  eexists; split; [reflexivity|]. split; [repeat constructor | reflexivity].
Qed.

(** [trunc_to k v]: v is a number whose part before the point is k
    (see [C06_trunc_to]). *)
Theorem C06_truncation : forall c tr vs ps d,
  truncating c tr = true -> mk_dist_tr c tr vs ps = Ok d -> ~ empty_input c vs ps ->
  exists g, 0 < g /\ forall k, mass (trunc_to k) (combine vs ps) = g * wt d (vint k).
Proof. exact construct_truncates. Qed.
Print Assumptions C06_truncation.

Theorem C06_truncated_values_are_ints : forall c tr vs ps d,
  truncating c tr = true -> mk_dist_tr c tr vs ps = Ok d -> int_vals d.
Proof. exact construct_truncated_ints. Qed.
Print Assumptions C06_truncated_values_are_ints.

Theorem C06_trunc_to : forall k n, trunc_to k (VN n) = true <-> int_part (numQ n) k.
Proof. exact trunc_to_spec. Qed.
Print Assumptions C06_trunc_to.

(** -1.5, 1.5 and 1 with weights 1, 1, 2 become -1 and 1 with weights 1 and 3 *)
Example C06_example :
  mk_dist_tr default_cfg (Some true) [VN (NF (-3) (-1)); VN (NF 3 (-1)); vint 1] [1; 1; 2]
  = Ok [(vint (-1), 1); (vint 1, 3)].
Proof. reflexivity. Qed.
