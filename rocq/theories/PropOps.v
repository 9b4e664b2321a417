(** Properties C07-C20: operators, means, rescaling, mixtures and reports. *)
From Coq Require Import String List ZArith QArith Qabs Bool Permutation Sorted Lia.
From Verif Require Import PyBase Num Val Sorting RVModel OutModel Spec CmpFacts RVFacts ConstructFacts ConvFacts IntFacts RoundFacts LimitFacts OpFacts UnaryFacts TieFacts MixFacts OutFacts.
Import ListNotations.
Open Scope string_scope.
Open Scope list_scope.
Open Scope Z_scope.

Definition d2 : dist := [(vint 1, 1); (vint 2, 1)].
Definition d3 : dist := [(vint 1, 1); (vint 2, 1); (vint 3, 1)].

(** ** C07.  [proper]: weights >= 0, not all 0.  [yields (vop op a b) z]: the
    Python expression [a op b] evaluates to a value equal to [z].  [indep x y]:
    all pairs with the products of their weights. *)
Theorem C07_binary_operator_law : forall c op x y r,
  cfg_trunc c = false -> proper x -> proper y -> total x * total y <= SUM_LIMIT ->
  rv_op c op x y = Ok r ->
  (forall z, (Pr (rv_dist r) z == PrP (fun ab => yields (vop op (fst ab) (snd ab)) z) (indep x y))%Q) /\
  canon (rv_dist r) /\ proper (rv_dist r) /\ rv_roll r = 1 /\ rv_src r = None.
Proof. exact (fun c op => rv_conv_law c (vop op)). Qed.
Print Assumptions C07_binary_operator_law.

Theorem C07_binary_operator_succeeds : forall c op x y,
  cfg_trunc c = false -> nonneg x -> nonneg y -> total x * total y <= SUM_LIMIT ->
  ((exists r, rv_op c op x y = Ok r) <->
   forall a b, In a (vals x) -> In b (vals y) -> exists v, vop op a b = Ok v).
Proof. exact (fun c op => rv_conv_succeeds c (vop op)). Qed.
Print Assumptions C07_binary_operator_succeeds.

(** Any dictionary that only merges keys that are equal gives the same die. *)
Theorem C07_storage_of_keys_irrelevant : forall c same op x y m,
  (forall a b, same a b = true -> veqb a b = true) -> nonneg x -> nonneg y ->
  conv_by same (vop op) x y = Ok m ->
  exists m', fast_convolve (vop op) x y = Ok m' /\
    Forall2 (fun a b => veqb a b = true) (vals (normal c m)) (vals (normal c m')) /\
    probs (normal c m) = probs (normal c m').
Proof. exact (fun c same op => conv_any_dict c same (vop op)). Qed.
Print Assumptions C07_storage_of_keys_irrelevant.

(** What the operators are on two integers.  Python makes a float of an integer to a
    negative power, of which the model says nothing. *)
Theorem C07_integers : forall op a b,
  let r := vop op (vint a) (vint b) in
  match op with
  | OAdd => r = Ok (vint (a + b))
  | OSub => r = Ok (vint (a - b))
  | OMul => r = Ok (vint (a * b))
  | OFloorDiv | OMod =>
      (b = 0 -> r = Err ZeroDivErr) /\
      (b <> 0 -> exists quotient rest, a = b * quotient + rest /\ (0 <= rest < b \/ b < rest <= 0) /\
                   r = Ok (vint (if match op with OMod => true | _ => false end then rest else quotient)))
  | OTrueDiv =>
      (b = 0 -> r = Err ZeroDivErr) /\
      (b <> 0 -> (exists x, r = Ok (VN x) /\ is_int x = false /\ nearest_double (inject_Z a / inject_Z b) (numQ x)) \/
                 (r = Err OverflowErr /\ (inject_Z (2 ^ 1024 - 2 ^ 970) <= Qabs (inject_Z a / inject_Z b))%Q))
  | OPow =>
      (0 <= b -> r = Ok (vint (a ^ b))) /\
      (b < 0 -> a = 0 -> r = Err ZeroDivErr) /\
      (b < 0 -> forall v, r <> Ok v)
  | OEq => r = Ok (vint (if a =? b then 1 else 0))
  | ONe => r = Ok (vint (if a =? b then 0 else 1))
  | OLt => r = Ok (vint (if a <? b then 1 else 0))
  | OLe => r = Ok (vint (if a <=? b then 1 else 0))
  | OGt => r = Ok (vint (if b <? a then 1 else 0))
  | OGe => r = Ok (vint (if b <=? a then 1 else 0))
  | OOr => r = Ok (vint (if (a =? 0) && (b =? 0) then 0 else 1))
  | OAnd => r = Ok (vint (if (a =? 0) || (b =? 0) then 0 else 1))
  end.
Proof.
  intros op a b. cbv zeta.
  assert (VC : vcmp (vint a) (vint b) = (a ?= b) /\ vcmp (vint b) (vint a) = (b ?= a)) by (split; apply CmpFacts.vcmp_int).
  destruct VC as [V1 V2].
  destruct op; cbn [vop num_op vint rmap bind].
  - reflexivity.
  - reflexivity.
  - reflexivity.
  - split.
    + intros ->. reflexivity.
    + intros H. exists (a / b), (a mod b). split; [apply Z.div_mod; exact H|]. split.
      * destruct (Z.lt_total 0 b) as [P|[P|P]]; [left; apply Z.mod_pos_bound; exact P|lia|right; apply Z.mod_neg_bound; exact P].
      * unfold nfloordiv. cbn [mant]. rewrite (proj2 (Z.eqb_neq b 0) H). reflexivity.
  - split.
    + intros ->. reflexivity.
    + intros H. unfold ntruediv. cbn [mant]. rewrite (proj2 (Z.eqb_neq b 0) H). pose proof (fround_spec a b OverflowErr H) as F.
      destruct (fround a b OverflowErr) as [x|e].
      * left. exists x. split; [reflexivity|]. split; apply F.
      * right. destruct F as [-> F]. split; [reflexivity|exact F].
  - unfold npow. split; [|split].
    + intros H. rewrite (proj2 (Z.leb_le 0 b) H). reflexivity.
    + intros H ->. rewrite (proj2 (Z.leb_gt 0 b) H). reflexivity.
    + intros H v. rewrite (proj2 (Z.leb_gt 0 b) H). destruct (a =? 0); discriminate.
  - split.
    + intros ->. reflexivity.
    + intros H. exists (a / b), (a mod b). split; [apply Z.div_mod; exact H|]. split.
      * destruct (Z.lt_total 0 b) as [P|[P|P]]; [left; apply Z.mod_pos_bound; exact P|lia|right; apply Z.mod_neg_bound; exact P].
      * unfold nmod. cbn [mant]. rewrite (proj2 (Z.eqb_neq b 0) H). reflexivity.
  - unfold veqb. fold (vint a) (vint b). rewrite V1. unfold b01. rewrite Z.eqb_compare. destruct (a ?= b); reflexivity.
  - unfold veqb. fold (vint a) (vint b). rewrite V1. unfold b01. rewrite Z.eqb_compare. destruct (a ?= b); reflexivity.
  - unfold vltb. fold (vint a) (vint b). rewrite V1. unfold b01, Z.ltb. destruct (a ?= b); reflexivity.
  - unfold vleb. fold (vint a) (vint b). rewrite V1. unfold b01, Z.leb. destruct (a ?= b); reflexivity.
  - unfold vltb. fold (vint a) (vint b). rewrite V2. unfold b01, Z.ltb. destruct (b ?= a); reflexivity.
  - unfold vleb. fold (vint a) (vint b). rewrite V2. unfold b01, Z.leb. destruct (b ?= a); reflexivity.
  - unfold vtruth, ntruth, vint. cbn [mant]. destruct (a =? 0), (b =? 0); reflexivity.
  - unfold vtruth, ntruth, vint. cbn [mant]. destruct (a =? 0), (b =? 0); reflexivity.
Qed.
Print Assumptions C07_integers.

Example C07_example :
  cfg_trunc default_cfg = false /\ proper d2 /\ proper d3 /\ total d2 * total d3 <= SUM_LIMIT /\
  rmap rv_dist (rv_op default_cfg OMul d2 d3)
  = Ok [(vint 1, 1); (vint 2, 2); (vint 3, 1); (vint 4, 1); (vint 6, 1)].
Proof. repeat split; try reflexivity; try (repeat constructor; discriminate); discriminate. Qed.

(** ** C08 *)
Theorem C08_die_op_constant : forall c op x v r,
  cfg_trunc c = false -> proper x -> rv_op_const c op x v = Ok r ->
  (forall z, (Pr (rv_dist r) z == PrP (fun a => yields (vop op a v) z) x)%Q) /\
  canon (rv_dist r) /\ proper (rv_dist r) /\ rv_roll r = 1 /\ rv_src r = None.
Proof. exact (fun c op x v => rv_map_law c (fun a => vop op a v) x). Qed.
Print Assumptions C08_die_op_constant.

Theorem C08_constant_op_die : forall c op v x r,
  cfg_trunc c = false -> proper x -> const_op_rv c op v x = Ok r ->
  (forall z, (Pr (rv_dist r) z == PrP (fun a => yields (vop op v a) z) x)%Q) /\
  canon (rv_dist r) /\ proper (rv_dist r) /\ rv_roll r = 1 /\ rv_src r = None.
Proof. exact (fun c op v x => rv_map_law c (fun a => vop op v a) x). Qed.
Print Assumptions C08_constant_op_die.

Theorem C08_succeeds : forall c op x v,
  cfg_trunc c = false -> nonneg x ->
  ((exists r, rv_op_const c op x v = Ok r) <-> forall a, In a (vals x) -> exists u, vop op a v = Ok u) /\
  ((exists r, const_op_rv c op v x = Ok r) <-> forall a, In a (vals x) -> exists u, vop op v a = Ok u).
Proof.
  exact (fun c op x v Ht Hn => conj (rv_map_succeeds c (fun a => vop op a v) x Ht Hn)
                                    (rv_map_succeeds c (fun a => vop op v a) x Ht Hn)).
Qed.
Print Assumptions C08_succeeds.

Example C08_example :
  proper d3 /\
  rmap rv_dist (rv_op_const default_cfg OSub d3 (vint 10)) = Ok [(vint (-9), 1); (vint (-8), 1); (vint (-7), 1)] /\
  rmap rv_dist (const_op_rv default_cfg OSub (vint 10) d3) = Ok [(vint 7, 1); (vint 8, 1); (vint 9, 1)] /\
  const_op_rv default_cfg OFloorDiv (vint 1) [(vint 0, 1); (vint 1, 1)] = Err ZeroDivErr.
Proof. repeat split; try reflexivity; try (repeat constructor; discriminate). Qed.

(** ** C09 *)
Theorem C09_comparison_is_indicator : forall c op x y r,
  is_rel op = true -> cfg_trunc c = false -> proper x -> proper y -> total x * total y <= SUM_LIMIT ->
  rv_op c op x y = Ok r ->
  (Pr (rv_dist r) (vint 1) == PrP (fun ab => rel_holds op (fst ab) (snd ab)) (indep x y))%Q /\
  (Pr (rv_dist r) (vint 0) == PrP (fun ab => negb (rel_holds op (fst ab) (snd ab))) (indep x y))%Q /\
  (forall z, veqb z (vint 0) = false -> veqb z (vint 1) = false -> listed z (rv_dist r) = false).
Proof. exact compare_indicator. Qed.
Print Assumptions C09_comparison_is_indicator.

Theorem C09_complementary : forall c op x y r r',
  is_rel op = true -> cfg_trunc c = false -> proper x -> proper y -> total x * total y <= SUM_LIMIT ->
  rv_op c op x y = Ok r -> rv_op c (complement op) x y = Ok r' ->
  (Pr (rv_dist r) (vint 1) == Pr (rv_dist r') (vint 0))%Q /\
  (Pr (rv_dist r) (vint 0) == Pr (rv_dist r') (vint 1))%Q /\
  (Pr (rv_dist r) (vint 1) + Pr (rv_dist r') (vint 1) == 1)%Q.
Proof. exact compare_complement. Qed.
Print Assumptions C09_complementary.

Theorem C09_trichotomy : forall c x y lt eq gt,
  cfg_trunc c = false -> proper x -> proper y -> total x * total y <= SUM_LIMIT ->
  rv_op c OLt x y = Ok lt -> rv_op c OEq x y = Ok eq -> rv_op c OGt x y = Ok gt ->
  (Pr (rv_dist lt) (vint 1) + Pr (rv_dist eq) (vint 1) + Pr (rv_dist gt) (vint 1) == 1)%Q.
Proof. exact compare_trichotomy. Qed.
Print Assumptions C09_trichotomy.

Theorem C09_comparison_never_fails : forall c op x y,
  is_rel op = true -> cfg_trunc c = false -> nonneg x -> nonneg y ->
  total x * total y <= SUM_LIMIT -> exists r, rv_op c op x y = Ok r.
Proof. exact compare_total. Qed.
Print Assumptions C09_comparison_never_fails.

Example C09_example :
  let lab := [(vint 2, 1); (VS (s_str "a"), 2)] in
  proper lab /\
  rmap rv_dist (rv_op default_cfg OLt d3 lab) = Ok [(vint 0, 2); (vint 1, 7)] /\
  rmap rv_dist (rv_op default_cfg OGe d3 lab) = Ok [(vint 0, 7); (vint 1, 2)] /\
  rmap rv_dist (rv_op default_cfg OEq d3 lab) = Ok [(vint 0, 8); (vint 1, 1)].
Proof. repeat split; try reflexivity; try (repeat constructor; discriminate). Qed.

(** ** C10 *)
Theorem C10_addition_commutes : forall c x y,
  cfg_trunc c = false -> nonneg x -> nonneg y -> int_vals x -> int_vals y ->
  rv_op c OAdd x y = rv_op c OAdd y x.
Proof. exact add_comm. Qed.
Print Assumptions C10_addition_commutes.

Theorem C10_addition_associates : forall c x y z xy yz r r',
  cfg_trunc c = false -> proper x -> proper y -> proper z -> int_vals x -> int_vals y -> int_vals z ->
  total x * total y * total z <= SUM_LIMIT ->
  rv_op c OAdd x y = Ok xy -> rv_op c OAdd (rv_dist xy) z = Ok r ->
  rv_op c OAdd y z = Ok yz -> rv_op c OAdd x (rv_dist yz) = Ok r' ->
  rv_dist r = rv_dist r'.
Proof. exact add_assoc. Qed.
Print Assumptions C10_addition_associates.

(** Any constructed die is canonical (C02) and [no_dropped] (C01). *)
Theorem C10_zero_is_neutral : forall c x,
  cfg_trunc c = false -> canon x -> no_dropped c x -> int_vals x ->
  rv_op_const c OAdd x (vint 0) = Ok (rv_of x) /\ const_op_rv c OAdd (vint 0) x = Ok (rv_of x).
Proof. exact add_zero. Qed.
Print Assumptions C10_zero_is_neutral.

Example C10_example :
  nonneg d2 /\ int_vals d2 /\ canon d3 /\ no_dropped default_cfg d3 /\
  rmap rv_dist (rv_op default_cfg OAdd d2 d3) = Ok [(vint 2, 1); (vint 3, 2); (vint 4, 2); (vint 5, 1)].
Proof.
  repeat split; try reflexivity; try (repeat constructor; discriminate); try discriminate; try (left; reflexivity).
Qed.

(** ** C11.  [expectation]: exact; [nearest_double]: correct rounding. *)
Theorem C11_mean_correctly_rounded : forall x, int_vals x -> nonneg x ->
  (rv_mean x = Ok None <-> Forall (fun e => snd e = 0) x) /\
  (forall m, rv_mean x = Ok (Some m) -> is_int m = false /\ nearest_double (expectation x) (numQ m)) /\
  (forall e, rv_mean x = Err e -> e = OverflowErr /\ (inject_Z (2 ^ 1024 - 2 ^ 970) <= Qabs (expectation x))%Q).
Proof. exact mean_correct. Qed.
Print Assumptions C11_mean_correctly_rounded.

Theorem C11_mean_ties_to_even : forall x m, int_vals x -> rv_mean x = Ok (Some m) ->
  ties_to_even (expectation x) (numQ m).
Proof. exact mean_tie. Qed.
Print Assumptions C11_mean_ties_to_even.

Theorem C11_expectation_additive : forall c x y r,
  cfg_trunc c = false -> proper x -> proper y -> int_vals x -> int_vals y ->
  total x * total y <= SUM_LIMIT -> rv_op c OAdd x y = Ok r ->
  (expectation (rv_dist r) == expectation x + expectation y)%Q.
Proof. exact mean_add. Qed.
Print Assumptions C11_expectation_additive.

Theorem C11_expectation_linear : forall c k x r,
  cfg_trunc c = false -> proper x -> int_vals x ->
  (rv_op_const c OMul x (vint k) = Ok r -> (expectation (rv_dist r) == inject_Z k * expectation x)%Q) /\
  (rv_op_const c OAdd x (vint k) = Ok r -> (expectation (rv_dist r) == expectation x + inject_Z k)%Q) /\
  (rv_neg c x = Ok r -> (expectation (rv_dist r) == - expectation x)%Q).
Proof.
  exact (fun c k x r Ht Hp Hi => conj (mean_scale c k x r Ht Hp Hi)
          (conj (mean_shift c k x r Ht Hp Hi) (mean_neg c x r Ht Hp Hi))).
Qed.
Print Assumptions C11_expectation_linear.

Example C11_example :
  int_vals d2 /\ nonneg d2 /\ rv_mean d2 = Ok (Some (NF 3 (-1))) /\ (expectation d2 == 3 # 2)%Q /\
  rv_mean [(vint 5, 0)] = Ok None.
Proof. repeat split; try reflexivity; try (repeat constructor; discriminate). Qed.

(** ** C12 *)
Theorem C12_negation : forall c x r,
  cfg_trunc c = false -> proper x -> int_vals x -> rv_neg c x = Ok r ->
  int_vals (rv_dist r) /\ forall k, (Pr (rv_dist r) (vint k) == Pr x (vint (- k)))%Q.
Proof. exact neg_law. Qed.
Print Assumptions C12_negation.

Theorem C12_negation_involutive : forall c x r r',
  cfg_trunc c = false -> canon x -> no_dropped c x -> int_vals x ->
  rv_neg c x = Ok r -> rv_neg c (rv_dist r) = Ok r' -> rv_dist r' = x.
Proof. exact neg_involutive. Qed.
Print Assumptions C12_negation_involutive.

Theorem C12_absolute_value : forall c x r,
  cfg_trunc c = false -> proper x -> rv_abs c x = Ok r ->
  forall z P, (forall n, P (VN n) = true <-> (Qabs (numQ n) == numQ z)%Q) ->
    (Pr (rv_dist r) (VN z) == PrP P x)%Q.
Proof. exact abs_num_law. Qed.
Print Assumptions C12_absolute_value.

Theorem C12_floor : forall c x r, cfg_trunc c = false -> proper x -> rv_floor c x = Ok r ->
  int_vals (rv_dist r) /\
  forall k P, (forall n, P (VN n) = true <-> (inject_Z k <= numQ n /\ numQ n < inject_Z (k + 1))%Q) ->
    (Pr (rv_dist r) (vint k) == PrP P x)%Q.
Proof. exact floor_law. Qed.
Print Assumptions C12_floor.

Theorem C12_ceil : forall c x r, cfg_trunc c = false -> proper x -> rv_ceil c x = Ok r ->
  int_vals (rv_dist r) /\
  forall k P, (forall n, P (VN n) = true <-> (numQ n <= inject_Z k /\ inject_Z (k - 1) < numQ n)%Q) ->
    (Pr (rv_dist r) (vint k) == PrP P x)%Q.
Proof. exact ceil_law. Qed.
Print Assumptions C12_ceil.

Theorem C12_trunc : forall c x r, cfg_trunc c = false -> proper x -> rv_trunc c x = Ok r ->
  int_vals (rv_dist r) /\
  forall k P, (forall n, P (VN n) = true <-> int_part (numQ n) k) -> (Pr (rv_dist r) (vint k) == PrP P x)%Q.
Proof. exact trunc_law. Qed.
Print Assumptions C12_trunc.

Theorem C12_unary_never_fail_on_numbers : forall c x,
  cfg_trunc c = false -> nonneg x -> all_numbers (vals x) ->
  (exists r, rv_abs c x = Ok r) /\ (exists r, rv_floor c x = Ok r) /\
  (exists r, rv_ceil c x = Ok r) /\ (exists r, rv_trunc c x = Ok r).
Proof. exact unary_succeed. Qed.
Print Assumptions C12_unary_never_fail_on_numbers.

Theorem C12_inversion : forall c x, cfg_trunc c = false -> canon x ->
  rv_invert c x = Ok (rv_of [(vint (if dists_equal x [(vint 0, 1)] then 1 else 0), 1)]).
Proof. exact invert_law. Qed.
Print Assumptions C12_inversion.

Example C12_example :
  let h := [(VN (NF (-3) (-1)), 1); (VN (NF 3 (-1)), 2)] in
  proper h /\ all_numbers (vals h) /\
  rmap rv_dist (rv_floor default_cfg h) = Ok [(vint (-2), 1); (vint 1, 2)] /\
  rmap rv_dist (rv_ceil default_cfg h) = Ok [(vint (-1), 1); (vint 2, 2)] /\
  rmap rv_dist (rv_trunc default_cfg h) = Ok [(vint (-1), 1); (vint 1, 2)] /\
  rmap rv_dist (rv_abs default_cfg h) = Ok [(VN (NF 3 (-1)), 1)] /\
  rmap rv_dist (rv_neg default_cfg d3) = Ok [(vint (-3), 1); (vint (-2), 1); (vint (-1), 1)].
Proof. repeat split; try reflexivity; try (repeat constructor; discriminate);
  repeat (apply Forall_cons || apply Forall_nil); eexists; reflexivity.
Qed.

(** ** C13.  SUM_LIMIT is the double 10e30. *)
Theorem C13_exact_below_limit : forall d, total d <= SUM_LIMIT -> prob_limit d = Ok d.
Proof. exact prob_limit_id. Qed.
Print Assumptions C13_exact_below_limit.

(** the double nearest to 10^31: 53 bits, and at most half a unit of the last place away *)
Theorem C13_limit : exists m e, 2 ^ 52 <= m < 2 ^ 53 /\ SUM_LIMIT = m * 2 ^ e /\ 0 <= e /\ 2 * Z.abs (SUM_LIMIT - 10 ^ 31) <= 2 ^ e.
Proof. exists (4 * 2220446049250313), 50. vm_compute. intuition congruence. Qed.
Print Assumptions C13_limit.

Theorem C13_one_divisor_above_limit : forall d d', prob_limit d = Ok d' ->
  (total d <= SUM_LIMIT /\ d' = d) \/
  (SUM_LIMIT < total d /\ exists k, 1 < k /\ 4 * 10 ^ 19 * k <= total d /\
     d' = map (fun vp => (fst vp, snd vp / k)) d).
Proof. exact prob_limit_cases. Qed.
Print Assumptions C13_one_divisor_above_limit.

(** n*k/(total - n*k) is n/(T-n) with T = total/k *)
Theorem C13_error_of_rescaling : forall d k v, nonneg d -> 0 < k ->
  let n := Z.of_nat (length d) in n * k < total d ->
  (Qabs (Pr (map (fun vp => (fst vp, (snd vp / k)%Z)) d) v - Pr d v) <= inject_Z (n * k) / inject_Z (total d - n * k))%Q.
Proof. exact rescale_error. Qed.
Print Assumptions C13_error_of_rescaling.

(** The library never runs into its own limit: operations on dice within the
    limit succeed whenever the operation itself does, and stay within the limit. *)
Theorem C13_closed_under_operations : forall c op x y, cfg_trunc c = false -> nonneg x -> nonneg y ->
  total x <= SUM_LIMIT -> total y <= SUM_LIMIT ->
  (forall a b, In a (vals x) -> In b (vals y) -> exists v, vop op a b = Ok v) ->
  exists r, rv_op c op x y = Ok r /\ nonneg (rv_dist r) /\ total (rv_dist r) <= SUM_LIMIT.
Proof. exact (fun c op => rv_conv_closed c (vop op)). Qed.
Print Assumptions C13_closed_under_operations.

Theorem C13_error_below_1e_9 : forall d d' v,
  nonneg d -> Z.of_nat (length d) <= 10 ^ 10 -> prob_limit d = Ok d' ->
  (Qabs (Pr d' v - Pr d v) <= 1 # 1000000000)%Q.
Proof. exact limit_error. Qed.
Print Assumptions C13_error_below_1e_9.

Theorem C13_fails_only_on_float_overflow : forall d,
  (total d < 2 ^ 1024 - 2 ^ 970 -> exists d', prob_limit d = Ok d') /\
  (forall e, prob_limit d = Err e -> e = OverflowErr /\ 2 ^ 1024 - 2 ^ 970 <= total d).
Proof. exact (fun d => conj (prob_limit_ok d) (prob_limit_err d)). Qed.
Print Assumptions C13_fails_only_on_float_overflow.

(** Hence an operator result is always within 1e-9 of the exact law, whatever
    the total weight. *)
Theorem C13_operators_close_at_any_weight : forall c op x y r,
  cfg_trunc c = false -> proper x -> proper y ->
  Z.of_nat (length x) * Z.of_nat (length y) <= 10 ^ 10 ->
  rv_op c op x y = Ok r ->
  forall z, (Qabs (Pr (rv_dist r) z - PrP (fun ab => yields (vop op (fst ab) (snd ab)) z) (indep x y))
             <= 1 # 1000000000)%Q.
Proof. exact (fun c op => rv_conv_close c (vop op)). Qed.
Print Assumptions C13_operators_close_at_any_weight.

Definition heavy : dist := [(vint 1, 10 ^ 40); (vint 2, 10 ^ 40 + 1)].
Example C13_example :
  proper heavy /\ proper d2 /\ Z.of_nat (length d2) * Z.of_nat (length heavy) <= 10 ^ 10 /\
  SUM_LIMIT < total heavy /\
  rmap rv_dist (rv_op default_cfg OAdd d2 heavy)
  = Ok [(vint 2, 25000000000000000000); (vint 3, 50000000000000000000); (vint 4, 25000000000000000000)].
Proof.
  repeat split; try (repeat (apply Forall_cons; [vm_compute; discriminate|]); apply Forall_nil);
    vm_compute; (reflexivity || discriminate).
Qed.

(** ** C14.  The warning claims an error of at most 1/(sum/const - 1). *)
Theorem C14_logged_error_bound_refuted :
  exists vs ps x r k v,
    mk_rv default_cfg vs ps = Ok x /\
    from_rvs default_cfg [MxRV x] [1] = Ok (Some r) /\
    limit_const (total (rv_dist x)) = Ok k /\
    (1 / (inject_Z (total (rv_dist x)) / inject_Z k - 1)
       < Qabs (Pr (rv_dist r) v - Pr (rv_dist x) v))%Q.
Proof.
  exists [vint 1; vint 2; vint 3], [10 ^ 11 - 1; 10 ^ 11 - 1; 10 ^ 31].
  do 2 eexists. exists (10 ^ 11), (vint 3).
  split; [vm_compute; reflexivity|]. split; [vm_compute; reflexivity|]. split; vm_compute; reflexivity.
Qed.
Print Assumptions C14_logged_error_bound_refuted.

(** ** C15.  [components l ws]: the non-blank entries with their weights, a
    number standing for the die with that single outcome; [mixture v cs] is
    (sum_i w_i P_i(v)) / (sum_i w_i); [good]: weight >= 0 and a proper die. *)
Theorem C15_merge_is_mixture : forall c l ws r,
  cfg_trunc c = false -> length l = length ws -> Forall good (components l ws) ->
  0 < wtotal (components l ws) ->
  denominators (components l ws) * wtotal (components l ws) <= SUM_LIMIT ->
  from_rvs c l ws = Ok r ->
  exists x, r = Some x /\ rv_roll x = 1 /\ rv_src x = None /\ canon (rv_dist x) /\ proper (rv_dist x) /\
    forall v, (Pr (rv_dist x) v == mixture v (components l ws))%Q.
Proof. exact from_rvs_below. Qed.
Print Assumptions C15_merge_is_mixture.

Theorem C15_merge_close_at_any_weight : forall c l ws x,
  cfg_trunc c = false -> length l = length ws -> Forall good (components l ws) ->
  0 < wtotal (components l ws) ->
  Z.of_nat (length (mix_list (components l ws))) <= 10 ^ 10 ->
  from_rvs c l ws = Ok (Some x) ->
  forall v, (Qabs (Pr (rv_dist x) v - mixture v (components l ws)) <= 1 # 1000000000)%Q.
Proof. exact from_rvs_close. Qed.
Print Assumptions C15_merge_close_at_any_weight.

Theorem C15_merge_of_blanks : forall c l ws, length l = length ws ->
  (components l ws = [] <-> Forall (fun m => m = MxBlank) l) /\
  (Forall (fun m => m = MxBlank) l -> from_rvs c l ws = Ok None).
Proof. exact from_rvs_blank. Qed.
Print Assumptions C15_merge_of_blanks.

Theorem C15_merge_succeeds : forall c l ws,
  cfg_trunc c = false -> length l = length ws -> Forall good (components l ws) ->
  denominators (components l ws) * wtotal (components l ws) < 2 ^ 1024 - 2 ^ 970 ->
  exists r, from_rvs c l ws = Ok r.
Proof. exact from_rvs_succeeds. Qed.
Print Assumptions C15_merge_succeeds.

Example C15_example :
  let l := [MxRV (rv_of d2); MxBlank; MxVal (vint 7); MxRV (rv_of d3)] in let ws := [1; 5; 2; 3] in
  length l = length ws /\ Forall good (components l ws) /\ 0 < wtotal (components l ws) /\
  denominators (components l ws) * wtotal (components l ws) <= SUM_LIMIT /\
  rmap (option_map rv_dist) (from_rvs default_cfg l ws)
  = Ok (Some [(vint 1, 3); (vint 2, 3); (vint 3, 2); (vint 7, 4)]) /\
  (mixture (vint 1) (components l ws) == 1 # 4)%Q.
Proof.
  repeat split; try reflexivity; try discriminate.
  repeat constructor; try discriminate.
Qed.

(** ** C16.  All eleven dice are valid, with totals below the limit. *)
Theorem C16_merge_always_succeeds_refuted :
  exists l ws,
    length l = length ws /\ Forall good (components l ws) /\
    Forall (fun wd => total (snd wd) <= SUM_LIMIT /\ canon (snd wd)) (components l ws) /\
    from_rvs default_cfg l ws = Err OverflowErr.
Proof.
  exists (map (fun i => MxRV (rv_of [(vint 0, 1); (vint i, 10 ^ 30 + i)])) [1; 2; 3; 4; 5; 6; 7; 8; 9; 10; 11]),
         [1; 1; 1; 1; 1; 1; 1; 1; 1; 1; 1].
  split; [reflexivity|]. split; [|split].
  - repeat constructor; discriminate.
  - cbn [map components mx_law rv_dist rv_of].
    repeat (apply Forall_cons; [cbn [snd]; split; [vm_compute; discriminate|]; split; [|left; vm_compute; reflexivity];
      split; [discriminate|]; split; [repeat constructor|];
      repeat (apply Forall_cons; [vm_compute; discriminate|]); apply Forall_nil|]).
    apply Forall_nil.
  - vm_compute. reflexivity.
Qed.
Print Assumptions C16_merge_always_succeeds_refuted.

(** ** C17.  The weights of the cdf are proportional to the weight of the
    outcomes <= v, which is monotone and ends with the total. *)
Theorem C17_cdf_is_running_total : forall c x,
  cfg_trunc c = false -> cfg_skip0 c = false -> wf x -> 0 < total x ->
  exists g d, get_cdf c x = Ok d /\ 0 < g /\ vals d = vals x /\
    forall v, listed v x = true -> mass (fun y => vleb y v) x = g * wt d v.
Proof. exact get_cdf_spec. Qed.
Print Assumptions C17_cdf_is_running_total.

Theorem C17_cdf_monotone : forall x a b,
  nonneg x -> vleb a b = true -> mass (fun y => vleb y a) x <= mass (fun y => vleb y b) x.
Proof. exact cdf_monotone. Qed.
Print Assumptions C17_cdf_monotone.

Theorem C17_cdf_ends_with_total : forall x,
  x <> [] -> strict x -> mass (fun y => vleb y (last (vals x) (vint 0))) x = total x.
Proof. exact last_is_max. Qed.
Print Assumptions C17_cdf_ends_with_total.

Example C17_example :
  wf d3 /\ get_cdf default_cfg d3 = Ok [(vint 1, 1); (vint 2, 2); (vint 3, 3)].
Proof. repeat split; try discriminate; repeat constructor; discriminate. Qed.

(** ** C18.  [among vs v]: v equals a value of vs; [plain]: numbers and labels
    with one key (for sums of labels see C60). *)
Theorem C18_filter_conditions : forall c x vs,
  cfg_trunc c = false -> nonneg x -> Forall plain vs -> Forall plain (vals x) ->
  exists r, rv_filter c x vs = Ok r /\ canon (rv_dist r) /\
    (0 < mass (fun v => negb (among vs v)) x ->
       forall v, (Pr (rv_dist r) v ==
                  if among vs v then 0
                  else inject_Z (wt x v) / inject_Z (mass (fun v => negb (among vs v)) x))%Q) /\
    (cfg_skip0 c = false -> (exists v, listed v x = true /\ among vs v = false) ->
       forall v, listed v (rv_dist r) = listed v x && negb (among vs v)) /\
    ((forall v, listed v x = true -> among vs v = true) -> rv_dist r = [(vint 0, 1)]).
Proof. exact rv_filter_law. Qed.
Print Assumptions C18_filter_conditions.

Example C18_example :
  Forall plain (vals d3) /\ Forall plain [vint 2; VN (NF 3 0)] /\
  rmap rv_dist (rv_filter default_cfg d3 [vint 2; VN (NF 3 0)]) = Ok [(vint 1, 1)] /\
  rmap rv_dist (rv_filter default_cfg [(vint 1, 2); (vint 2, 1); (vint 3, 4)] [vint 2]) = Ok [(vint 1, 1); (vint 3, 2)].
Proof. repeat split; repeat constructor. Qed.

(** ** C19.  [show] is how labels are printed.  Each entry of the report is the
    shown outcome with the double nearest to weight/total. *)
Theorem C19_report_lists_every_outcome : forall show x cut,
  proper x -> nltb (NI 0) cut = false -> nleb (NI 0) cut = true ->
  exists l, get_vals_probs show x cut = Ok l /\
    Forall2 (fun e r => fst r = show_val show (fst e) /\ is_int (snd r) = false /\
                        nearest_double (inject_Z (snd e) / inject_Z (total x)) (numQ (snd r))) x l.
Proof. exact report_all. Qed.
Print Assumptions C19_report_lists_every_outcome.

Theorem C19_exact_probabilities_add_to_one : forall x : dist, 0 < total x ->
  (fold_right Qplus 0 (map (fun e : pval * Z => inject_Z (snd e) / inject_Z (total x)) x) == 1)%Q.
Proof. exact shares_add_up. Qed.
Print Assumptions C19_exact_probabilities_add_to_one.

Example C19_example :
  proper [(vint 1, 1); (VS (s_str "a"), 3)] /\
  get_vals_probs (fun s => match s with (k, _) :: _ => k | [] => "" end) [(vint 1, 1); (VS (s_str "a"), 3)] (NI 0)
  = Ok [(ShN (NI 1), NF 1 (-2)); (ShS "a", NF 3 (-2))].
Proof. repeat split; repeat constructor; discriminate. Qed.

(** ** C20.  [gone] is a set of least likely outcomes, of total probability
    below the cut, to which no further outcome could be added; all up to
    SLACK x = (2n+2) * 2^-50 for float rounding, n the number of outcomes.
    For variables of which 0 is no outcome: nothing else is removed. *)
Theorem C20_cut : forall show x cut,
  wf x -> 0 < total x -> distinct_text show x ->
  (forall e, In e x -> veqb (fst e) (vint 0) = false) -> (0 < numQ cut < 1)%Q -> Z.of_nat (length x) < 2 ^ 40 ->
  exists out gone,
    get_vals_probs show x cut = Ok out /\
    Forall2 (fun e r => fst r = show_val show (fst e) /\ is_int (snd r) = false /\
                        nearest_double (inject_Z (snd e) / inject_Z (total x)) (numQ (snd r)))
            (filter (fun e => negb (gone (fst e))) x) out /\
    (PrP gone x < numQ cut + SLACK x)%Q /\
    (forall e, In e x -> gone (fst e) = false ->
       (numQ cut - SLACK x <= PrP gone x + inject_Z (snd e) / inject_Z (total x))%Q) /\
    (forall e e', In e x -> In e' x -> gone (fst e) = true -> gone (fst e') = false ->
       (inject_Z (snd e) / inject_Z (total x) <= inject_Z (snd e') / inject_Z (total x) + 2 * p2 (-50))%Q).
Proof.
  intros show x cut W T D N C L. destruct (report_cut show x cut W T D C L) as [out [gone [G [F R]]]].
  exists out, gone. split; [exact G|split; [|exact R]].
  rewrite (filter_ext_in (fun e => negb (gone (fst e))) (fun e => negb (gone (fst e) || veqb (fst e) (vint 0))) x); [exact F|].
  intros e I. now rewrite (N e I), orb_false_r.
Qed.
Print Assumptions C20_cut.

(** What happens to any variable: outcome 0 is dropped as well. *)
Theorem C20_cut_zero : forall show x cut,
  wf x -> 0 < total x -> distinct_text show x -> (0 < numQ cut < 1)%Q -> Z.of_nat (length x) < 2 ^ 40 ->
  exists out gone,
    get_vals_probs show x cut = Ok out /\
    Forall2 (fun e r => fst r = show_val show (fst e) /\ is_int (snd r) = false /\
                        nearest_double (inject_Z (snd e) / inject_Z (total x)) (numQ (snd r)))
            (filter (fun e => negb (gone (fst e) || veqb (fst e) (vint 0))) x) out /\
    (PrP gone x < numQ cut + SLACK x)%Q /\
    (forall e, In e x -> gone (fst e) = false ->
       (numQ cut - SLACK x <= PrP gone x + inject_Z (snd e) / inject_Z (total x))%Q) /\
    (forall e e', In e x -> In e' x -> gone (fst e) = true -> gone (fst e') = false ->
       (inject_Z (snd e) / inject_Z (total x) <= inject_Z (snd e') / inject_Z (total x) + 2 * p2 (-50))%Q).
Proof. exact report_cut. Qed.
Print Assumptions C20_cut_zero.

(** Outcome 0 has probability 7/8 and is cut at 1/16. *)
Theorem C20_cut_refuted :
  exists x cut, mk_dist default_cfg (vals x) (probs x) = Ok x /\
    (numQ cut == 1 # 16)%Q /\ (Pr x (vint 0) == 7 # 8)%Q /\
    forall show, get_vals_probs show x cut = Ok [(ShN (NI 1), NF 1 (-3))].
Proof. exists [(vint 0, 7); (vint 1, 1)], (NF 1 (-4)). repeat split. Qed.
Print Assumptions C20_cut_refuted.

Example C20_example :
  let x := [(vint 1, 1); (vint 2, 9); (vint 3, 6)] in
  wf x /\ distinct_text (fun _ => "") x /\ (forall e, In e x -> veqb (fst e) (vint 0) = false) /\
  get_vals_probs (fun _ => "") x (NF 1 (-3)) = Ok [(ShN (NI 2), NF 9 (-4)); (ShN (NI 3), NF 3 (-3))].
Proof.
  repeat split; try discriminate; repeat constructor; try discriminate.
  - intros s t [H|[H|[H|[]]]]; discriminate.
  - intros e [<-|[<-|[<-|[]]]]; reflexivity.
Qed.
