(** C52-C57: the function library. *)
From Coq Require Import String List ZArith QArith Qabs Qminmax Bool Permutation Sorted Lia.
From Verif Require Import PyBase Num Val RVModel Obj RollModel RollSpec AtModel CastModel CastSpec DispModel LibModel Spec SeqSpec LibSpec RVFacts UnaryFacts LibLaws PoolFacts ExplodeFacts GwfFacts.
Import ListNotations.
Open Scope Z_scope.

(** ** C52.  [pool c n x r]: [r] is a roll of [n] dice [x].  [tuples n d]: n
    independent rolls; [top k], [bottom k], [middle k] pick entries of such a roll. *)
Theorem C52_number_of_dice : forall c n x r,
  cfg_trunc c = false -> cfg_highest c = true -> pool c n x r ->
  int_vals (rv_dist x) -> canon (rv_dist x) -> 0 < total (rv_dist x) -> no_dropped c (rv_dist x) -> total (rv_dist x) ^ n <= SUM_LIMIT ->
  forall k,
  let D := tuples (Z.to_nat n) (rv_dist x) in
  (exists q, highest_N_of_D c (positional [oint k; ORV r]) = Ok (ORV q) /\ same_law (rv_dist q) (image (fun t => vsumZ (top k t)) D)) /\
  (exists q, lowest_N_of_D c (positional [oint k; ORV r]) = Ok (ORV q) /\ same_law (rv_dist q) (image (fun t => vsumZ (bottom k t)) D)) /\
  (exists q, middle_N_of_D c (positional [oint k; ORV r]) = Ok (ORV q) /\ same_law (rv_dist q) (image (fun t => vsumZ (middle k t)) D)).
Proof. exact take_numbers. Qed.
Print Assumptions C52_number_of_dice.

Theorem C52_random_number_of_dice : forall c n x r,
  cfg_trunc c = false -> cfg_highest c = true -> pool c n x r ->
  int_vals (rv_dist x) -> canon (rv_dist x) -> 0 < total (rv_dist x) -> no_dropped c (rv_dist x) -> total (rv_dist x) ^ n <= SUM_LIMIT ->
  forall kd, proper (rv_dist kd) -> int_vals (rv_dist kd) ->
  (total (rv_dist x) ^ n) ^ Z.of_nat (length (rv_dist kd)) * total (rv_dist kd) <= SUM_LIMIT ->
  let K := indep (rv_dist kd) (tuples (Z.to_nat n) (rv_dist x)) in
  (exists q, highest_N_of_D c (positional [ORV kd; ORV r]) = Ok (ORV q) /\ same_law (rv_dist q) (image (fun kt => vsumZ (top (toZ (fst kt)) (snd kt))) K)) /\
  (exists q, lowest_N_of_D c (positional [ORV kd; ORV r]) = Ok (ORV q) /\ same_law (rv_dist q) (image (fun kt => vsumZ (bottom (toZ (fst kt)) (snd kt))) K)) /\
  (exists q, middle_N_of_D c (positional [ORV kd; ORV r]) = Ok (ORV q) /\ same_law (rv_dist q) (image (fun kt => vsumZ (middle (toZ (fst kt)) (snd kt))) K)).
Proof. exact take_dice. Qed.
Print Assumptions C52_random_number_of_dice.

Definition d2x : rv := rv_of (uniform 1 2).
Definition lowest_first : cfg := mkCfg false false false 2 10 180.

Example C52_example :
  (exists r, roll_after default_cfg [] (oint 3) (Some (ORV d2x)) = Ok (ORV r) /\ pool default_cfg 3 d2x r /\
    rmap (fun o => result_law o) (highest_N_of_D default_cfg (positional [oint 2; ORV r])) = Ok (Some [(vint 2, 1); (vint 3, 3); (vint 4, 4)]) /\
    rmap (fun o => result_law o) (lowest_N_of_D default_cfg (positional [oint 2; ORV r])) = Ok (Some [(vint 2, 4); (vint 3, 3); (vint 4, 1)]) /\
    rmap (fun o => result_law o) (middle_N_of_D default_cfg (positional [oint 2; ORV r])) = Ok (Some [(vint 2, 1); (vint 3, 3); (vint 4, 4)]) /\
    rmap (fun o => result_law o) (middle_N_of_D default_cfg (positional [oint 1; ORV r])) = Ok (Some [(vint 1, 1); (vint 2, 1)])) /\
  canon (rv_dist d2x) /\ no_dropped default_cfg (rv_dist d2x) /\ middle 2 [vint 1; vint 5; vint 3] = [vint 5; vint 3].
Proof.
  split; [|split; [|split; [|vm_compute; reflexivity]]].
  - eexists. split; [vm_compute; reflexivity|]. split; [|repeat split; vm_compute; reflexivity].
    left. split; [lia|]. exists []. split; [constructor|vm_compute; reflexivity].
  - repeat split; try discriminate; repeat constructor; try (cbn; discriminate).
  - unfold no_dropped. discriminate.
Qed.

(** with "position order" lowest first, one die is taken from the wrong end *)
Theorem C52_lowest_first_refuted : exists r q,
  cfg_trunc lowest_first = false /\ cfg_highest lowest_first = false /\ pool lowest_first 2 d2x r /\
  highest_N_of_D lowest_first (positional [oint 1; ORV r]) = Ok (ORV q) /\
  same_law (rv_dist q) (image (fun t => vsumZ (bottom 1 t)) (tuples 2 (rv_dist d2x))) /\
  ~ same_law (rv_dist q) (image (fun t => vsumZ (top 1 t)) (tuples 2 (rv_dist d2x))).
Proof.
  eexists; eexists. split; [reflexivity|]. split; [reflexivity|]. split.
  { left. split; [lia|]. exists []. split; [constructor|vm_compute; reflexivity]. }
  split; [vm_compute; reflexivity|]. split.
  - intro v. cbn [rv_dist rv_of]. vm_compute (image _ _). unfold Pr, wt, total. cbn [mass].
    change (VN (NI 1)) with (vint 1). change (VN (NI 2)) with (vint 2).
    destruct (veqb v (vint 1)), (veqb v (vint 2)); reflexivity.
  - intro H. specialize (H (vint 1)). vm_compute in H. discriminate H.
Qed.
Print Assumptions C52_lowest_first_refuted.

(** ** C53.  [exploded mx t]: the sum of the rolls [t] up to the first that is not
    [mx]. *)
Theorem C53_explode : forall c x depth,
  cfg_trunc c = false -> canon (rv_dist x) -> 0 < total (rv_dist x) -> int_vals (rv_dist x) ->
  total (rv_dist x) ^ Z.of_nat (S (Z.to_nat depth)) <= SUM_LIMIT ->
  exists m q, In m (vals (rv_dist x)) /\ (forall v, In v (vals (rv_dist x)) -> toZ v <= toZ m) /\
    explode c [(KPos 0, ORV x); (KName "depth", oint depth)] = Ok (ORV q) /\
    (depth = cfg_explode c -> explode c (positional [ORV x]) = Ok (ORV q) /\ explode c [(KPos 0, ORV x); (KName "depth", ONone)] = Ok (ORV q)) /\
    canon (rv_dist q) /\ proper (rv_dist q) /\
    same_law (rv_dist q) (image (fun t => vint (exploded (toZ m) t)) (tuples (S (Z.to_nat depth)) (rv_dist x))).
Proof. exact explode_law. Qed.
Print Assumptions C53_explode.

Theorem C53_support : forall mx t, 0 <= mx -> Forall (fun v => 0 <= toZ v <= mx) t ->
  0 <= exploded mx t <= Z.of_nat (length t) * mx.
Proof. exact exploded_bounds. Qed.
Print Assumptions C53_support.

Example C53_example :
  canon (rv_dist d2x) /\
  rmap (fun o => result_law o) (explode default_cfg (positional [ORV d2x])) = Ok (Some [(vint 1, 4); (vint 3, 2); (vint 5, 1); (vint 6, 1)]) /\
  rmap (fun o => result_law o) (explode default_cfg [(KPos 0, ORV d2x); (KName "depth", oint 0)]) = Ok (Some [(vint 1, 1); (vint 2, 1)]) /\
  exploded 2 [vint 2; vint 2; vint 1; vint 2] = 5.
Proof.
  split; [|repeat split; vm_compute; reflexivity]. repeat split; try discriminate; repeat constructor; try (cbn; discriminate).
Qed.

(** ** C54 *)
Theorem C54_sort : forall c l, numbers l -> exists r r',
  sort c (positional [OSeq l]) = Ok (OSeq r) /\ sort_slow c (positional [OSeq l]) = Ok (OSeq r') /\
  Permutation l r /\ falling r /\ Permutation l r' /\ falling r' /\ Forall2 (fun a b => (vq a == vq b)%Q) r r'.
Proof. exact sort_both. Qed.
Print Assumptions C54_sort.

Theorem C54_reverse : forall c l, numbers l ->
  reverse c (positional [OSeq l]) = Ok (OSeq (rev l)) /\ reverse_slow c (positional [OSeq l]) = Ok (OSeq (rev l)).
Proof. exact (fun c l N => conj (LibFacts.reverse_law c l N) (LibFacts.reverse_slow_law c l N)). Qed.
Print Assumptions C54_reverse.

Example C54_example :
  let l := [vint 2; vint 5; VN (NF 5 (-1)); vint 2] in
  numbers l /\ sort default_cfg (positional [OSeq l]) = Ok (OSeq [vint 5; VN (NF 5 (-1)); vint 2; vint 2]) /\
  reverse_slow default_cfg (positional [OSeq l]) = Ok (OSeq [vint 2; VN (NF 5 (-1)); vint 5; vint 2]).
Proof. split; [repeat constructor|]. split; vm_compute; reflexivity. Qed.

(** ** C55.  [seq_law o D], [num_law o D]: what the argument [o] stands for. *)
Theorem C55_contains : forall c l n, numbers l ->
  contains c (positional [OSeq l; OV (VN n)]) = Ok (OV (b01 (occurs (VN n) l))).
Proof. exact contains_law. Qed.
Print Assumptions C55_contains.

Theorem C55_contains_random : forall c s x Ds Dx,
  cfg_trunc c = false -> seq_law s Ds -> num_law x Dx -> is_die s || is_die x = true ->
  total Ds * total Dx <= SUM_LIMIT ->
  exists q, contains c (positional [s; x]) = Ok (ORV q) /\ canon (rv_dist q) /\ proper (rv_dist q) /\
    same_law (rv_dist q) (image (fun lv => b01 (occurs (snd lv) (fst lv))) (indep Ds Dx)).
Proof. exact contains_random. Qed.
Print Assumptions C55_contains_random.

Theorem C55_count_in : forall c vs s, numbers vs -> numbers s ->
  count_in c (positional [OSeq vs; OSeq s]) = Ok (oint (equal_pairs vs s)).
Proof. exact count_in_law. Qed.
Print Assumptions C55_count_in.

Theorem C55_count_in_random : forall c vs s Dv Ds,
  cfg_trunc c = false -> seq_law vs Dv -> seq_law s Ds -> is_die vs || is_die s = true ->
  total Dv * total Ds <= SUM_LIMIT ->
  exists q, count_in c (positional [vs; s]) = Ok (ORV q) /\ canon (rv_dist q) /\ proper (rv_dist q) /\
    same_law (rv_dist q) (image (fun ls => vint (equal_pairs (fst ls) (snd ls))) (indep Dv Ds)).
Proof. exact count_in_random. Qed.
Print Assumptions C55_count_in_random.

Theorem C55_absolute : forall c n,
  absolute c (positional [OV (VN n)]) = Ok (OV (vabs (VN n))) /\ (vq (vabs (VN n)) == Qabs (numQ n))%Q.
Proof. exact (fun c n => conj (absolute_law c n) (vabs_Q n)). Qed.
Print Assumptions C55_absolute.

Theorem C55_absolute_random : forall c x,
  cfg_trunc c = false -> proper (rv_dist x) -> numbers (vals (rv_dist x)) -> total (rv_dist x) <= SUM_LIMIT ->
  exists q, absolute c (positional [ORV x]) = Ok (ORV q) /\ canon (rv_dist q) /\ proper (rv_dist q) /\
    same_law (rv_dist q) (image vabs (rv_dist x)).
Proof. exact absolute_random. Qed.
Print Assumptions C55_absolute_random.

Example C55_example :
  contains default_cfg (positional [OSeq [vint 1; vint 4]; OV (VN (NF 1 2))]) = Ok (oint 1) /\
  contains default_cfg (positional [OSeq [vint 1; vint 4]; oint 3]) = Ok (oint 0) /\
  count_in default_cfg (positional [OSeq [vint 1; vint 2; vint 1]; OSeq [vint 1; vint 1; vint 3]]) = Ok (oint 4) /\
  absolute default_cfg (positional [oint (-3)]) = Ok (oint 3) /\
  num_law (ORV d2x) (rv_dist d2x) /\ seq_law (OSeq [vint 1; vint 4]) [([vint 1; vint 4], 1)] /\
  rmap (fun o => result_law o) (contains default_cfg (positional [OSeq [vint 1; vint 4]; ORV d2x])) = Ok (Some [(vint 0, 1); (vint 1, 1)]).
Proof.
  repeat split; try (vm_compute; reflexivity); repeat constructor; try (cbn; discriminate).
Qed.

(** ** C56 *)
Theorem C56_maximum_of : forall c x,
  numbers (vals (rv_dist x)) -> strict (rv_dist x) -> rv_dist x <> [] ->
  exists m, maximum_of c (positional [ORV x]) = Ok (OV m) /\ In m (vals (rv_dist x)) /\
    forall v, In v (vals (rv_dist x)) -> vleb v m = true.
Proof. exact maximum_law. Qed.
Print Assumptions C56_maximum_of.

Theorem C56_larger_and_smaller : forall c a b, is_number a = true -> is_number b = true ->
  (highest_of c (positional [OV a; OV b]) = Ok (OV (larger a b)) /\ lowest_of c (positional [OV a; OV b]) = Ok (OV (smaller a b))) /\
  (vq (larger a b) == Qmax (vq a) (vq b))%Q /\ (vq (smaller a b) == Qmin (vq a) (vq b))%Q.
Proof. exact (fun c a b A B => conj (pick_numbers c a b A B) (conj (larger_Q a b) (smaller_Q a b))). Qed.
Print Assumptions C56_larger_and_smaller.

Theorem C56_larger_and_smaller_random : forall c a b Da Db,
  cfg_trunc c = false -> num_law a Da -> num_law b Db -> is_die a || is_die b = true ->
  total Da * total Db <= SUM_LIMIT ->
  (exists q, highest_of c (positional [a; b]) = Ok (ORV q) /\ canon (rv_dist q) /\ proper (rv_dist q) /\
     same_law (rv_dist q) (image (fun uv => larger (fst uv) (snd uv)) (indep Da Db))) /\
  (exists q, lowest_of c (positional [a; b]) = Ok (ORV q) /\ canon (rv_dist q) /\ proper (rv_dist q) /\
     same_law (rv_dist q) (image (fun uv => smaller (fst uv) (snd uv)) (indep Da Db))).
Proof. exact pick_random. Qed.
Print Assumptions C56_larger_and_smaller_random.

Example C56_example :
  strict (rv_dist d2x) /\ numbers (vals (rv_dist d2x)) /\
  maximum_of default_cfg (positional [ORV d2x]) = Ok (oint 2) /\
  highest_of default_cfg (positional [oint 3; OV (VN (NF 5 (-1)))]) = Ok (oint 3) /\
  rmap (fun o => result_law o) (highest_of default_cfg (positional [ORV d2x; ORV d2x])) = Ok (Some [(vint 1, 1); (vint 2, 3)]) /\
  rmap (fun o => result_law o) (lowest_of default_cfg (positional [oint 1; ORV d2x])) = Ok (Some [(vint 1, 1)]).
Proof. repeat split; try (vm_compute; reflexivity); repeat constructor. Qed.

(** ** C57.  [rerolled m (a, b)]: [b] when [a] is at most [m], otherwise [a]. *)
Theorem C57_reroll_once : forall c x m,
  cfg_trunc c = false -> proper (rv_dist x) -> int_vals (rv_dist x) ->
  total (rv_dist x) ^ (Z.of_nat (length (rv_dist x)) + 1) <= SUM_LIMIT ->
  forall calls n, Forall int_call calls -> (total (rv_dist x) ^ 2) ^ Z.abs n <= SUM_LIMIT ->
  exists q, fst (gwf c (positional [oint n; ORV x; oint m]) (after c calls)) = Ok (ORV q) /\
    (m = 2 -> fst (gwf c (positional [oint n; ORV x]) (after c calls)) = Ok (ORV q)) /\
    same_law (rv_dist q) (dice_total n (image (rerolled m) (indep (rv_dist x) (rv_dist x)))).
Proof. exact gwf_law. Qed.
Print Assumptions C57_reroll_once.

Theorem C57_integer_die : forall c calls n k m, cfg_trunc c = false -> Forall int_call calls ->
  fst (gwf c (positional [oint n; oint k; oint m]) (after c calls)) =
  fst (gwf c (positional [oint n; ORV (rv_of (int_die k)); oint m]) (after c (calls ++ [(oint 1, Some (oint k))]))).
Proof. exact gwf_int_die. Qed.
Print Assumptions C57_integer_die.

Example C57_example :
  proper (rv_dist d2x) /\ int_vals (rv_dist d2x) /\ total (rv_dist d2x) ^ (Z.of_nat (length (rv_dist d2x)) + 1) <= SUM_LIMIT /\
  rmap (fun o => result_law o) (fst (gwf default_cfg (positional [oint 2; oint 2; oint 1]) [])) = Ok (Some [(vint 2, 1); (vint 3, 6); (vint 4, 9)]).
Proof. repeat split; try (vm_compute; reflexivity); repeat constructor; cbn; discriminate. Qed.
