(** C44-C51, C62, C63: sequences, blanks and the integer operators. *)
From Coq Require Import String List ZArith QArith Bool Lia.
From Verif Require Import PyBase Num Val RVModel UtilModel Obj AtModel DispModel Spec SeqSpec RVFacts UtilFacts DispFacts SeqFacts.
Import ListNotations.
Open Scope Z_scope.

(** ** C44.  [py_op c o a b] is [a o b]; [vop o] the operator on numbers,
    [const_op_rv], [rv_op_const] the operators of C08. *)
Theorem C44_arithmetic_uses_the_sum : forall c o l s,
  arithmetic o = true -> seq_sum l = Ok (VN s) ->
  (forall v, py_op c o (OSeq l) (OV v) = rmap OV (vop o (VN s) v)) /\
  (forall n, py_op c o (OV (VN n)) (OSeq l) = rmap OV (vop o (VN n) (VN s))) /\
  (forall x, py_op c o (OSeq l) (ORV x) = rmap ORV (const_op_rv c o (VN s) (rv_dist x))) /\
  (forall x, py_op c o (ORV x) (OSeq l) = rmap ORV (rv_op_const c o (rv_dist x) (VN s))) /\
  (forall l' s', seq_sum l' = Ok (VN s') -> py_op c o (OSeq l) (OSeq l') = rmap OV (vop o (VN s) (VN s'))).
Proof. exact seq_arith. Qed.
Print Assumptions C44_arithmetic_uses_the_sum.

Theorem C44_sum_of_integers : forall l, Forall (fun v => v_is_int v = true) l -> seq_sum l = Ok (vint (sumZ (map toZ l))).
Proof. exact (fun l F => sum_ints l F 0). Qed.
Print Assumptions C44_sum_of_integers.

(** A list or tuple beside a die: [src] becomes the sequence [l] as in C48. *)
Theorem C44_lists : forall c o src l s x, arithmetic o = true -> get_seq src = Ok (OSeq l) -> seq_sum l = Ok (VN s) ->
  py_op c o (OIter src) (ORV x) = rmap ORV (const_op_rv c o (VN s) (rv_dist x)) /\
  py_op c o (ORV x) (OIter src) = rmap ORV (rv_op_const c o (rv_dist x) (VN s)).
Proof. exact list_arith. Qed.
Print Assumptions C44_lists.

(** None equals itself and nothing more can be done with it. *)
Theorem C44_nothing : forall c o, py_op c o ONone ONone =
  match o with OEq => Ok (oint 1) | ONe => Ok (oint 0) | _ => Err TypeErr end.
Proof. exact none_ops. Qed.
Print Assumptions C44_nothing.

Example C44_lists_example :
  get_seq [oint 5; OIter [oint 1; oint 2]] = Ok (OSeq [vint 5; vint 1; vint 2]) /\
  py_op default_cfg OSub (OIter [oint 5; OIter [oint 1; oint 2]]) (ORV (rv_of [(vint 1, 1); (vint 2, 1)]))
  = Ok (ORV (rv_of [(vint 6, 1); (vint 7, 1)])).
Proof. split; vm_compute; reflexivity. Qed.

Example C44_example :
  seq_sum [vint 1; vint 2; vint 4] = Ok (VN (NI 7)) /\
  py_op default_cfg OSub (OSeq [vint 1; vint 2; vint 4]) (OSeq [vint 5]) = Ok (oint 2) /\
  py_op default_cfg OSub (oint 1) (OSeq [vint 1; vint 2; vint 4]) = Ok (oint (-6)) /\
  py_op default_cfg OFloorDiv (OSeq [vint 1; vint 2; vint 4]) (ORV (rv_of [(vint 2, 1); (vint 3, 2)]))
  = Ok (ORV (rv_of [(vint 2, 2); (vint 3, 1)])).
Proof. repeat split; vm_compute; reflexivity. Qed.

(** ** C45 *)
Theorem C45_sequence_against_number : forall c o l x, relational o = true -> numbers l ->
  py_op c o (OSeq l) (OV (VN x)) = Ok (oint (how_many (fun v => related o (vq v) (numQ x)) l)).
Proof. exact seq_count. Qed.
Print Assumptions C45_sequence_against_number.

Theorem C45_number_against_sequence : forall c o l x, relational o = true -> numbers l ->
  py_op c o (OV (VN x)) (OSeq l) = Ok (oint (how_many (fun v => related o (numQ x) (vq v)) l)).
Proof. exact number_count. Qed.
Print Assumptions C45_number_against_sequence.

Theorem C45_counts_add_up : forall c l x lt eq gt, numbers l ->
  py_op c OLt (OSeq l) (OV (VN x)) = Ok (oint lt) -> py_op c OEq (OSeq l) (OV (VN x)) = Ok (oint eq) ->
  py_op c OGt (OSeq l) (OV (VN x)) = Ok (oint gt) -> lt + eq + gt = Z.of_nat (length l).
Proof. exact counts_add_up. Qed.
Print Assumptions C45_counts_add_up.

Example C45_example :
  let l := [vint 3; VN (NF 5 (-1)); vint 1; vint 3] in
  numbers l /\ py_op default_cfg OLt (OSeq l) (oint 3) = Ok (oint 2) /\ py_op default_cfg OEq (OSeq l) (oint 3) = Ok (oint 2) /\
  py_op default_cfg OGe (oint 2) (OSeq l) = Ok (oint 1).
Proof. split; [repeat constructor|]. repeat split; vm_compute; reflexivity. Qed.

(** ** C46.  [holds_at o x y]: the comparison at one position, a missing entry
    being minus infinity. *)
Theorem C46_sequence_against_sequence : forall c l1 l2, numbers l1 -> numbers l2 ->
  (forall o, relational o = true -> py_op c o (OSeq l1) (OSeq l2) = Ok (oint 0) \/ py_op c o (OSeq l1) (OSeq l2) = Ok (oint 1)) /\
  (py_op c OEq (OSeq l1) (OSeq l2) = Ok (oint 1) <-> Forall2 Qeq (map vq l1) (map vq l2)) /\
  (py_op c ONe (OSeq l1) (OSeq l2) = Ok (oint 1) <-> ~ Forall2 Qeq (map vq l1) (map vq l2)) /\
  (forall o, order_op o = true ->
     (py_op c o (OSeq l1) (OSeq l2) = Ok (oint 1) <->
      forall i, holds_at o (nth_error (map vq l1) i) (nth_error (map vq l2) i))).
Proof. exact seq_compare. Qed.
Print Assumptions C46_sequence_against_sequence.

Theorem C46_other_iterables : forall c o l1 l2, relational o = true -> numbers l1 -> numbers l2 ->
  py_op c o (OSeq l1) (OIter (map OV l2)) = py_op c o (OSeq l1) (OSeq l2) /\
  py_op c o (OIter (map OV l1)) (OSeq l2) = py_op c (mirror o) (OSeq l2) (OSeq l1).
Proof. exact seq_compare_iter. Qed.
Print Assumptions C46_other_iterables.

Theorem C46_sequence_against_die : forall c o l s x, relational o = true -> seq_sum l = Ok (VN s) ->
  py_op c o (OSeq l) (ORV x) = rmap ORV (rv_op_const c (mirror o) (rv_dist x) (VN s)) /\
  py_op c o (ORV x) (OSeq l) = rmap ORV (rv_op_const c o (rv_dist x) (VN s)).
Proof. exact seq_compare_die. Qed.
Print Assumptions C46_sequence_against_die.

Example C46_example :
  let op o a b := py_op default_cfg o (OSeq (map vint a)) (OSeq (map vint b)) in
  op OLt [1; 2] [2; 3; 0] = Ok (oint 1) /\ op OLt [1; 2; 0] [2; 3] = Ok (oint 0) /\ op OGe [1; 2; 0] [1; 1] = Ok (oint 1) /\
  op OEq [1; 2] [1; 2; 0] = Ok (oint 0) /\ op ONe [1; 2] [1; 2] = Ok (oint 0) /\ op OLe [] [] = Ok (oint 1) /\
  op OLt [1] [1] = Ok (oint 0) /\ op OGt [1] [1] = Ok (oint 0).
Proof. repeat split. Qed.

(** ** C47.  [entry k l]: the k-th entry, 0 if there is none. *)
Theorem C47_position : forall c k l, matmul c (oint k) (OSeq l) = Ok (OV (entry k l)).
Proof. exact (fun c k => position_int c k). Qed.
Print Assumptions C47_position.

Theorem C47_positions : forall c ks l, Forall (fun v => v_is_int v = true) l ->
  matmul c (OSeq (map vint ks)) (OSeq l) = Ok (oint (sumZ (map (fun k => toZ (entry k l)) ks))).
Proof. exact positions_seq. Qed.
Print Assumptions C47_positions.

Theorem C47_digits : forall c ks n k, 0 <= n -> decimal_length n k ->
  matmul c (OSeq (map vint ks)) (oint n) = Ok (oint (sumZ (map (decimal_digit n k) ks))).
Proof. exact positions_digits. Qed.
Print Assumptions C47_digits.

Theorem C47_negative_number_fails : forall c l n, n < 0 -> matmul c (OSeq l) (oint n) = Err ValueErr.
Proof. exact negative_digits_fail. Qed.
Print Assumptions C47_negative_number_fails.

Example C47_example :
  let l := map vint [5; 0; 7] in
  map (fun k => matmul default_cfg (oint k) (OSeq l)) [0; 1; 3; 4; -1] = [Ok (oint 0); Ok (oint 5); Ok (oint 7); Ok (oint 0); Ok (oint 0)] /\
  matmul default_cfg (OSeq (map vint [1; 3; 3; 9])) (OSeq l) = Ok (oint 19) /\
  matmul default_cfg (OSeq (map vint [1; 3; 9])) (oint 908) = Ok (oint 17) /\ decimal_length 908 3.
Proof. repeat split. right. lia. Qed.

(** ** C48.  [leaves o L]: the leaves of a nested structure; [contents L]: the
    plain entries, then the faces of the dice. *)
Theorem C48_every_structure_has_leaves : forall o, exists L, leaves o L.
Proof. exact (fun o => ex_intro _ _ (leaves_flat o)). Qed.
Print Assumptions C48_every_structure_has_leaves.

Theorem C48_numbers : forall src L, leaves (OIter src) L -> Forall number_like L -> get_seq src = Ok (OSeq (contents L)).
Proof. exact get_seq_numbers. Qed.
Print Assumptions C48_numbers.

Theorem C48_labels : forall src L, leaves (OIter src) L -> ~ In ONone L -> existsb has_label L = true ->
  get_seq src = Ok (OSSeq (contents L)).
Proof. exact get_seq_labels. Qed.
Print Assumptions C48_labels.

Theorem C48_none_is_refused : forall src L, leaves (OIter src) L -> In ONone L -> existsb has_label L = false ->
  get_seq src = Err AssertErr.
Proof. exact get_seq_none. Qed.
Print Assumptions C48_none_is_refused.

Theorem C48_idempotent : forall src s, get_seq src = Ok s -> get_seq [s] = Ok s.
Proof. exact get_seq_idem. Qed.
Print Assumptions C48_idempotent.

Theorem C48_nesting_irrelevant : forall src, get_seq [OIter src] = get_seq src.
Proof. exact get_seq_nesting. Qed.
Print Assumptions C48_nesting_irrelevant.

Example C48_example :
  let src := [OIter [oint 3; OIter []; ORV (rv_of [(vint 8, 1); (vint 9, 5)])]; OBlank false; OSeq [vint 2; vint 2]; OIter [OIter [oint 1]]] in
  leaves (OIter src) [oint 3; ORV (rv_of [(vint 8, 1); (vint 9, 5)]); OBlank false; oint 2; oint 2; oint 1] /\
  get_seq src = Ok (OSeq (map vint [3; 2; 2; 1; 8; 9])).
Proof. split; [exact (leaves_flat (OIter _))|reflexivity]. Qed.

(** ** C49.  [my_op] is myand/myor for plain ints and the operators [&], [|]
    otherwise. *)
Theorem C49_integers : forall c o x y, is_bool o = true ->
  my_op c o (oint x) (oint y) = Ok (OV (b01 (connect o (negb (x =? 0)) (negb (y =? 0))))).
Proof. exact my_ints. Qed.
Print Assumptions C49_integers.

Theorem C49_sequence_and_number : forall c o l s n, is_bool o = true -> seq_sum l = Ok s ->
  my_op c o (OSeq l) (OV (VN n)) = Ok (OV (b01 (connect o (truthy s) (truthy (VN n))))) /\
  my_op c o (OV (VN n)) (OSeq l) = Ok (OV (b01 (connect o (truthy s) (truthy (VN n))))).
Proof. exact my_seq_number. Qed.
Print Assumptions C49_sequence_and_number.

Theorem C49_two_sequences : forall c o l s l' s', is_bool o = true -> seq_sum l = Ok (VN s) -> seq_sum l' = Ok (VN s') ->
  my_op c o (OSeq l) (OSeq l') = Ok (OV (b01 (connect o (truthy (VN s)) (truthy (VN s'))))).
Proof. exact my_seq_seq. Qed.
Print Assumptions C49_two_sequences.

Theorem C49_two_dice : forall c o x y, is_bool o = true -> cfg_trunc c = false -> proper (rv_dist x) -> proper (rv_dist y) ->
  total (rv_dist x) * total (rv_dist y) <= SUM_LIMIT ->
  exists r, my_op c o (ORV x) (ORV y) = Ok (ORV r) /\
    (Pr (rv_dist r) (vint 1) == PrP (fun ab => connect o (truthy (fst ab)) (truthy (snd ab))) (indep (rv_dist x) (rv_dist y)))%Q /\
    (Pr (rv_dist r) (vint 0) == PrP (fun ab => negb (connect o (truthy (fst ab)) (truthy (snd ab)))) (indep (rv_dist x) (rv_dist y)))%Q.
Proof. exact my_dice_law. Qed.
Print Assumptions C49_two_dice.

Theorem C49_die_and_number : forall c o x n, is_bool o = true -> cfg_trunc c = false -> proper (rv_dist x) ->
  exists r r', my_op c o (ORV x) (OV (VN n)) = Ok (ORV r) /\ my_op c o (OV (VN n)) (ORV x) = Ok (ORV r') /\
    forall d, d = rv_dist r \/ d = rv_dist r' ->
    (Pr d (vint 1) == PrP (fun a => connect o (truthy a) (truthy (VN n))) (rv_dist x))%Q /\
    (Pr d (vint 0) == PrP (fun a => negb (connect o (truthy a) (truthy (VN n)))) (rv_dist x))%Q.
Proof. exact my_die_number_law. Qed.
Print Assumptions C49_die_and_number.

Theorem C49_die_and_sequence : forall c o x l s, is_bool o = true -> seq_sum l = Ok (VN s) ->
  my_op c o (ORV x) (OSeq l) = my_op c o (ORV x) (OV (VN s)) /\ my_op c o (OSeq l) (ORV x) = my_op c o (OV (VN s)) (ORV x).
Proof. exact my_die_seq. Qed.
Print Assumptions C49_die_and_sequence.

Theorem C49_negation : forall c, (forall z, my_invert c (oint z) = Ok (OV (b01 (z =? 0)))) /\
  (forall l s, seq_sum l = Ok s -> my_invert c (OSeq l) = Ok (OV (b01 (negb (truthy s))))).
Proof. exact my_inverts. Qed.
Print Assumptions C49_negation.

(** The negation of a die is not the die of the negations: the coin with faces 0
    and 1 becomes the constant 0. *)
Theorem C49_negation_of_die_refuted : exists x r,
  proper (rv_dist x) /\ my_invert default_cfg (ORV x) = Ok (ORV r) /\
  ~ (Pr (rv_dist r) (vint 1) == PrP (fun v => negb (truthy v)) (rv_dist x))%Q.
Proof.
  exists (rv_of [(vint 0, 1); (vint 1, 1)]), (rv_of [(vint 0, 1)]). split; [|split; [reflexivity|discriminate]].
  split; [repeat constructor; discriminate|reflexivity].
Qed.
Print Assumptions C49_negation_of_die_refuted.

Example C49_example :
  my_op default_cfg OAnd (oint 6) (oint 1) = Ok (oint 1) /\ my_op default_cfg OOr (OSeq [vint 2; vint (-2)]) (oint 0) = Ok (oint 0) /\
  my_op default_cfg OAnd (OSeq [vint 2; vint 1]) (OSeq [vint 2; vint 1]) = Ok (oint 1) /\
  my_op default_cfg OAnd (ORV (rv_of [(vint 0, 1); (vint 4, 2)])) (OSeq [vint 1]) = Ok (ORV (rv_of [(vint 0, 1); (vint 1, 2)])).
Proof. repeat split; vm_compute; reflexivity. Qed.

(** ** C50.  [num_or_die x]: x is a number or a die.  [OBlank false] is the plain
    blank, [OBlank true] the special one. *)
Theorem C50_plain_blank : forall c x, num_or_die x ->
  py_op c OAdd (OBlank false) x = Ok x /\ py_op c OAdd x (OBlank false) = Ok x /\
  py_op c OSub x (OBlank false) = Ok x /\
  (forall n, x = OV (VN n) -> exists m, py_op c OSub (OBlank false) x = Ok (OV (VN m)) /\ (numQ m == - numQ n)%Q) /\
  (forall d, x = ORV d -> py_op c OSub (OBlank false) x = rmap ORV (rv_neg c (rv_dist d))) /\
  (forall o, absorbing o = true -> py_op c o (OBlank false) x = Ok (OBlank false) /\ py_op c o x (OBlank false) = Ok (OBlank false)) /\
  (forall o, relational o = true -> py_op c o (OBlank false) x = Ok (OBlank false) /\ py_op c o x (OBlank false) = Ok (OBlank false)) /\
  py_op c OOr (OBlank false) x = Ok x /\ py_op c OOr x (OBlank false) = Ok x /\
  py_op c OAnd (OBlank false) x = Ok (OBlank false) /\ py_op c OAnd x (OBlank false) = Ok (OBlank false).
Proof. exact plain_blank. Qed.
Print Assumptions C50_plain_blank.

Theorem C50_special_blank : forall c x, num_or_die x ->
  (forall o, arithmetic o = true -> py_op c o (OBlank true) x = Ok (OBlank true) /\ py_op c o x (OBlank true) = Ok (OBlank true)) /\
  (forall o, arithmetic o = false -> py_op c o (OBlank true) x = Ok (oint 1) /\ py_op c o x (OBlank true) = Ok (oint 1)).
Proof. exact special_blank. Qed.
Print Assumptions C50_special_blank.

Theorem C50_two_blanks : forall c a b,
  py_op c OAdd (OBlank a) (OBlank b) = Ok (OBlank (a || b)) /\
  py_op c OOr (OBlank a) (OBlank b) = Ok (if a then oint 1 else OBlank false) /\
  (forall o, absorbing o = true -> py_op c o (OBlank a) (OBlank b) = Ok (OBlank a)).
Proof. exact two_blanks. Qed.
Print Assumptions C50_two_blanks.

(** [n @ blank] *)
Theorem C50_position : forall c n b,
  matmul c (oint n) (OBlank b) = Ok (if b then if n =? 1 then OBlank true else oint 0 else OBlank false).
Proof. exact blank_position. Qed.
Print Assumptions C50_position.

Example C50_example :
  num_or_die (oint 3) /\ num_or_die (ORV (rv_of [(vint 1, 1)])) /\
  py_op default_cfg OSub (OBlank false) (oint 3) = Ok (oint (-3)) /\ py_op default_cfg OMul (oint 3) (OBlank false) = Ok (OBlank false).
Proof. repeat split. Qed.

(** ** C51.  For every sequence of numbers the two sides differ: one is the
    sequence, the other its sum. *)
Theorem C51_blank_plus_sequence_refuted : forall c l s, seq_sum l = Ok (VN s) ->
  py_op c OAdd (OBlank false) (OSeq l) = Ok (OSeq l) /\ py_op c OAdd (OSeq l) (OBlank false) = Ok (OV (VN s)).
Proof. exact blank_plus_seq. Qed.
Print Assumptions C51_blank_plus_sequence_refuted.

(** and the length shows it *)
Example C51_example :
  (a <- py_op default_cfg OAdd (OBlank false) (OSeq [vint 1; vint 2; vint 3]) ;; my_len a) = Ok 3 /\
  (a <- py_op default_cfg OAdd (OSeq [vint 1; vint 2; vint 3]) (OBlank false) ;; my_len a) = Ok 1.
Proof. split; reflexivity. Qed.

(** ** C62.  [computed ns]: the memo table after the calls [factorial n], n in
    [ns], in any order. *)
Definition computed (ns : list Z) : fmemo := fold_left (fun m n => snd (factorial n m)) ns [].
Theorem C62_factorial : forall ns n, fst (factorial (Z.of_nat n) (computed ns)) = fact n.
Proof. exact (fun ns n => factorial_after ns n). Qed.
Print Assumptions C62_factorial.

Example C62_example : fst (factorial 5 (computed [3; 7; -2; 3])) = 120 /\ length (computed [3; 7; -2; 3]) = 8%nat.
Proof. split; reflexivity. Qed.

(** ** C63 *)
Theorem C63_digit : forall c i n k, 0 <= n -> decimal_length n k -> my_matmul c (oint i) (oint n) = Ok (oint (decimal_digit n k i)).
Proof. exact position_digit. Qed.
Print Assumptions C63_digit.

Theorem C63_length : forall n k, decimal_length (Z.abs n) k -> my_len (oint n) = Ok k.
Proof. exact len_digits. Qed.
Print Assumptions C63_length.

Theorem C63_every_number_has_a_length : forall n, 0 <= n -> exists k, decimal_length n k.
Proof. exact decimal_length_exists. Qed.
Print Assumptions C63_every_number_has_a_length.

Theorem C63_negation : forall c z, my_invert c (oint z) = Ok (oint (if z =? 0 then 1 else 0)).
Proof. exact (fun c z => proj1 (my_inverts c) z). Qed.
Print Assumptions C63_negation.

Example C63_example :
  map (fun i => my_matmul default_cfg (oint i) (oint 7093)) [0; 1; 2; 3; 4; 5] = map (fun d => Ok (oint d)) [0; 7; 0; 9; 3; 0] /\
  my_len (oint (-120)) = Ok 3 /\ my_len (oint 0) = Ok 1 /\ decimal_length 7093 4 /\ my_matmul default_cfg (oint 1) (oint (-5)) = Err ValueErr.
Proof. repeat split. right. lia. Qed.
