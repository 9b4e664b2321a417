(** Facts about the highest, lowest and middle dice of a pool. *)
From Coq Require Import String List ZArith QArith Qabs Bool Permutation Sorted Lia Lqa.
From Verif Require Import PyBase Num Val Sorting RVModel Obj RollModel RollSpec AtModel CastModel DispModel LibModel Spec SeqSpec LibSpec CmpFacts SortFacts NumFacts MassFacts RVFacts ConstructFacts IntFacts LimitFacts OpFacts ConvFacts UnaryFacts MixFacts RollFacts RollObjFacts RollErrFacts OrderFacts ExpandFacts SelectFacts CastSpec CastFacts CastMixFacts DispFacts SeqFacts LawFacts LibFacts LibLaws.
Import ListNotations.
Open Scope Z_scope.

(** positions lo, lo+1, ..., lo+k-1 *)
Definition span (lo : Z) (k : nat) : list Z := map (fun i => lo + Z.of_nat i) (seq 0 k).
Lemma span_S lo k : span lo (S k) = lo :: span (lo + 1) k.
Proof.
  unfold span. cbn [seq map]. rewrite Z.add_0_r. f_equal. rewrite <- seq_shift, map_map. apply map_ext. intro i. lia.
Qed.
Lemma span_length lo k : length (span lo k) = k.
Proof. unfold span. rewrite map_length, seq_length. reflexivity. Qed.
Lemma zrange_span a b : zrange a b = map vint (span a (Z.to_nat (b - a))).
Proof. unfold zrange, span. rewrite map_map. reflexivity. Qed.

Lemma skipn_cons_nth {A} (d : A) (s : list A) i : (i < length s)%nat -> skipn i s = nth i s d :: skipn (S i) s.
Proof.
  revert i. induction s as [|a s IH]; intros i H; cbn in H; [lia|]. destruct i as [|i]; [reflexivity|].
  cbn [skipn nth]. rewrite (IH i) by lia. destruct s; reflexivity.
Qed.
Lemma sum_span s k : forall lo,
  sumZ (map (fun i => toZ (entry i s)) (span lo k)) =
  sumZ (map toZ (firstn (k - Z.to_nat (1 - lo)) (skipn (Z.to_nat (lo - 1)) s))).
Proof.
  induction k as [|k IH]; intros lo; [reflexivity|].
  rewrite span_S. cbn [map]. change (sumZ (?a :: ?l)) with (a + sumZ l). rewrite IH. destruct (Z.leb_spec lo 0).
  - rewrite entry_outside by lia. change (toZ (vint 0)) with 0. replace (Z.to_nat (lo - 1)) with 0%nat by lia.
    replace (Z.to_nat (lo + 1 - 1)) with 0%nat by lia. replace (S k - Z.to_nat (1 - lo))%nat with (k - Z.to_nat (1 - (lo + 1)))%nat by lia. reflexivity.
  - replace (Z.to_nat (1 - lo)) with 0%nat by lia. replace (Z.to_nat (1 - (lo + 1))) with 0%nat by lia. rewrite !Nat.sub_0_r.
    replace (Z.to_nat (lo + 1 - 1)) with (S (Z.to_nat (lo - 1))) by lia. set (i := Z.to_nat (lo - 1)).
    destruct (Nat.ltb_spec i (length s)) as [L|L].
    + rewrite (skipn_cons_nth (vint 0) s i L). cbn [firstn map]. change (sumZ (?a :: ?l)) with (a + sumZ l). f_equal.
      unfold entry. destruct (Z.leb_spec 1 lo), (Z.leb_spec lo (Z.of_nat (length s))); try lia. reflexivity.
    + rewrite entry_outside by lia. rewrite !skipn_all2 by lia. rewrite !firstn_nil. reflexivity.
Qed.

Lemma int_number v : v_is_int v = true -> is_number v = true.
Proof. destruct v as [[z|m e]|s]; cbn; intro H; congruence. Qed.
Lemma ints_numbers l : Forall (fun v => v_is_int v = true) l -> numbers l.
Proof. intro F. eapply Forall_impl; [|exact F]. intros v. apply int_number. Qed.
Lemma int_vq v w : v_is_int v = true -> v_is_int w = true -> (vq v == vq w)%Q -> v = w.
Proof.
  intros A B. rewrite <- (toZ_int v A), <- (toZ_int w B). intro H. change (inject_Z (toZ v) == inject_Z (toZ w))%Q in H. apply (proj1 (inject_Z_injective _ _)) in H. rewrite H. reflexivity.
Qed.

Lemma rev_ascending t : Forall (fun v => v_is_int v = true) t -> rev (ascending t) = descending t.
Proof.
  intro F.
  assert (P1 : Permutation t (rev (ascending t))) by (eapply Permutation_trans; [apply ascending_perm|apply Permutation_rev]).
  assert (P2 := descending_perm t).
  assert (F1 : falling (rev (ascending t))).
  { apply desc_falling; [exact (numbers_perm _ _ P1 (ints_numbers _ F))|]. apply (strongly_rev (fun a b => vleb a b = true)). apply ascending_sorted. }
  assert (F2 : falling (descending t)).
  { apply desc_falling; [exact (numbers_perm _ _ P2 (ints_numbers _ F))|]. apply descending_sorted. }
  assert (E : Forall2 (fun a b => (vq a == vq b)%Q) (rev (ascending t)) (descending t)).
  { apply falling_unique; auto. intro q. rewrite <- (at_least_perm q _ _ P1). apply at_least_perm. exact P2. }
  assert (I1 : Forall (fun v => v_is_int v = true) (rev (ascending t))).
  { apply Forall_forall. intros v I. apply (proj1 (Forall_forall _ _) F). exact (Permutation_in _ (Permutation_sym P1) I). }
  assert (I2 := descending_ints t F). clear -E I1 I2.
  induction E as [|a b l r H E IH]; [reflexivity|]. inversion I1; subst. inversion I2; subst. f_equal; [apply int_vq; assumption|apply IH; assumption].
Qed.

(** the picked positions *)
Lemma picked_top k t : picked (span 1 (Z.to_nat k)) t = vsumZ (top k t).
Proof. unfold picked, vsumZ, top. rewrite sum_span. cbn [Z.sub Z.to_nat skipn]. change (Z.to_nat (1 - 1)) with 0%nat. rewrite Nat.sub_0_r. reflexivity. Qed.

Lemma picked_bottom n k t : Forall (fun v => v_is_int v = true) t -> Z.of_nat (length t) = n ->
  picked (span (n - k + 1) (Z.to_nat k)) t = vsumZ (bottom k t).
Proof.
  intros F L. unfold picked, vsumZ, bottom. f_equal. rewrite sum_span. rewrite (firstn_skipn_rev _ (ascending t)), rev_ascending by exact F.
  rewrite map_rev. rewrite <- (sumZ_perm _ _ (Permutation_rev _)). f_equal. f_equal.
  assert (LA : length (ascending t) = length t) by (symmetry; apply Permutation_length, ascending_perm).
  rewrite LA. destruct (Z.leb_spec 0 k).
  - destruct (Z.leb_spec k n).
    + replace (Z.to_nat (1 - (n - k + 1))) with 0%nat by lia. rewrite Nat.sub_0_r. replace (Z.to_nat (n - k + 1 - 1)) with (length t - Z.to_nat k)%nat by lia.
      apply firstn_all2. rewrite skipn_length, descending_length. lia.
    + replace (Z.to_nat (n - k + 1 - 1)) with 0%nat by lia. replace (length t - Z.to_nat k)%nat with 0%nat by lia. cbn [skipn].
      apply firstn_all2. rewrite descending_length. lia.
  - replace (Z.to_nat k) with 0%nat by lia. rewrite Nat.sub_0_r. cbn [Nat.sub firstn]. symmetry. apply skipn_all2. rewrite descending_length. lia.
Qed.

Lemma picked_middle n k t : Z.of_nat (length t) = n ->
  picked (span (1 + (n - k) / 2) (Z.to_nat k)) t = vsumZ (middle k t).
Proof.
  intros L. unfold picked, vsumZ, middle. f_equal. rewrite sum_span, L. f_equal. f_equal.
  destruct (Z.leb_spec k n).
  - assert (0 <= (n - k) / 2) by (apply Z.div_pos; lia). replace (Z.to_nat (1 - (1 + (n - k) / 2))) with 0%nat by lia. rewrite Nat.sub_0_r.
    replace (1 + (n - k) / 2 - 1) with ((n - k) / 2) by lia. reflexivity.
  - assert ((n - k) / 2 < 0) by (apply Z.div_lt_upper_bound; lia).
    assert (HD := Z.div_mod (n - k) 2 ltac:(lia)). assert (HM := Z.mod_pos_bound (n - k) 2 ltac:(lia)).
    replace (Z.to_nat (1 + (n - k) / 2 - 1)) with 0%nat by lia. replace (Z.to_nat ((n - k) / 2)) with 0%nat by lia. cbn [skipn].
    rewrite !firstn_all2; [reflexivity| |]; rewrite descending_length; lia.
Qed.

Section Pool.
  Variables (c : cfg) (r : rv) (d : dist) (n : Z).
  Hypothesis T : cfg_trunc c = false.
  Hypothesis HH : cfg_highest c = true.
  Hypothesis RD : rv_die r = d.
  Hypothesis RR : rv_roll r = n.
  Hypothesis N1 : 1 <= n.
  Hypothesis I : int_vals d.
  Hypothesis C : canon d.
  Hypothesis P : 0 < total d.
  Hypothesis D : no_dropped c d.
  Hypothesis L : total d ^ n <= SUM_LIMIT.


  Definition law_of (g : list pval -> pval) (q : rv) : Prop :=
    proper (rv_dist q) /\ total (rv_dist q) <= total d ^ n /\
    forall v, (Pr (rv_dist q) v == PrP (fun t => veqb v (g t)) (tuples (Z.to_nat n) d))%Q.

  Lemma pool_total_le q (g : list pval -> pval) : canon (rv_dist q) -> proper (rv_dist q) ->
    (forall v, (Pr (rv_dist q) v == PrP (fun t => veqb v (g t)) (tuples (Z.to_nat n) d))%Q) -> total (rv_dist q) <= total d ^ n.
  Proof.
    intros CQ PQ E. apply (canon_total_le _ (total d ^ n) (fun v => mass (fun t => veqb v (g t)) (tuples (Z.to_nat n) d))); auto.
    - apply Z.pow_pos_nonneg; lia.
    - intro v. rewrite E. unfold PrP. rewrite total_tuples, Z2Nat.id by lia. reflexivity.
  Qed.

  Lemma picked_one lo t w : In (t, w) (tuples (Z.to_nat n) d) -> picked [lo] t = entry lo (descending t).
  Proof.
    intro H. pose proof (tuple_ints _ _ _ _ I H) as F. unfold picked. cbn [map]. unfold sumZ. cbn [fold_right]. rewrite Z.add_0_r.
    apply toZ_int, entry_int, descending_ints, F.
  Qed.

  Lemma span_law lo k : (k = 1%nat -> 1 <= lo <= n) ->
    exists q, matmul c (OSeq (map vint (span lo k))) (ORV r) = Ok (ORV q) /\ law_of (picked (span lo k)) q.
  Proof.
    intros H1. change (matmul c (OSeq (map vint (span lo k))) (ORV r)) with (rv_rmatmul c (OSeq (map vint (span lo k))) r). rewrite at_seq.
    destruct (Nat.eq_dec k 1) as [E|E].
    - specialize (H1 E). subst k. change (span lo 1) with [lo + 0]. rewrite Z.add_0_r. cbn [map]. rewrite at_one, at_single, RD, RR.
      destruct (kth_order_law c d n lo T C P D H1 L) as (q & E & C1 & P1 & _ & _ & Q). rewrite E. cbn [bind]. exists q. split; [reflexivity|].
      assert (Q' : forall v, (Pr (rv_dist q) v == PrP (fun t => veqb v (picked [lo] t)) (tuples (Z.to_nat n) d))%Q).
      { intro v. rewrite Q. apply PrP_ext. intros t w IT. rewrite (picked_one lo t w IT). unfold at_position. rewrite HH. reflexivity. }
      split; [exact P1|]. split; [|exact Q']. exact (pool_total_le q _ C1 P1 Q').
    - rewrite at_several by (rewrite span_length; exact E).
      destruct (select_law r d RD) with (c := c) (S := span lo k) as (q & Q1 & _ & _ & C1 & P1 & Q2); auto; try apply C; try (rewrite RR; assumption); try lia.
      rewrite RR in Q2. exists q. split; [exact Q1|]. split; [exact P1|]. split; [|exact Q2]. exact (pool_total_le q _ C1 P1 Q2).
  Qed.

  Lemma law_ext g g' q : (forall t w, In (t, w) (tuples (Z.to_nat n) d) -> g t = g' t) -> law_of g q -> law_of g' q.
  Proof.
    intros E (A & B & Q). split; [exact A|]. split; [exact B|]. intro v. rewrite Q. apply PrP_ext. intros t w IT. rewrite (E t w IT). reflexivity.
  Qed.

  Lemma range_seq a b : mk_seq [OIter (map OV (zrange a b))] = Ok (OSeq (map vint (span a (Z.to_nat (b - a))))).
  Proof. rewrite mk_seq_iter, zrange_span. apply mk_seq_numbers. apply Forall_forall. intros v J. apply in_map_iff in J. destruct J as [z [<- _]]. reflexivity. Qed.

  Lemma sub_ints z w : py_op c OSub (oint z) (oint w) = Ok (oint (z - w)).
  Proof. unfold oint. rewrite py_values. reflexivity. Qed.

  Lemma highest_body_law k : exists q, highest_of_body c (positional [oint k; ORV r]) = Ok (ORV q) /\ law_of (fun t => vsumZ (top k t)) q.
  Proof.
    unfold highest_of_body. cbv zeta. change (need 0 "NUMBER" (positional [oint k; ORV r])) with (Ok (oint k)).
    change (need 1 "DICE" (positional [oint k; ORV r])) with (Ok (ORV r)). cbn [bind]. rewrite add_ints. cbn [bind].
    change (py_range (oint 1) (oint (k + 1))) with (Ok (OIter (map OV (zrange 1 (k + 1))))). cbn [bind]. rewrite range_seq. cbn [bind].
    replace (k + 1 - 1) with k by lia. destruct (span_law 1 (Z.to_nat k)) as (q & Q1 & Q2); [lia|]. exists q. split; [exact Q1|].
    eapply law_ext; [|exact Q2]. intros t w _. apply picked_top.
  Qed.

  Lemma pool_len : py_len (ORV r) = Ok n.
  Proof. unfold py_len, my_len. rewrite RR. destruct (Z.ltb_spec n 0); [lia|reflexivity]. Qed.

  Lemma tuple_len t w : In (t, w) (tuples (Z.to_nat n) d) -> Z.of_nat (length t) = n.
  Proof. intro H. apply tuples_length in H. lia. Qed.

  Lemma lowest_body_law k : exists q, lowest_of_body c (positional [oint k; ORV r]) = Ok (ORV q) /\ law_of (fun t => vsumZ (bottom k t)) q.
  Proof.
    unfold lowest_of_body. cbv zeta. change (need 0 "NUMBER" (positional [oint k; ORV r])) with (Ok (oint k)).
    change (need 1 "DICE" (positional [oint k; ORV r])) with (Ok (ORV r)). cbn [bind]. rewrite pool_len. cbn [bind]. rewrite sub_ints. cbn [bind]. rewrite add_ints. cbn [bind].
    change (py_range (oint (n - k + 1)) (oint (n + 1))) with (Ok (OIter (map OV (zrange (n - k + 1) (n + 1))))). cbn [bind]. rewrite range_seq. cbn [bind].
    replace (n + 1 - (n - k + 1)) with k by lia. destruct (span_law (n - k + 1) (Z.to_nat k)) as (q & Q1 & Q2); [lia|]. exists q. split; [exact Q1|].
    eapply law_ext; [|exact Q2]. intros t w IT. apply picked_bottom; [exact (tuple_ints _ _ _ _ I IT)|exact (tuple_len t w IT)].
  Qed.

  Hypothesis RL : proper (rv_dist r) /\ total (rv_dist r) <= total d ^ n /\
    forall v, (Pr (rv_dist r) v == PrP (fun t => veqb v (vsumZ t)) (tuples (Z.to_nat n) d))%Q.

  Lemma int_eq_truth a b : (e <- py_op c OEq (oint a) (oint b) ;; truth e) = Ok (a =? b).
  Proof.
    unfold oint. rewrite op_cmp_values by reflexivity. cbn [bind]. rewrite truth_b01. f_equal.
    unfold vint, vcmp. rewrite ncmp_Q, cmp_holds_Q by reflexivity. cbn [related].
    apply bool_iff_eq. rewrite Qeq_bool_iff, Z.eqb_eq. change (numQ (NI a)) with (inject_Z a). change (numQ (NI b)) with (inject_Z b). apply inject_Z_injective.
  Qed.

  Lemma middle_body_law k : exists q, middle_of_body c (positional [oint k; ORV r]) = Ok (ORV q) /\ law_of (fun t => vsumZ (middle k t)) q.
  Proof.
    unfold middle_of_body. cbv zeta. change (need 0 "NUMBER" (positional [oint k; ORV r])) with (Ok (oint k)).
    change (need 1 "DICE" (positional [oint k; ORV r])) with (Ok (ORV r)). cbn [bind]. rewrite pool_len. cbn [bind]. rewrite int_eq_truth. cbn [bind].
    destruct (Z.eqb_spec k n) as [E|E].
    - exists r. split; [reflexivity|]. apply (law_ext vsumZ); [|exact RL]. intros t w IT. unfold middle. rewrite (tuple_len t w IT). subst k.
      replace ((n - n) / 2) with 0 by (rewrite Z.sub_diag; reflexivity). cbn [Z.to_nat skipn]. change (Z.to_nat 0) with 0%nat. cbn [skipn].
      rewrite firstn_all2 by (rewrite descending_length; pose proof (tuple_len t w IT); lia). unfold vsumZ. f_equal. apply sumZ_perm.
      apply Permutation_map, descending_perm.
    - rewrite int_eq_truth. cbn [bind]. destruct (Z.eqb_spec k 1) as [E1|E1].
      + subst k. assert (B : 1 <= 1 + (n - 1) / 2 <= n).
        { assert (HD := Z.div_mod (n - 1) 2 ltac:(lia)). assert (HM := Z.mod_pos_bound (n - 1) 2 ltac:(lia)). lia. }
        destruct (span_law (1 + (n - 1) / 2) 1) as (q & Q1 & Q2); [intros _; exact B|].
        assert (SE : span (1 + (n - 1) / 2) 1 = [1 + (n - 1) / 2]) by (unfold span; cbn [seq map]; rewrite Z.add_0_r; reflexivity).
        exists q. split.
        * rewrite <- Q1. rewrite SE. change (matmul c (OSeq (map vint [1 + (n - 1) / 2])) (ORV r)) with (rv_rmatmul c (OSeq (map vint [1 + (n - 1) / 2])) r).
          rewrite at_seq. cbn [map]. rewrite at_one. reflexivity.
        * eapply law_ext; [|exact Q2]. intros t w IT. exact (picked_middle n 1 t (tuple_len t w IT)).
      + rewrite sub_ints. cbn [bind].
        assert (FD : forall z, py_op c OFloorDiv (oint z) (oint 2) = Ok (oint (z / 2))) by (intro z; unfold oint; rewrite py_values; reflexivity).
        rewrite FD. cbn [bind]. rewrite add_ints. cbn [bind]. rewrite add_ints. cbn [bind]. rewrite sub_ints. cbn [bind]. rewrite add_ints. cbn [bind].
        set (from := 1 + (n - k) / 2). change (py_range (oint from) (oint (from + k - 1 + 1))) with (Ok (OIter (map OV (zrange from (from + k - 1 + 1))))).
        cbn [bind]. rewrite range_seq. cbn [bind]. replace (from + k - 1 + 1 - from) with k by lia.
        destruct (span_law from (Z.to_nat k)) as (q & Q1 & Q2); [lia|]. exists q. split; [exact Q1|].
        eapply law_ext; [|exact Q2]. intros t w IT. apply picked_middle. exact (tuple_len t w IT).
  Qed.
End Pool.

Lemma Pr_image {A} (g : A -> pval) (l : list (A * Z)) v : (Pr (image g l) v == PrP (fun a => veqb v (g a)) l)%Q.
Proof. unfold Pr, PrP, wt, total. rewrite !mass_image. reflexivity. Qed.

Lemma mass_indep_wsum {A B} P (a : list (A * Z)) (b : list (B * Z)) :
  mass P (indep a b) = wsum (fun x => mass (fun y => P (x, y)) b) a.
Proof.
  induction a as [|[x p] a IH]; [reflexivity|].
  change (indep ((x, p) :: a) b) with (map (fun y => ((x, fst y), p * snd y)) b ++ indep a b). rewrite mass_app, IH. cbn [wsum]. f_equal.
  rewrite (mass_map_const P (fun y => (x, y)) p). apply Z.mul_comm.
Qed.

Lemma average_PrP {A B} (Q : A -> B -> bool) (K : list (A * Z)) (L : list (B * Z)) : 0 < total K -> 0 < total L ->
  (average (fun u => PrP (Q u) L) K == PrP (fun ut => Q (fst ut) (snd ut)) (indep K L))%Q.
Proof.
  intros PK PL. unfold average, PrP. rewrite total_indep, mass_indep_wsum. cbn [fst snd].
  assert (E : (qsum (fun u => inject_Z (mass (Q u) L) / inject_Z (total L)) K == inject_Z (wsum (fun u => mass (Q u) L) K) / inject_Z (total L))%Q).
  { assert (NL : ~ (inject_Z (total L) == 0)%Q) by (intro X; change 0%Q with (inject_Z 0) in X; apply (proj1 (inject_Z_injective _ _)) in X; lia).
    clear PK. induction K as [|[u w] K IH]; [cbn [qsum wsum]; unfold Qdiv; change (inject_Z 0) with 0%Q; ring|]. cbn [qsum wsum]. rewrite IH, inject_Z_plus, inject_Z_mult. field. exact NL. }
  change (wsum (fun x => mass (fun y => Q x y) L) K) with (wsum (fun u => mass (Q u) L) K).
  rewrite E, inject_Z_mult. field. split; intro X; change 0%Q with (inject_Z 0) in X; apply (proj1 (inject_Z_injective _ _)) in X; lia.
Qed.

Lemma pool_facts c n x r : pool c n x r -> cfg_trunc c = false -> int_vals (rv_dist x) -> proper (rv_dist x) ->
  total (rv_dist x) ^ n <= SUM_LIMIT ->
  1 <= n /\ rv_die r = rv_dist x /\ rv_roll r = n /\
  (proper (rv_dist r) /\ total (rv_dist r) <= total (rv_dist x) ^ n /\
   forall v, (Pr (rv_dist r) v == PrP (fun t => veqb v (vsumZ t)) (tuples (Z.to_nat n) (rv_dist x)))%Q).
Proof.
  intros HP T I P L.
  assert (H : 1 <= n /\ rv_die r = rv_dist x /\ rv_roll r = n /\ exists calls, Forall int_call calls /\ roll_after c calls (oint n) (Some (ORV x)) = Ok (ORV r)).
  { destruct HP as [(N & calls & H & E)|(N & -> & R & S)].
    - destruct (roll_source c calls n x r H I N E) as [R D]. repeat split; auto; try lia. exists calls. auto.
    - subst n. split; [lia|]. split; [unfold rv_die; rewrite S; reflexivity|]. split; [exact R|]. exists []. split; [constructor|reflexivity]. }
  destruct H as (N & D & R & calls & H & E). repeat (split; [assumption|]).
  assert (L' : total (rv_dist x) ^ Z.abs n <= SUM_LIMIT) by (rewrite Z.abs_eq by lia; exact L).
  destruct (roll_int_pure_law c n x T P I L') as (r' & E' & RL). rewrite roll_rv_fresh, E' in E by auto. cbn in E. injection E as ->.
  destruct RL as [SF PR IR]. split; [exact PR|]. split.
  - pose proof (stands_total_le c _ _ PR SF) as K. rewrite dice_total_total, Z.abs_eq in K by lia. exact K.
  - intro v. rewrite <- dice_total_pos by lia. apply (stands_same_law c); auto. apply dice_total_int.
Qed.

Section Take.
  Variables (c : cfg) (n : Z) (x r : rv).
  Hypothesis T : cfg_trunc c = false.
  Hypothesis HH : cfg_highest c = true.
  Hypothesis HP : pool c n x r.
  Hypothesis I : int_vals (rv_dist x).
  Hypothesis C : canon (rv_dist x).
  Hypothesis P : 0 < total (rv_dist x).
  Hypothesis D : no_dropped c (rv_dist x).
  Let d := rv_dist x.

  Lemma take_mix f (g : Z -> list pval -> pval) kd :
    (forall k, exists q, f (positional [oint k; ORV r]) = Ok (ORV q) /\ law_of d n (g k) q) ->
    proper (rv_dist kd) -> int_vals (rv_dist kd) -> 1 <= n -> (total d ^ n) ^ Z.of_nat (length (rv_dist kd)) * total (rv_dist kd) <= SUM_LIMIT ->
    exists q, casting c of_D_sig f (positional [ORV kd; ORV r]) = Ok (ORV q) /\
      same_law (rv_dist q) (image (fun kt => g (toZ (fst kt)) (snd kt)) (indep (rv_dist kd) (tuples (Z.to_nat n) d))).
  Proof.
    intros HF PK IK N1 L.
    set (h := fun v => match f (positional [OV v; ORV r]) with Ok o => o | Err _ => ONone end).
    set (DD := fun v => match h v with ORV q => rv_dist q | _ => [] end).
    assert (HV : forall v, In v (vals (rv_dist kd)) -> exists q, f (positional [OV v; ORV r]) = Ok (ORV q) /\ law_of d n (g (toZ v)) q).
    { intros v J. assert (V : v_is_int v = true). { apply in_map_iff in J. destruct J as [[v' w] [<- J]]. exact (proj1 (Forall_forall _ _) IK _ J). }
      pose proof (HF (toZ v)) as X. unfold oint in X. rewrite (toZ_int v V) in X. exact X. }
    destruct (casting_mix c of_D_sig f (KPos 0) kd [(KPos 1, ORV r)] h DD) as (q & Q1 & _ & _ & _ & _ & Q2); auto.
    - repeat constructor; cbn; intuition discriminate.
    - repeat constructor.
    - intros v J. destruct (HV v J) as (q & E & (L1 & _)). unfold DD, h. change [(KPos 0, OV v); (KPos 1, ORV r)] with (positional [OV v; ORV r]).
      rewrite E. repeat split; auto; apply L1.
    - eapply Z.le_trans; [|exact L]. apply Z.mul_le_mono_nonneg_r; [apply Z.lt_le_incl; apply PK|].
      rewrite <- (map_length fst (rv_dist kd)). fold (vals (rv_dist kd)). rewrite <- (map_length (fun v => total (DD v))). apply zprod_le.
      apply Forall_map, Forall_forall. intros v J. destruct (HV v J) as (q & E & (L1 & L2 & _)). unfold DD, h. rewrite E. split; [|exact L2].
      apply Z.lt_le_incl. apply L1.
    - exists q. split; [exact Q1|]. intro v. rewrite Q2, Pr_image.
      transitivity (average (fun u => PrP (fun t => veqb v (g (toZ u) t)) (tuples (Z.to_nat n) d)) (rv_dist kd)).
      + unfold average. apply Qdiv_comp; [|reflexivity]. apply qsum_ext. intros u w J. apply (in_map fst) in J.
        destruct (HV u J) as (q' & E & (_ & _ & L3)). unfold DD, h. rewrite E. apply L3.
      + apply (average_PrP (fun u t => veqb v (g (toZ u) t))); [apply PK|]. rewrite total_tuples. apply Z.pow_pos_nonneg; [exact P|lia].
  Qed.

  Hypothesis L : total d ^ n <= SUM_LIMIT.

  Lemma take_facts : 1 <= n /\ (forall k,
    (exists q, highest_of_body c (positional [oint k; ORV r]) = Ok (ORV q) /\ law_of d n (fun t => vsumZ (top k t)) q) /\
    (exists q, lowest_of_body c (positional [oint k; ORV r]) = Ok (ORV q) /\ law_of d n (fun t => vsumZ (bottom k t)) q) /\
    (exists q, middle_of_body c (positional [oint k; ORV r]) = Ok (ORV q) /\ law_of d n (fun t => vsumZ (middle k t)) q)).
  Proof.
    destruct (pool_facts c n x r HP T I (conj (proj2 (proj2 (proj1 C))) P) L) as (N1 & RD & RR & RL). split; [exact N1|]. intro k.
    split; [|split].
    - apply highest_body_law; auto.
    - apply lowest_body_law; auto.
    - apply middle_body_law; auto.
  Qed.

  Lemma law_same g q : law_of d n g q -> same_law (rv_dist q) (image g (tuples (Z.to_nat n) d)).
  Proof. intros (_ & _ & H) v. rewrite H, Pr_image. reflexivity. Qed.

  Lemma take_numbers k :
    (exists q, highest_N_of_D c (positional [oint k; ORV r]) = Ok (ORV q) /\ same_law (rv_dist q) (image (fun t => vsumZ (top k t)) (tuples (Z.to_nat n) d))) /\
    (exists q, lowest_N_of_D c (positional [oint k; ORV r]) = Ok (ORV q) /\ same_law (rv_dist q) (image (fun t => vsumZ (bottom k t)) (tuples (Z.to_nat n) d))) /\
    (exists q, middle_N_of_D c (positional [oint k; ORV r]) = Ok (ORV q) /\ same_law (rv_dist q) (image (fun t => vsumZ (middle k t)) (tuples (Z.to_nat n) d))).
  Proof.
    destruct take_facts as (_ & H). destruct (H k) as ((q1 & A1 & B1) & (q2 & A2 & B2) & (q3 & A3 & B3)).
    split; [|split].
    - exists q1. split; [exact A1|exact (law_same _ _ B1)].
    - exists q2. split; [exact A2|exact (law_same _ _ B2)].
    - exists q3. split; [exact A3|exact (law_same _ _ B3)].
  Qed.

  Lemma take_dice kd : proper (rv_dist kd) -> int_vals (rv_dist kd) ->
    (total d ^ n) ^ Z.of_nat (length (rv_dist kd)) * total (rv_dist kd) <= SUM_LIMIT ->
    let K := indep (rv_dist kd) (tuples (Z.to_nat n) d) in
    (exists q, highest_N_of_D c (positional [ORV kd; ORV r]) = Ok (ORV q) /\ same_law (rv_dist q) (image (fun kt => vsumZ (top (toZ (fst kt)) (snd kt))) K)) /\
    (exists q, lowest_N_of_D c (positional [ORV kd; ORV r]) = Ok (ORV q) /\ same_law (rv_dist q) (image (fun kt => vsumZ (bottom (toZ (fst kt)) (snd kt))) K)) /\
    (exists q, middle_N_of_D c (positional [ORV kd; ORV r]) = Ok (ORV q) /\ same_law (rv_dist q) (image (fun kt => vsumZ (middle (toZ (fst kt)) (snd kt))) K)).
  Proof.
    intros PK IK LK K. destruct take_facts as (N1 & H). split; [|split].
    - apply (take_mix (highest_of_body c) (fun k t => vsumZ (top k t)) kd); auto. intro k. apply H.
    - apply (take_mix (lowest_of_body c) (fun k t => vsumZ (bottom k t)) kd); auto. intro k. apply H.
    - apply (take_mix (middle_of_body c) (fun k t => vsumZ (middle k t)) kd); auto. intro k. apply H.
  Qed.
End Take.
