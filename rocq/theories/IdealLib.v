(** The functions of the library and what the ideal runtime takes them to be. *)
From Coq Require Import String Ascii List ZArith Znumtheory QArith Qreduction Qabs Bool Permutation Sorted Lia Lqa.
From Verif Require Import PyBase Num Val Sorting RVModel UtilModel Obj RollModel AtModel DispModel CastModel LibModel Spec SeqSpec LibSpec CmpFacts SortFacts
  MassFacts NumFacts RVFacts ConstructFacts ConvFacts IntFacts RoundFacts LimitFacts OpFacts UnaryFacts MixFacts RollFacts RollSpec
  RollObjFacts OrderFacts ExpandFacts SelectFacts CastMixFacts DispFacts CastSpec CastFacts SeqFacts LibFacts LibLaws PoolFacts.
From Verif Require Import LexModel ParseModel SynSpec Runtime RunModel.
From Verif Require Import IdealSpec IdealFacts IdealOps IdealPick IdealVals IdealCast.
Import ListNotations.
Open Scope Z_scope.
Open Scope list_scope.

Notation span := PoolFacts.span.

(** ** Common denominators *)

(** all probabilities are multiples of [1 / N] *)
Definition whole {A : Type} (N : Z) (l : law A) : Prop := Forall (fun aq => exists m, (inject_Z N * snd aq == inject_Z m)%Q) l.
Lemma whole_sure {A} (a : A) N : whole N (sure a).
Proof. constructor; [|constructor]. exists N. cbn [snd]. ring. Qed.
Lemma whole_draw {A B} N M (l : law A) (f : A -> law B) : whole N l -> (forall a q, In (a, q) l -> whole M (f a)) -> whole (N * M) (draw l f).
Proof.
  intros HN HM. unfold whole in *. rewrite Forall_forall in HN. apply Forall_forall. intros [b r] H. unfold draw in H.
  apply in_flat_map in H as [[a q] [Ha H]]. cbn [fst snd] in H. apply in_map_iff in H as [[b' s] [E H]]. cbn [fst snd] in E. injection E as <- <-.
  destruct (HN _ Ha) as [m Em]. specialize (HM a q Ha). rewrite Forall_forall in HM. destruct (HM _ H) as [k Ek]. cbn [snd] in *.
  exists (m * k). rewrite !inject_Z_mult, <- Em, <- Ek. ring.
Qed.
Lemma whole_rolls N n t : whole N t -> whole (N ^ Z.of_nat n) (rolls n t).
Proof.
  intro H. induction n as [|n IH]; [apply whole_sure|]. cbn [rolls]. cbv zeta. rewrite Nat2Z.inj_succ, Z.pow_succ_r by lia.
  apply whole_draw; [exact H|]. intros a q _. rewrite <- (Z.mul_1_r (N ^ Z.of_nat n)). apply whole_draw; [exact IH|].
  intros b r _. apply whole_sure.
Qed.
Lemma whole_lcd t : whole (lcd t) t.
Proof.
  apply Forall_forall. intros [z q] H. exists (Qnum q * (lcd t / Zpos (Qden q))). cbn [snd]. symmetry.
  apply numerator_part; [exact (lcd_divides t z q H)|apply lcd_pos].
Qed.
Definition reduced (t : table) : Prop := Forall (fun zq => Qred (snd zq) = snd zq) t.
Lemma Qred_idem q : Qred (Qred q) = Qred q.
Proof. apply Qred_complete, Qred_correct. Qed.
Lemma add_whole N z q t : (exists m, (inject_Z N * q == inject_Z m)%Q) -> reduced t -> whole N t -> reduced (add_to z q t) /\ whole N (add_to z q t).
Proof.
  intros [m Em] R W. induction t as [|[y r] t IH]; cbn [add_to].
  - split; (constructor; [|constructor]); cbn [snd]; [apply Qred_idem|]. exists m. rewrite Qred_correct. exact Em.
  - inversion R as [|? ? R1 R2]; subst. inversion W as [|? ? W1 W2]; subst. destruct (z ?= y).
    + split; (constructor; [|assumption]); cbn [snd] in *; [apply Qred_idem|]. destruct W1 as [k Ek]. exists (m + k).
      rewrite Qred_correct, inject_Z_plus, <- Em, <- Ek. ring.
    + split; (constructor; [|assumption]); cbn [snd]; [apply Qred_idem|]. exists m. rewrite Qred_correct. exact Em.
    + destruct (IH R2 W2) as [A B]. split; constructor; assumption.
Qed.
Lemma collect_whole N l : whole N l -> reduced (collect l) /\ whole N (collect l).
Proof.
  induction 1 as [|[z q] l H _ [A B]]; [split; constructor|]. cbn [collect fold_right fst snd] in *. apply add_whole; assumption.
Qed.
Lemma reduced_divides N q : Qred q = q -> (exists m, (inject_Z N * q == inject_Z m)%Q) -> (Zpos (Qden q) | N).
Proof.
  intros R [m E]. destruct q as [a d]. unfold Qeq in E. cbn [Qmult Qnum Qden inject_Z] in *. rewrite Z.mul_1_r in E.
  assert (G : Z.gcd a (Zpos d) = 1).
  { unfold Qred in R. pose proof (Z.ggcd_gcd a (Zpos d)) as GG. pose proof (Z.ggcd_correct_divisors a (Zpos d)) as GD.
    destruct (Z.ggcd a (Zpos d)) as [g [aa bb]]. cbn [fst] in GG. destruct GD as [D1 D2]. injection R as R1 R2.
    assert (G0 : 0 < g) by (pose proof (Z.gcd_nonneg a (Zpos d)); destruct (Z.eq_dec g 0) as [->|]; [rewrite Z.mul_0_l in D2; discriminate|lia]).
    assert (B0 : 0 < bb) by nia. assert (BB : bb = Zpos d) by (rewrite <- R2; symmetry; apply Z2Pos.id; exact B0).
    rewrite <- GG. rewrite BB in D2. nia. }
  apply (Gauss (Zpos d) a N).
  - exists m. rewrite Z.mul_comm with (n := a). rewrite E. reflexivity.
  - apply rel_prime_sym. apply Zgcd_1_rel_prime. exact G.
Qed.
Lemma lcd_whole N t : 0 < N -> reduced t -> whole N t -> lcd t <= N.
Proof.
  intros P R W. apply Z.divide_pos_le; [exact P|]. induction R as [|[z q] t R1 R2 IH]; [exists N; cbn; lia|].
  inversion W as [|? ? W1 W2]; subst. cbn [lcd fold_right snd] in *. apply Z.lcm_least; [apply reduced_divides; assumption|exact (IH W2)].
Qed.
Lemma lcd_collect N l : 0 < N -> whole N l -> lcd (collect l) <= N.
Proof. intros P W. destruct (collect_whole N l W). now apply lcd_whole. Qed.
Lemma lcd_of_rolls n t (f : list Z -> Z) : lcd (collect (draw (rolls n t) (fun l => sure (f l)))) <= lcd t ^ Z.of_nat n.
Proof.
  apply lcd_collect; [apply Z.pow_pos_nonneg; [apply lcd_pos|lia]|]. rewrite <- (Z.mul_1_r (lcd t ^ Z.of_nat n)).
  apply whole_draw; [apply whole_rolls, whole_lcd|]. intros a q _. apply whole_sure.
Qed.

(** ** Bodies that take numbers and sequences *)

Lemma Qint_eqb a b : Qeq_bool (vq (vint a)) (vq (vint b)) = (a =? b).
Proof.
  apply Bool.eq_iff_eq_true. rewrite Qeq_bool_iff, Z.eqb_eq. cbn [vq vint numQ]. split; [apply inject_eq|now intros ->].
Qed.
Lemma Qint_leb a b : Qle_bool (vq (vint a)) (vq (vint b)) = (a <=? b).
Proof.
  apply Bool.eq_iff_eq_true. rewrite Qle_bool_iff, Z.leb_le. cbn [vq vint numQ]. rewrite <- Zle_Qle. reflexivity.
Qed.

Lemma occurs_vint z l : occurs (vint z) (map vint l) = existsb (Z.eqb z) l.
Proof.
  unfold occurs. induction l as [|y l IH]; [reflexivity|]. cbn [map existsb]. rewrite IH, Qint_eqb, Z.eqb_sym. reflexivity.
Qed.
Lemma pairs_vint vs l : equal_pairs (map vint vs) (map vint l) = IdealSpec.sum (map (fun v => Z.of_nat (length (filter (Z.eqb v) l))) vs).
Proof.
  unfold equal_pairs. induction vs as [|v vs IH]; [reflexivity|]. cbn [map list_prod IdealSpec.sum fold_right].
  fold (IdealSpec.sum (map (fun v => Z.of_nat (length (filter (Z.eqb v) l))) vs)). rewrite <- IH. clear IH.
  generalize (list_prod (map vint vs) (map vint l)). intro r. unfold SeqSpec.how_many. induction l as [|y l IH]; [cbn; lia|].
  cbn [map app filter fst snd]. rewrite Qint_eqb. destruct (v =? y); cbn [length]; rewrite ?Nat2Z.inj_succ, IH; lia.
Qed.
Lemma put_in_perm z l : Permutation (z :: l) (put_in z l).
Proof.
  induction l as [|y l IH]; [reflexivity|]. cbn [put_in]. destruct (y <=? z); [reflexivity|].
  transitivity (y :: z :: l); [apply perm_swap|]. constructor. exact IH.
Qed.
Lemma downwards_perm l : Permutation l (downwards l).
Proof. induction l as [|z l IH]; [reflexivity|]. cbn [downwards fold_right]. fold (downwards l). rewrite <- put_in_perm. now constructor. Qed.
Lemma downwards_length l : length (downwards l) = length l.
Proof. symmetry. apply Permutation_length, downwards_perm. Qed.

Lemma sort_vint l : isort_rev vleb (map vint l) = map vint (downwards l).
Proof.
  rewrite <- descending_vint. apply (sorted_perm_unique (fun a b => vleb b a = true)).
  - assert (A : forall a, In a (isort_rev vleb (map vint l)) -> exists z, a = vint z).
    { intros a Ia. apply (Permutation_in _ (Permutation_sym (SortFacts.isort_rev_perm vleb (map vint l)))) in Ia.
      apply in_map_iff in Ia as [z [<- _]]. now exists z. }
    assert (E : forall x y, vleb (vint x) (vint y) = true -> x <= y).
    { intros x y. unfold vleb, leb_of. rewrite vcmp_int. intro X. apply Z.leb_le. rewrite Z.leb_compare. exact X. }
    intros a b Ia Ib La Lb. destruct (A a Ia) as [x ->], (A b Ib) as [y ->]. apply E in La, Lb. f_equal. lia.
  - apply isort_rev_sorted.
  - apply descending_sorted.
  - etransitivity; [apply Permutation_sym, SortFacts.isort_rev_perm|]. apply descending_perm.
Qed.

Section bodies.
Variable c : cfg.
Hypothesis TR : cfg_trunc c = false.
Notation value := (lib_value (cfg_explode c) (cfg_highest c)).

Lemma seq_out l : mk_seq [OIter (map OV (map vint l))] = Ok (OSeq (map vint l)).
Proof. rewrite mk_seq_iter. apply mk_seq_numbers, numbers_vint. Qed.

Lemma simple_meets f vs os : Forall2 is_val vs os ->
  meets (value f vs)
    (match f with
     | LAbsolute => absolute_body c (positional os)
     | LContains => contains_body c (positional os)
     | LCount => count_in_body c (positional os)
     | LHighestOf => pick_body c Val.OGt (positional os)
     | LLowestOf => pick_body c Val.OLt (positional os)
     | LReverse => reverse_body (positional os)
     | LSort => sort_body (positional os)
     | _ => Err Unmodelled
     end) \/ match f with LExplode | LMaximum | LHighest | LLowest | LMiddle => True | _ => False end.
Proof.
  intro H. destruct f; try (right; exact Logic.I); left;
    (destruct H as [|a a' vs1 os1 Ha H]; [apply meets_err|]); (destruct H as [|b b' vs2 os2 Hb H]);
    try (destruct Ha; apply meets_err); try (destruct H; [|destruct Ha, Hb; apply meets_err]).
  - destruct Ha; try apply meets_err. cbn [lib_value]. change (oint z) with (OV (VN (NI z))). rewrite absolute_body_law. apply meets_ok.
    replace (OV (vabs (VN (NI z)))) with (oint (Z.abs z)); [constructor|]. unfold oint, vint, vabs, nltb.
    pose proof (vcmp_int z 0) as E. cbn [vcmp vint] in E. rewrite E. do 2 f_equal. destruct (Z.compare_spec z 0); cbn [nneg]; f_equal; lia.
  - destruct Ha; try apply meets_err. destruct Hb; try apply meets_err. cbn [lib_value].
    change (oint z) with (OV (VN (NI z))). rewrite (contains_body_law c (map vint l) (NI z) (numbers_vint l)).
    change (VN (NI z)) with (vint z). rewrite occurs_vint. apply meets_ok. rewrite b01_holds. constructor.
  - destruct Ha; try apply meets_err. destruct Hb; try apply meets_err. cbn [lib_value].
    rewrite (count_in_body_law c _ _ (numbers_vint l) (numbers_vint l0)), pairs_vint. apply meets_ok. constructor.
  - destruct Ha; try apply meets_err. destruct Hb; try apply meets_err. cbn [lib_value].
    change (oint z) with (OV (vint z)). change (oint z0) with (OV (vint z0)). rewrite pick_gt by reflexivity. unfold larger. rewrite Qint_leb.
    apply meets_ok. replace (OV (if z <=? z0 then vint z0 else vint z)) with (oint (Z.max z z0)); [constructor|].
    unfold oint. do 2 f_equal. destruct (Z.leb_spec z z0); f_equal; f_equal; lia.
  - destruct Ha; try apply meets_err. destruct Hb; try apply meets_err. cbn [lib_value].
    change (oint z) with (OV (vint z)). change (oint z0) with (OV (vint z0)). rewrite pick_lt by reflexivity. unfold smaller. rewrite Qint_leb.
    apply meets_ok. replace (OV (if z0 <=? z then vint z0 else vint z)) with (oint (Z.min z z0)); [constructor|].
    unfold oint. f_equal. destruct (Z.leb_spec z0 z); f_equal; f_equal; lia.
  - destruct Ha; try apply meets_err. cbn [lib_value]. unfold reverse_body. change (need 0 "SEQUENCE" (positional [OSeq (map vint l)])) with (Ok (OSeq (map vint l))).
    cbn [bind]. rewrite <- map_rev, seq_out. apply meets_ok. constructor.
  - destruct Ha; try apply meets_err. cbn [lib_value]. unfold sort_body. change (need 0 "SEQUENCE" (positional [OSeq (map vint l)])) with (Ok (OSeq (map vint l))).
    cbn [bind]. rewrite sort_vint, seq_out. apply meets_ok. constructor.
Qed.

(** ** Some of the dice of a roll *)

Lemma nth_skip (l : list Z) j : forall i, nth (j + i) l 0 = nth i (skipn j l) 0.
Proof.
  revert l. induction j as [|j IH]; intros l i; [reflexivity|]. destruct l as [|z l]; [cbn [skipn plus nth]; destruct i; reflexivity|]. apply IH.
Qed.
Lemma sum_first l : forall m, IdealSpec.sum (map (fun i => nth i l 0) (seq 0 m)) = IdealSpec.sum (firstn m l).
Proof.
  induction l as [|z l IH]; intro m.
  - rewrite firstn_nil. generalize 0%nat. induction m as [|m IHm]; intro i; [reflexivity|]. cbn [seq map IdealSpec.sum fold_right].
    fold (IdealSpec.sum (map (fun i => nth i (@nil Z) 0) (seq (S i) m))). rewrite IHm. destruct i; reflexivity.
  - destruct m as [|m]; [reflexivity|]. cbn [seq map IdealSpec.sum fold_right firstn nth]. rewrite <- seq_shift, map_map.
    fold (IdealSpec.sum (map (fun i => nth (S i) (z :: l) 0) (seq 0 m))). cbn [nth]. fold (IdealSpec.sum (firstn m l)). now rewrite IH.
Qed.
Lemma nth_of_nth l k : 1 <= k -> nth_of k l = nth (Z.to_nat (k - 1)) l 0.
Proof.
  intro K. unfold nth_of. destruct (Z.leb_spec 1 k); [|lia]. destruct (Z.leb_spec k (Z.of_nat (length l))); [reflexivity|].
  symmetry. apply nth_overflow. lia.
Qed.
(** positions from [a], [m] of them *)
Lemma sum_span l a m : 1 <= a -> IdealSpec.sum (map (fun k => nth_of k l) (span a m)) = IdealSpec.sum (firstn m (skipn (Z.to_nat (a - 1)) l)).
Proof.
  intro A. rewrite <- sum_first. f_equal. unfold span. rewrite map_map. apply map_ext. intro i. rewrite nth_of_nth by lia.
  rewrite <- nth_skip. f_equal. lia.
Qed.
Lemma sum_span_low l a m : a <= 1 -> IdealSpec.sum (map (fun k => nth_of k l) (span a m)) = IdealSpec.sum (firstn (Z.to_nat (a + Z.of_nat m - 1)) l).
Proof.
  revert a. induction m as [|m IH]; intros a A.
  - cbn [span seq map]. replace (Z.to_nat (a + Z.of_nat 0 - 1)) with O by lia. reflexivity.
  - destruct (Z.eq_dec a 1) as [->|N].
    + rewrite sum_span by lia. replace (Z.to_nat (1 + Z.of_nat (S m) - 1)) with (S m) by lia. reflexivity.
    + rewrite span_S. cbn [map IdealSpec.sum fold_right]. fold (IdealSpec.sum (map (fun k => nth_of k l) (span (a + 1) m))).
      rewrite IH by lia. unfold nth_of. destruct (Z.leb_spec 1 a); [lia|]. cbn [andb]. rewrite Z.add_0_l. do 2 f_equal. lia.
Qed.
Lemma rolls_length t n l q : In (l, q) (rolls n t) -> length l = n.
Proof.
  revert l q. induction n as [|n IH]; intros l q H.
  - destruct H as [E|[]]. injection E as <- _. reflexivity.
  - cbn [rolls] in H. cbv zeta in H. unfold draw in H. apply in_flat_map in H as [[x p] [_ H]]. apply in_map_iff in H as [[m r] [E H]].
    cbn [fst snd] in E. injection E as -> _. apply in_flat_map in H as [[m' r'] [H' H]]. apply in_map_iff in H as [[m2 r2] [E H]].
    cbn [fst snd] in E. injection E as <- _. destruct H as [E|[]]. injection E as <- _. cbn [length]. f_equal. exact (IH _ _ H').
Qed.
Lemma draw_ext {A B} (f g : A -> law B) (l : law A) : (forall a q, In (a, q) l -> f a = g a) -> draw l f = draw l g.
Proof.
  intro H. unfold draw. induction l as [|[a q] l IH]; [reflexivity|]. cbn [flat_map fst snd]. rewrite (H a q) by (left; reflexivity).
  rewrite IH; [reflexivity|]. intros b r I. apply (H b r). right. exact I.
Qed.

Hypothesis HI : cfg_highest c = true.
Lemma span_meets (f : list Z -> list Z) a m t n s x : is_dice t (Some (n, s)) x -> (m = 1%nat -> 1 <= a <= Z.of_nat n) ->
  (forall l, length l = n -> IdealSpec.sum (map (fun k => nth_of k l) (span a m)) = IdealSpec.sum (f l)) ->
  meets (kept f n s) (matmul c (OSeq (map vint (span a m))) (ORV x)).
Proof.
  intros D M E. unfold kept. destruct (lcd s ^ Z.of_nat n <=? bound) eqn:B; [|apply meets_err].
  pose proof (at_meets c TR (span a m) (IDice t (Some (n, s))) (ORV x) (OSeq (map vint (span a m))) (is_die _ _ _ D) (or_introl eq_refl)) as H.
  change (my_matmul c (OSeq (map vint (span a m))) (ORV x)) with (matmul c (OSeq (map vint (span a m))) (ORV x)) in H.
  rewrite HI in H. cbn [ideal_at] in H. rewrite B in H.
  assert (X : (if match span a m with [_] => true | _ => true end then true else false) = true) by (destruct (span a m) as [|? [|]]; reflexivity).
  destruct (match span a m with [_] => true | _ => true end); [|discriminate X]. clear X.
  assert (O : match span a m with [k] => negb ((1 <=? k) && (k <=? Z.of_nat n)) | _ => false end = false).
  { destruct m as [|[|m]]; [reflexivity| |].
    - specialize (M eq_refl). unfold span. cbn [seq map]. rewrite Z.add_0_r. apply negb_false_iff, andb_true_iff. rewrite !Z.leb_le. exact M.
    - rewrite !span_S. reflexivity. }
  rewrite O in H. unfold in_order in H.
  erewrite (draw_ext _ (fun l => sure (IdealSpec.sum (f (downwards l))))) in H; [exact H|].
  intros l q Hl. cbv beta. f_equal. apply E. rewrite downwards_length. exact (rolls_length _ _ _ _ Hl).
Qed.

Lemma dice_len t n s x : is_dice t (Some (n, s)) x -> py_len (ORV x) = Ok (Z.of_nat n).
Proof. intros [_ [_ [R _]]]. unfold py_len, my_len. rewrite R. destruct (Z.ltb_spec (Z.of_nat n) 0); [lia|reflexivity]. Qed.

Lemma highest_meets k t n s x : is_dice t (Some (n, s)) x ->
  meets (kept (firstn (Z.to_nat k)) n s) (highest_of_body c (positional [oint k; ORV x])).
Proof.
  intro D. unfold highest_of_body. cbv zeta. change (need 0 "NUMBER" (positional [oint k; ORV x])) with (Ok (oint k)).
  change (need 1 "DICE" (positional [oint k; ORV x])) with (Ok (ORV x)). cbn [bind]. rewrite LibLaws.add_ints. cbn [bind].
  change (py_range (oint 1) (oint (k + 1))) with (Ok (OIter (map OV (zrange 1 (k + 1))))). cbn [bind]. rewrite range_seq. cbn [bind].
  apply (span_meets _ _ _ t n s x D); [destruct D as [_ [N _]]; lia|]. intros l _. rewrite sum_span by lia. change (Z.to_nat (1 - 1)) with O.
  cbn [skipn]. do 2 f_equal. lia.
Qed.
Lemma lowest_meets k t n s x : is_dice t (Some (n, s)) x ->
  meets (kept (skipn (n - Z.to_nat k)) n s) (lowest_of_body c (positional [oint k; ORV x])).
Proof.
  intro D. unfold lowest_of_body. cbv zeta. change (need 0 "NUMBER" (positional [oint k; ORV x])) with (Ok (oint k)).
  change (need 1 "DICE" (positional [oint k; ORV x])) with (Ok (ORV x)). cbn [bind]. rewrite (dice_len t n s x D). cbn [bind].
  rewrite sub_ints. cbn [bind]. rewrite LibLaws.add_ints. cbn [bind].
  change (py_range (oint (Z.of_nat n - k + 1)) (oint (Z.of_nat n + 1))) with (Ok (OIter (map OV (zrange (Z.of_nat n - k + 1) (Z.of_nat n + 1))))).
  cbn [bind]. rewrite range_seq. cbn [bind].
  apply (span_meets _ _ _ t n s x D); [destruct D as [_ [N _]]; lia|]. intros l L.
  destruct (Z_le_gt_dec (Z.of_nat n) k) as [K|K].
  - rewrite sum_span_low by lia. replace (n - Z.to_nat k)%nat with O by lia. cbn [skipn]. rewrite firstn_all2 by lia. reflexivity.
  - rewrite sum_span by lia. destruct (Z_le_gt_dec k 0) as [K0|K0].
    + replace (n - Z.to_nat k)%nat with n by lia. rewrite (skipn_all2 (n := n) l) by lia.
      replace (Z.to_nat (Z.of_nat n + 1 - (Z.of_nat n - k + 1))) with O by lia. reflexivity.
    + replace (Z.to_nat (Z.of_nat n - k + 1 - 1)) with (n - Z.to_nat k)%nat by lia. rewrite firstn_all2; [reflexivity|].
      rewrite skipn_length. lia.
Qed.
Lemma middle_meets k t n s x : is_dice t (Some (n, s)) x ->
  meets (value LMiddle [INum k; IDice t (Some (n, s))]) (middle_of_body c (positional [oint k; ORV x])).
Proof.
  intro D. cbn [lib_value]. rewrite HI. unfold middle_of_body. cbv zeta. change (need 0 "NUMBER" (positional [oint k; ORV x])) with (Ok (oint k)).
  change (need 1 "DICE" (positional [oint k; ORV x])) with (Ok (ORV x)). cbn [bind]. rewrite (dice_len t n s x D). cbn [bind].
  rewrite int_eq_truth. cbn [bind]. destruct (Z.eqb_spec k (Z.of_nat n)) as [E|E]; [apply meets_ok; now constructor|].
  rewrite int_eq_truth. cbn [bind].
  assert (N : (1 <= n)%nat) by apply D.
  assert (HD := Z.div_mod (Z.of_nat n - k) 2 ltac:(lia)). assert (HM := Z.mod_pos_bound (Z.of_nat n - k) 2 ltac:(lia)).
  set (h := (Z.of_nat n - k) / 2) in *.
  assert (SPAN : forall l, length l = n -> IdealSpec.sum (map (fun k => nth_of k l) (span (1 + h) (Z.to_nat k))) =
                   IdealSpec.sum (firstn (Z.to_nat k) (skipn (Z.to_nat h) l))).
  { intros l L. destruct (Z_le_gt_dec 0 h) as [K|K].
    - rewrite sum_span by lia. do 3 f_equal. lia.
    - rewrite sum_span_low by lia. replace (Z.to_nat h) with O by lia. cbn [skipn]. rewrite !firstn_all2; [reflexivity|lia|lia]. }
  destruct (Z.eqb_spec k 1) as [K|K].
  - subst k. assert (B : 1 <= 1 + h <= Z.of_nat n) by lia.
    pose proof (span_meets _ (1 + h) 1 t n s x D (fun _ => B) SPAN) as H.
    change (matmul c (OSeq (map vint (span (1 + h) 1))) (ORV x)) with (rv_rmatmul c (OSeq (map vint (span (1 + h) 1))) x) in H.
    rewrite at_seq in H. unfold span in H. cbn [seq map] in H. rewrite Z.add_0_r, at_one in H. exact H.
  - rewrite sub_ints. cbn [bind].
    assert (FD : forall z, py_op c Val.OFloorDiv (oint z) (oint 2) = Ok (oint (z / 2))) by (intro z; unfold oint; rewrite py_values; reflexivity).
    rewrite FD. cbn [bind]. rewrite LibLaws.add_ints. cbn [bind]. rewrite LibLaws.add_ints. cbn [bind]. rewrite sub_ints. cbn [bind]. rewrite LibLaws.add_ints. cbn [bind].
    fold h. set (from := 1 + h) in *. change (py_range (oint from) (oint (from + k - 1 + 1))) with (Ok (OIter (map OV (zrange from (from + k - 1 + 1))))).
    cbn [bind]. rewrite range_seq. cbn [bind]. replace (from + k - 1 + 1 - from) with k by lia.
    apply (span_meets _ _ _ t n s x D); [lia|exact SPAN].
Qed.

(** ** The highest value of a die *)

Lemma last_rev (l : list Z) : nth_of 1 (rev l) = last l 0.
Proof.
  destruct (rev l) as [|z r] eqn:E.
  - apply (f_equal (@rev Z)) in E. rewrite rev_involutive in E. subst l. reflexivity.
  - apply (f_equal (@rev Z)) in E. rewrite rev_involutive in E. subst l. cbn [rev]. rewrite last_last. unfold nth_of. cbn [length].
    rewrite Nat2Z.inj_succ. destruct (Z.leb_spec 1 (Z.succ (Z.of_nat (length r)))); [reflexivity|lia].
Qed.
Lemma maximum_is t x : reps t (rv_dist x) -> maximum_body c (positional [ORV x]) = Ok (oint (top_of t)).
Proof.
  intro R. unfold maximum_body. change (need 0 "DIE" (positional [ORV x])) with (Ok (ORV x)). cbn [bind]. rewrite mk_seq_die. cbn [bind].
  rewrite (reps_vals t _ R), (reverse_law c _ (numbers_vint (map fst t))). cbn [bind]. rewrite position_int, <- map_rev, entry_nth, last_rev. reflexivity.
Qed.
Lemma maximum_of_is x : maximum_of c (positional [ORV x]) = maximum_body c (positional [ORV x]).
Proof. reflexivity. Qed.

(** ** Exploding *)

Section explode.
Variables (t : table) (x : rv) (m : Z).
Hypothesis R : reps t (rv_dist x).
Let N := lcd t.

Definition blast (k : nat) : law Z := draw (rolls (S k) t) (fun l => sure (burst m l)).
Lemma ex_one g n : (ex (fun _ => g) (rolls n t) == g)%Q.
Proof.
  induction n as [|n IH]; [cbn [rolls]; apply ex_sure|]. rewrite ex_rolls_S. transitivity (ex (fun _ => g * 1)%Q t).
  - apply ex_ext. intros a q _. cbv beta. rewrite IH. ring.
  - rewrite (ex_cmul g (fun _ => 1%Q)), (reps_one t _ R). ring.
Qed.
Lemma ex_blast_0 g : (ex g (blast 0) == ex g t)%Q.
Proof.
  unfold blast. rewrite ex_draw, ex_rolls_S. apply ex_ext. intros a q _. cbn [rolls]. rewrite ex_sure. cbv beta. rewrite ex_sure.
  cbn [burst]. destruct (a =? m); rewrite Z.add_0_r; reflexivity.
Qed.
Lemma ex_blast_S g k : (ex g (blast (S k)) == ex (fun a => if a =? m then ex (fun y => g (m + y)%Z) (blast k) else g a) t)%Q.
Proof.
  unfold blast. rewrite ex_draw, ex_rolls_S. apply ex_ext. intros a q _. destruct (Z.eqb_spec a m) as [->|NE].
  - rewrite ex_draw. apply ex_ext. intros l r _. rewrite !ex_sure. cbn [burst]. rewrite Z.eqb_refl. reflexivity.
  - transitivity (ex (fun _ => g a) (rolls (S k) t)); [|apply ex_one]. apply ex_ext. intros l r _. rewrite ex_sure. cbn [burst].
    apply Z.eqb_neq in NE. rewrite NE, Z.add_0_r. reflexivity.
Qed.
Lemma blast_fine k : fine (collect (blast k)).
Proof.
  apply collect_fine. unfold blast. apply positive_draw; [apply positive_rolls, (rp_fine _ _ R)|]. intros l q _. apply positive_sure.
Qed.
Lemma blast_whole k : whole (N ^ Z.of_nat (S k)) (blast k).
Proof.
  rewrite <- (Z.mul_1_r (N ^ Z.of_nat (S k))). apply whole_draw; [apply whole_rolls, whole_lcd|]. intros a q _. apply whole_sure.
Qed.

Lemma one_die_plan mx d : make_plan c explode_helper_sig (explode_args (ORV x) (oint mx) (ORV x) d) =
  Ok (PProduct (map (fun vw => ((KPos 0, OV (fst vw)) :: [(KPos 1, oint mx); (KName "ORIG_DIE", ORV x); (KName "depth", oint d)], snd vw)) (rv_dist x))).
Proof.
  transitivity (Ok (PProduct (map (fun vw => (fill (explode_args (ORV x) (oint mx) (ORV x) d) [KPos 0] (fst vw), snd vw))
    (product [map (fun vp => (OV (fst vp), snd vp)) (rv_dist x)])))); [reflexivity|].
  apply (f_equal (fun l => Ok (PProduct l))). cbn [product]. clear R. induction (rv_dist x) as [|[v w] l IH]; [reflexivity|].
  cbn [map flat_map app fst snd] in *. rewrite IH, Z.mul_1_r. reflexivity.
Qed.
Lemma helper_mix F mx d (T : Z -> table) (out : Z -> obj) M :
  (forall z, In z (map fst t) ->
     F ((KPos 0, oint z) :: [(KPos 1, oint mx); (KName "ORIG_DIE", ORV x); (KName "depth", oint d)]) = Ok (out z) /\
     single (out z) = Ok (out z) /\ comes (Some (T z)) (out z) /\ whole M (T z)) ->
  0 < M -> N * M <= bound ->
  forall r, fine r -> (forall g, (ex g r == ex (fun z => ex g (T z)) t)%Q) ->
  exists y, casting c explode_helper_sig F (explode_args (ORV x) (oint mx) (ORV x) d) = Ok (ORV y) /\ is_dice r (Some (1%nat, r)) y.
Proof.
  intros HF MP B r FR ER. unfold casting, casting_in. rewrite one_die_plan. cbn [bind].
  match goal with |- context [mapF _ _ ?F' ?l] => set (G := F'); set (calls := l) end.
  set (os := map (fun zq => out (fst zq)) t). set (ts := map (fun zq : Z * Q => Some (T (fst zq))) t).
  pose proof (rp_stands _ _ R) as ST. pose proof (rp_pos _ _ R) as PW. unfold positive_weights, probs in PW. rewrite Forall_map in PW.
  assert (X : mapF (F := res) (fun A r => r) (@bind) G calls = Ok os /\ Forall2 comes ts os /\
              Forall2 (fun q w => (inject_Z w == inject_Z (total (rv_dist x)) * q)%Q /\ 0 < w) (map snd t) (map snd calls)).
  { unfold os, ts, calls. generalize (total (rv_dist x)) ST. clear ST. intros K ST.
    assert (HF' : forall z q, In (z, q) t -> In z (map fst t)) by (intros z q I; apply (in_map fst) in I; exact I).
    revert HF'. generalize (map fst t) HF. clear HF. intros dom HF. revert PW. clear -ST HF.
    induction ST as [|[z q] [v w] tt dd [E W] _ IH]; intros PW HD; [repeat constructor|].
    inversion PW as [|? ? P1 P2]; subst. cbn [fst snd] in *. subst v.
    destruct (IH P2 (fun z q I => HD z q (or_intror I))) as [I1 [I2 I3]]. destruct (HF z (HD z q (or_introl eq_refl))) as [H1 [H2 [H3 _]]].
    split; [|split].
    - cbn [map mapF fst snd]. unfold G at 1. cbn [fst]. change (OV (vint z)) with (oint z). rewrite H1. cbn [bind]. rewrite H2. cbn [bind].
      rewrite I1. reflexivity.
    - constructor; [exact H3|exact I2].
    - constructor; [split; [exact W|exact P1]|exact I3]. }
  destruct X as [X1 [X2 X3]]. rewrite X1. cbn [bind].
  pose proof (merge_meets c (inject_Z (total (rv_dist x))) ts os (map snd t) (map snd calls) TR (inject_pos _ (reps_total _ _ R)) X2 X3) as MM.
  assert (LL : length (map snd t) = length ts) by (unfold ts; rewrite !map_length; reflexivity). specialize (MM LL).
  assert (TC : that_count (combine ts (map snd t)) = map (fun zq => (T (fst zq), snd zq)) t).
  { unfold ts. clear. induction t as [|[z q] l IH]; [reflexivity|]. cbn [map combine that_count fst snd]. now rewrite IH. }
  unfold mixed in MM. rewrite TC in MM. set (L := map (fun zq => (T (fst zq), snd zq)) t) in *.
  assert (ALL : (chance (fun _ => true) L == 1)%Q).
  { rewrite chance_ex. unfold L. rewrite (ex_map (fun _ => ind true) T t). exact (reps_one t _ R). }
  set (all := chance (fun _ => true) L) in *.
  set (D := draw (map (fun tq => (fst tq, (snd tq / all)%Q)) L) (fun t => t)) in *.
  assert (WD : whole (N * M) D).
  { unfold D. apply whole_draw.
    - unfold whole. rewrite Forall_map. unfold L. rewrite Forall_map. pose proof (whole_lcd t) as W. unfold whole in W.
      apply (Forall_impl _ (P := fun aq : Z * Q => exists m, (inject_Z (lcd t) * snd aq == inject_Z m)%Q)); [|exact W].
      intros [z q] [k Ek]. cbn [fst snd] in *. exists k. unfold N. rewrite <- Ek, ALL. field.
    - intros s q I. apply in_map_iff in I as [[s' q'] [E I]]. injection E as <- _. unfold L in I. apply in_map_iff in I as [[z q''] [E I]].
      injection E as <- _. cbn [fst]. apply (in_map fst) in I. exact (proj2 (proj2 (proj2 (HF z I)))). }
  assert (NP : 0 < N * M) by (pose proof (lcd_pos t); unfold N; nia).
  pose proof (lcd_collect (N * M) D NP WD) as LB.
  assert (MM' : meets (a_die D) (merge c os (map snd calls))).
  { revert MM. destruct L as [|tq L'] eqn:EL; [|intro Q; exact Q]. exfalso. unfold all in ALL. discriminate. }
  unfold a_die in MM'. cbv zeta in MM'. destruct (Z.leb_spec (lcd (collect D)) bound) as [_|H]; [|lia].
  destruct (MM' _ eq_refl) as [v' [Ev Iv]]. inversion Iv as [| | | |t0 p0 y DY E1 E2| |]. subst t0 p0. rewrite <- E2 in Ev. clear E2.
  destruct DY as [Y1 [Y2 [Y3 Y4]]]. exists y. split; [exact Ev|].
  assert (SAME : forall g, (ex g r == ex g (collect D))%Q).
  { intro g. rewrite ER, ex_collect. unfold D. rewrite ex_draw. symmetry.
    transitivity (ex (fun a => ex g a) (map (fun aq => (fst aq, (1 * snd aq)%Q)) L)).
    - clear -ALL. clearbody all. induction L as [|[s q] l IH]; [reflexivity|]. cbn [map ex fst snd]. rewrite IH, ALL. field.
    - rewrite ex_scale. unfold L. rewrite (ex_map (fun a => ex g a) T t). ring. }
  split; [exact (reps_same _ _ _ Y1 FR SAME)|]. split; [exact Y2|]. split; [exact Y3|exact (reps_same _ _ _ Y4 FR SAME)].
Qed.

Lemma number_comes z : single (oint z) = Ok (oint z) /\ comes (Some (sure z)) (oint z).
Proof. split; [reflexivity|]. exists (MxVal (vint z)). split; [reflexivity|]. apply sure_reps. Qed.
Lemma explode_reps k : forall depth, Z.to_nat depth = k -> N ^ Z.of_nat (S k) <= bound ->
  exists y, explode_helper c k (explode_args (ORV x) (oint m) (ORV x) depth) = Ok (ORV y) /\
    is_dice (collect (blast k)) (Some (1%nat, collect (blast k))) y.
Proof.
  pose proof (lcd_pos t) as NP. fold N in NP.
  induction k as [|k IH]; intros depth E B.
  - change (explode_helper c 0 (explode_args (ORV x) (oint m) (ORV x) depth)) with
      (casting c explode_helper_sig (fun a =>
        n <- need 0 "N" a ;; mx <- need 1 "MAX" a ;; d <- need 2 "ORIG_DIE" a ;; depth <- (k <- need 3 "depth" a ;; int_param k) ;;
        t <- (e <- py_op c Val.OEq n mx ;; truth e) ;; if (t : bool) && (0 <? depth) then Err Unmodelled else Ok n)
        (explode_args (ORV x) (oint m) (ORV x) depth)).
    apply (helper_mix _ m depth (fun z => sure z) oint 1).
    + intros z _. destruct (number_comes z) as [H1 H2]. split; [|split; [exact H1|split; [exact H2|apply whole_sure]]].
      set (rest := [(KPos 1, oint m); (KName "ORIG_DIE", ORV x); (KName "depth", oint depth)]).
      change (need 0 "N" ((KPos 0, oint z) :: rest)) with (Ok (oint z)). change (need 1 "MAX" ((KPos 0, oint z) :: rest)) with (Ok (oint m)).
      change (need 2 "ORIG_DIE" ((KPos 0, oint z) :: rest)) with (Ok (ORV x)). change (need 3 "depth" ((KPos 0, oint z) :: rest)) with (Ok (oint depth)).
      cbn [bind]. change (int_param (oint depth)) with (Ok depth). cbn [bind]. rewrite int_eq_truth. cbn [bind].
      destruct (Z.ltb_spec 0 depth); [lia|]. rewrite andb_false_r. reflexivity.
    + lia.
    + rewrite Z.mul_1_r. rewrite Z.pow_1_r in B. exact B.
    + apply blast_fine.
    + intro g. rewrite ex_collect, ex_blast_0. apply ex_ext. intros a q _. rewrite ex_sure. reflexivity.
  - assert (D0 : 0 < depth) by lia. destruct (IH (depth - 1)) as [y [Ey [Y1 _]]]; [lia| |].
    { eapply Z.le_trans; [|exact B]. apply Z.pow_le_mono_r; lia. }
    set (shift := collect (draw (blast k) (fun v => sure (m + v)))).
    assert (FS : fine shift).
    { apply collect_fine, positive_draw; [|intros; apply positive_sure]. unfold blast.
      apply positive_draw; [apply positive_rolls, (rp_fine _ _ R)|intros; apply positive_sure]. }
    destruct (map_reps c (vop Val.OAdd (vint m)) (fun v => m + v) (collect (blast k)) (rv_dist y) shift TR Y1) as [d [Ed [Rd _]]].
    { intros v _. reflexivity. }
    { exact FS. }
    { intro g. unfold shift. rewrite ex_collect, ex_draw, ex_collect. apply ex_ext. intros a q _. rewrite ex_sure. reflexivity. }
    assert (AD : py_op c Val.OAdd (oint m) (ORV y) = Ok (ORV (rv_of d))).
    { change (oint m) with (OV (VN (NI m))). rewrite py_number_die by reflexivity.
      change (rmap ORV (rv_map c (vop Val.OAdd (vint m)) (rv_dist y)) = Ok (ORV (rv_of d))). rewrite Ed. reflexivity. }
    change (explode_helper c (S k) (explode_args (ORV x) (oint m) (ORV x) depth)) with
      (casting c explode_helper_sig (fun a =>
        n <- need 0 "N" a ;; mx <- need 1 "MAX" a ;; d <- need 2 "ORIG_DIE" a ;; depth <- (k <- need 3 "depth" a ;; int_param k) ;;
        t <- (e <- py_op c Val.OEq n mx ;; truth e) ;; if (t : bool) && (0 <? depth) then
          r <- explode_helper c k (explode_args d mx d (depth - 1)) ;; py_op c Val.OAdd n r else Ok n)
        (explode_args (ORV x) (oint m) (ORV x) depth)).
    apply (helper_mix _ m depth (fun z => if z =? m then shift else sure z) (fun z => if z =? m then ORV (rv_of d) else oint z) (N ^ Z.of_nat (S k))).
    + intros z _. set (rest := [(KPos 1, oint m); (KName "ORIG_DIE", ORV x); (KName "depth", oint depth)]).
      change (need 0 "N" ((KPos 0, oint z) :: rest)) with (Ok (oint z)). change (need 1 "MAX" ((KPos 0, oint z) :: rest)) with (Ok (oint m)).
      change (need 2 "ORIG_DIE" ((KPos 0, oint z) :: rest)) with (Ok (ORV x)). change (need 3 "depth" ((KPos 0, oint z) :: rest)) with (Ok (oint depth)).
      cbn [bind]. change (int_param (oint depth)) with (Ok depth). cbn [bind]. rewrite int_eq_truth. cbn [bind].
      destruct (Z.ltb_spec 0 depth); [|lia]. rewrite andb_true_r. destruct (Z.eqb_spec z m) as [->|NE].
      * rewrite Ey. cbn [bind]. split; [exact AD|]. split; [reflexivity|]. split.
        -- exists (MxRV (rv_of d)). split; [reflexivity|]. exact Rd.
        -- unfold shift. apply collect_whole. rewrite <- (Z.mul_1_r (N ^ Z.of_nat (S k))). apply whole_draw; [apply blast_whole|].
           intros; apply whole_sure.
      * destruct (number_comes z) as [H1 H2]. split; [reflexivity|]. split; [exact H1|split; [exact H2|apply whole_sure]].
    + apply Z.pow_pos_nonneg; lia.
    + rewrite Nat2Z.inj_succ, Z.pow_succ_r in B by lia. exact B.
    + apply blast_fine.
    + intro g. rewrite ex_collect, ex_blast_S. apply ex_ext. intros a q _. destruct (a =? m).
      * unfold shift. rewrite ex_collect, ex_draw. apply ex_ext. intros b r _. rewrite ex_sure. reflexivity.
      * rewrite ex_sure. reflexivity.
Qed.
End explode.

Lemma maximum_meets vs os : Forall2 is_val vs os -> meets (value LMaximum vs) (maximum_body c (positional os)).
Proof.
  intros [|a a' vs1 os1 Ha H]; [apply meets_err|]. destruct H; [|destruct Ha; apply meets_err]. destruct Ha as [z|s|l|l l' _|t q x [R _]|b|]; try apply meets_err.
  cbn [lib_value]. rewrite (maximum_is t x R). apply meets_ok. constructor.
Qed.
Lemma explode_meets vs os : 0 <= cfg_explode c -> Forall2 is_val vs os -> meets (value LExplode vs) (explode_body c (positional os)).
Proof.
  intros EP [|a a' vs1 os1 Ha H]; [apply meets_err|]. destruct H; [|destruct Ha; apply meets_err]. destruct Ha as [z|s|l|l l' _|t q x [R _]|b|]; try apply meets_err.
  cbn [lib_value]. destruct (lcd t ^ (cfg_explode c + 1) <=? bound) eqn:B; [|apply meets_err]. apply Z.leb_le in B.
  unfold explode_body. change (need 0 "DIE" (positional [ORV x])) with (Ok (ORV x)). cbn [bind].
  change (lookup_key (KName "depth") (positional [ORV x])) with (@None obj). cbn [bind]. rewrite maximum_of_is, (maximum_is t x R). cbn [bind].
  destruct (explode_reps t x (top_of t) R (Z.to_nat (cfg_explode c)) (cfg_explode c) eq_refl) as [y [Ey Dy]].
  { rewrite Nat2Z.inj_succ, Z2Nat.id by exact EP. exact B. }
  rewrite Ey. intros v Ev. unfold a_die in Ev. cbv zeta in Ev. replace (Z.to_nat (cfg_explode c + 1)) with (S (Z.to_nat (cfg_explode c))) in Ev by lia.
  match type of Ev with (if ?b then _ else _) = _ => destruct b; [|discriminate] end. injection Ev as <-.
  exists (ORV y). split; [reflexivity|]. constructor. exact Dy.
Qed.
End bodies.

(** ** The functions *)

Lemma lib_annotated f s : (f, s) = (LAbsolute, absolute_sig) \/ (f, s) = (LContains, contains_sig) \/ (f, s) = (LCount, count_in_sig) \/
  (f, s) = (LExplode, explode_sig) \/ (f, s) = (LMaximum, maximum_sig) \/ (f, s) = (LHighest, of_D_sig) \/ (f, s) = (LLowest, of_D_sig) \/
  (f, s) = (LMiddle, of_D_sig) \/ (f, s) = (LHighestOf, two_sig) \/ (f, s) = (LLowestOf, two_sig) \/ (f, s) = (LReverse, seq_sig) \/
  (f, s) = (LSort, seq_sig) -> annotated s (lib_kinds f).
Proof.
  intro H. repeat (destruct H as [H|H]; [injection H as -> ->; intros [|[|j]] L; cbn in L; try lia; reflexivity|]).
  injection H as -> ->. intros [|[|j]] L; cbn in L; try lia; reflexivity.
Qed.

Section functions.
Variable c : cfg.
Hypothesis TR : cfg_trunc c = false.
Hypothesis EP : 0 <= cfg_explode c.
Notation value := (lib_value (cfg_explode c) (cfg_highest c)).

Lemma two_args (P : ival -> ival -> res ival) (body : args -> res obj) f vs os :
  (forall a b a' b', is_val a a' -> is_val b b' -> meets (value f [a; b]) (body (positional [a'; b']))) ->
  (forall l, length l <> 2%nat -> exists e, value f l = Err e) ->
  Forall2 is_val vs os -> meets (value f vs) (body (positional os)).
Proof.
  intros H1 H2 H. destruct H as [|a a' vs1 os1 Ha H]; [destruct (H2 [] ltac:(cbn; lia)) as [e ->]; apply meets_err|].
  destruct H as [|b b' vs2 os2 Hb H]; [destruct (H2 [a] ltac:(cbn; lia)) as [e ->]; apply meets_err|].
  destruct H as [|d d' vs3 os3 Hd H]; [apply H1; assumption|]. destruct (H2 (a :: b :: d :: vs3) ltac:(cbn; lia)) as [e ->]; apply meets_err.
Qed.
Lemma of_dice_meets f body vs os :
  match f with LHighest => body = highest_of_body c | LLowest => body = lowest_of_body c | LMiddle => body = middle_of_body c | _ => False end ->
  Forall2 is_val vs os -> meets (value f vs) (body (positional os)).
Proof.
  intro HB. apply (two_args (fun a _ => Ok a)).
  - intros a b a' b' Ha Hb.
    destruct f; try contradiction; subst body;
      (destruct Ha as [z|s|l|l l' _|t q x D|bb|]; try apply meets_err); (destruct Hb as [z'|s|l|l l' _|t [[n s]|] x D|bb|]; try apply meets_err).
    + cbn [lib_value]. destruct (cfg_highest c) eqn:HI; [|apply meets_err]. exact (highest_meets c TR HI z t n s x D).
    + cbn [lib_value]. destruct (cfg_highest c) eqn:HI; [|apply meets_err]. exact (lowest_meets c TR HI z t n s x D).
    + destruct (cfg_highest c) eqn:HI; [rewrite <- HI at 1; exact (middle_meets c TR HI z t n s x D)|].
      cbn [lib_value]. destruct (Z.eqb_spec z (Z.of_nat n)) as [E|E]; [|apply meets_err].
      unfold middle_of_body. cbv zeta. change (need 0 "NUMBER" (positional [oint z; ORV x])) with (Ok (oint z)).
      change (need 1 "DICE" (positional [oint z; ORV x])) with (Ok (ORV x)). cbn [bind]. rewrite (dice_len t n s x D). cbn [bind].
      rewrite int_eq_truth. cbn [bind]. subst z. rewrite Z.eqb_refl. apply meets_ok. now constructor.
  - intros l NL. destruct f; try contradiction; (destruct l as [|a l]; [eexists; reflexivity|]); (destruct l as [|b l]; [destruct a; eexists; reflexivity|]);
      (destruct l as [|d l]; [cbn in NL; lia|]); (destruct a; try (eexists; reflexivity)); destruct b as [| | | |t [[n s]|]| |]; eexists; reflexivity.
Qed.

Lemma lib_meets f vs os : Forall2 is_val vs os ->
  meets (over (lib_kinds f) (value f) vs)
    (let a := positional os in
     match f with
     | LAbsolute => absolute c a
     | LContains => contains c a
     | LCount => count_in c a
     | LExplode => explode c a
     | LHighest => highest_N_of_D c a
     | LLowest => lowest_N_of_D c a
     | LMiddle => middle_N_of_D c a
     | LHighestOf => highest_of c a
     | LLowestOf => lowest_of c a
     | LMaximum => maximum_of c a
     | LReverse => reverse c a
     | LSort => sort c a
     | LDiv => match os with [x; y] => py_op c Val.OTrueDiv x y | _ => Err TypeErr end
     end).
Proof.
  intro H. cbv zeta.
  assert (S : forall vs' os', Forall2 is_val vs' os' -> _) by exact (simple_meets c f).
  destruct f; try (apply casting_meets; [exact TR|apply lib_annotated; tauto|exact H|intros vs' os' H']).
  all: try (destruct (S vs' os' H') as [S'|[]]; exact S').
  - exact (explode_meets c TR vs' os' EP H').
  - apply (of_dice_meets LHighest); [reflexivity|exact H'].
  - apply (of_dice_meets LLowest); [reflexivity|exact H'].
  - apply (of_dice_meets LMiddle); [reflexivity|exact H'].
  - exact (maximum_meets c vs' os' H').
  - destruct vs as [|a [|b [|d vs]]]; apply meets_err.
Qed.
End functions.
