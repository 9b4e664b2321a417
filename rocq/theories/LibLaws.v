(** Facts about the function library: sorting, counting, comparing. *)
From Coq Require Import String List ZArith QArith Qabs Qminmax Bool Permutation Sorted Lia.
From Verif Require Import PyBase Num Val Sorting RVModel Obj RollModel RollSpec AtModel CastModel DispModel LibModel Spec SeqSpec LibSpec CmpFacts SortFacts NumFacts MassFacts RVFacts OrderFacts UnaryFacts SelectFacts MixFacts CastSpec CastFacts DispFacts SeqFacts LawFacts LibFacts.
Import ListNotations.
Open Scope Z_scope.

(** *** Sorting *)
Lemma vleb_Q a b : is_number a = true -> is_number b = true -> (vleb a b = true <-> (vq a <= vq b)%Q).
Proof.
  destruct a as [a|a], b as [b|b]; try discriminate. intros _ _. unfold vleb. cbn [vcmp vq]. rewrite ncmp_Q.
  rewrite Qle_alt. destruct (numQ a ?= numQ b)%Q; split; congruence.
Qed.
Definition falling (l : list pval) : Prop := StronglySorted (fun a b => (vq b <= vq a)%Q) l.
Lemma desc_falling l : numbers l -> desc l -> falling l.
Proof.
  intros N D. induction D as [|a l D IH F]; constructor.
  - apply IH. inversion N; assumption.
  - apply Forall_forall. intros b I. apply vleb_Q.
    + inversion N as [|? ? _ N']; subst. exact (proj1 (Forall_forall _ _) N' b I).
    + inversion N; assumption.
    + exact (proj1 (Forall_forall _ _) F b I).
Qed.
Definition at_least (q : Q) (l : list pval) : Z := how_many (fun v => Qle_bool q (vq v)) l.
Lemma at_least_perm q l r : Permutation l r -> at_least q l = at_least q r.
Proof.
  unfold at_least. induction 1; cbn; lia.
Qed.
Lemma at_least_pos q l : 0 <= at_least q l.
Proof. unfold at_least. induction l as [|a l IH]; cbn; [lia|]. destruct (Qle_bool q (vq a)); lia. Qed.
Lemma at_least_in q l : 0 < at_least q l -> exists v, In v l /\ (q <= vq v)%Q.
Proof.
  unfold at_least. induction l as [|a l IH]; cbn; [lia|]. destruct (Qle_bool q (vq a)) eqn:E.
  - intros _. exists a. split; [left; reflexivity|]. apply Qle_bool_iff. exact E.
  - intros H. destruct IH as (v & I & L); [lia|]. exists v. split; [right; exact I|exact L].
Qed.
Lemma falling_unique l : forall r, falling l -> falling r -> (forall q, at_least q l = at_least q r) ->
  Forall2 (fun a b => (vq a == vq b)%Q) l r.
Proof.
  induction l as [|a l IH]; intros [|b r] L R E.
  - constructor.
  - specialize (E (vq b)). unfold at_least in E. cbn in E. rewrite (proj2 (Qle_bool_iff _ _) (Qle_refl _)) in E.
    pose proof (at_least_pos (vq b) r). unfold at_least in H. lia.
  - specialize (E (vq a)). unfold at_least in E. cbn in E. rewrite (proj2 (Qle_bool_iff _ _) (Qle_refl _)) in E.
    pose proof (at_least_pos (vq a) l). unfold at_least in H. lia.
  - inversion L as [|? ? L1 L2]; subst. inversion R as [|? ? R1 R2]; subst.
    assert (H1 : forall a l b r, Forall (fun b => (vq b <= vq a)%Q) l -> Forall (fun a => (vq a <= vq b)%Q) r ->
      (forall q, at_least q (a :: l) = at_least q (b :: r)) -> (vq a <= vq b)%Q).
    { clear. intros a l b r L2 R2 E. assert (P : 0 < at_least (vq a) (b :: r)).
      { rewrite <- E. unfold at_least. cbn. rewrite (proj2 (Qle_bool_iff _ _) (Qle_refl _)). pose proof (at_least_pos (vq a) l). unfold at_least in H. lia. }
      apply at_least_in in P. destruct P as (v & [->|I] & LE); [exact LE|]. eapply Qle_trans; [exact LE|].
      exact (proj1 (Forall_forall _ _) R2 v I). }
    assert (AB : (vq a == vq b)%Q).
    { apply Qle_antisym; [exact (H1 a l b r L2 R2 E)|]. apply (H1 b r a l R2 L2). intros q. symmetry. apply E. }
    constructor; [exact AB|]. apply IH; auto. intros q. specialize (E q). unfold at_least in *. cbn in E.
    assert (X : Qle_bool q (vq a) = Qle_bool q (vq b)) by (rewrite AB; reflexivity). rewrite X in E. lia.
Qed.

Lemma numbers_perm l r : Permutation l r -> numbers l -> numbers r.
Proof. intros P N. apply Forall_forall. intros v I. apply (Permutation_in _ (Permutation_sym P)) in I. exact (proj1 (Forall_forall _ _) N v I). Qed.

Lemma sort_both c l : numbers l -> exists r r',
  sort c (positional [OSeq l]) = Ok (OSeq r) /\ sort_slow c (positional [OSeq l]) = Ok (OSeq r') /\
  Permutation l r /\ falling r /\ Permutation l r' /\ falling r' /\ Forall2 (fun a b => (vq a == vq b)%Q) r r'.
Proof.
  intros N. destruct (sort_slow_law c l N) as (r' & S & D & P). exists (isort_rev vleb l), r'.
  assert (P1 := isort_rev_perm l). assert (F1 : falling (isort_rev vleb l)).
  { apply desc_falling; [exact (numbers_perm _ _ P1 N)|]. exact (isort_rev_sorted l). }
  assert (F2 : falling r') by (apply desc_falling; [exact (numbers_perm _ _ P N)|exact D]).
  repeat split; auto.
  - apply sort_law. exact N.
  - apply falling_unique; auto. intros q. rewrite <- (at_least_perm q _ _ P1). apply at_least_perm. exact P.
Qed.

(** *** Counting *)
Lemma fits_AN v : fits AN v -> exists n, v = OV (VN n). Proof. auto. Qed.

Lemma contains_body_law c l n : numbers l ->
  contains_body c (positional [OSeq l; OV (VN n)]) = Ok (OV (b01 (occurs (VN n) l))).
Proof.
  intros N. unfold contains_body. cbv zeta.
  change (need 0 "SEQUENCE" (positional [OSeq l; OV (VN n)])) with (Ok (OSeq l)).
  change (need 1 "NUMBER" (positional [OSeq l; OV (VN n)])) with (Ok (OV (VN n))). cbn [bind].
  rewrite (seq_count c OEq l n eq_refl N). cbn [bind]. unfold oint. rewrite op_cmp_values by reflexivity. f_equal. f_equal. f_equal.
  unfold occurs. cbn [vq]. clear. assert (G : forall z, 0 <= z -> cmp_holds OGt (vcmp (vint z) (vint 0)) = (0 <? z)).
  { intros z H. unfold vint, vcmp. rewrite ncmp_Q. unfold numQ. rewrite cmp_holds_Q by reflexivity. unfold related.
    destruct (Z.ltb_spec 0 z); [|replace z with 0 by lia; reflexivity].
    apply negb_true_iff, not_true_is_false. intro X. apply Qle_bool_iff in X. unfold Qle, inject_Z in X. cbn in X. lia. }
  assert (HP : forall l, 0 <= how_many (fun v => related OEq (vq v) (numQ n)) l).
  { induction l0 as [|a l0 IH]; cbn [how_many]; [lia|]. destruct (related OEq (vq a) (numQ n)); lia. }
  rewrite G by apply HP. induction l as [|a l IH]; [reflexivity|]. cbn [how_many existsb].
  specialize (HP l). rewrite <- IH. cbn [related]. destruct (Qeq_bool (vq a) (numQ n)); cbn [orb].
  - apply Z.ltb_lt. cbn [related] in HP. lia.
  - reflexivity.
Qed.

Lemma contains_law c l n : numbers l ->
  contains c (positional [OSeq l; OV (VN n)]) = Ok (OV (b01 (occurs (VN n) l))).
Proof.
  intros N. exact (contains_body_law c l n N).
Qed.

Lemma add_ints c z w : py_op c OAdd (oint z) (oint w) = Ok (oint (z + w)).
Proof. unfold oint. rewrite py_values. reflexivity. Qed.

Lemma count_in_body_law c vs s : numbers vs -> numbers s ->
  count_in_body c (positional [OSeq vs; OSeq s]) = Ok (oint (equal_pairs vs s)).
Proof.
  intros NV NS. unfold count_in_body. cbv zeta.
  change (need 0 "VALUES" (positional [OSeq vs; OSeq s])) with (Ok (OSeq vs)).
  change (need 1 "SEQUENCE" (positional [OSeq vs; OSeq s])) with (Ok (OSeq s)). cbn [bind py_len my_len].
  rewrite (fold_positions c vs (fun count x => e <- py_op c OEq x (OSeq s) ;; py_op c OAdd count e)).
  assert (G : forall z, foldM (fun count v => e <- py_op c OEq (OV v) (OSeq s) ;; py_op c OAdd count e) (oint z) vs = Ok (oint (z + equal_pairs vs s))).
  { clear -NV NS. unfold equal_pairs. induction NV as [|v vs N NV IH]; intros z; [cbn; rewrite Z.add_0_r; reflexivity|].
    destruct v as [n|t]; [|discriminate]. cbn [foldM]. rewrite (number_count c OEq s n eq_refl NS). cbn [bind].
    rewrite add_ints.
    cbn [bind]. rewrite IH. f_equal. f_equal. cbn [list_prod]. rewrite <- Z.add_assoc. f_equal.
    generalize (list_prod vs s). intro P. clear. induction s as [|w s IH]; [reflexivity|]. cbn [how_many map app fst snd].
    rewrite <- IH. unfold related at 1. cbn [vq]. lia. }
  exact (G 0).
Qed.
Lemma count_in_law c vs s : numbers vs -> numbers s ->
  count_in c (positional [OSeq vs; OSeq s]) = Ok (oint (equal_pairs vs s)).
Proof. intros NV NS. exact (count_in_body_law c vs s NV NS). Qed.

Definition vabs (v : pval) : pval := match v with VN n => VN (if nltb n (NI 0) then nneg n else n) | _ => v end.
Lemma vabs_Q n : (vq (vabs (VN n)) == Qabs (vq (VN n)))%Q.
Proof.
  cbn [vabs vq]. unfold nltb. rewrite ncmp_Q. change (numQ (NI 0)) with (0 # 1)%Q.
  destruct (Qcompare_spec (numQ n) (0 # 1)) as [E|E|E].
  - rewrite E. reflexivity.
  - rewrite numQ_neg. symmetry. apply Qabs_neg. apply Qlt_le_weak. exact E.
  - symmetry. apply Qabs_pos. apply Qlt_le_weak. exact E.
Qed.
Lemma absolute_body_law c n : absolute_body c (positional [OV (VN n)]) = Ok (OV (vabs (VN n))).
Proof.
  unfold absolute_body. cbv zeta.
  change (need 0 "NUMBER" (positional [OV (VN n)])) with (Ok (OV (VN n))). cbn [bind].
  unfold oint. rewrite op_cmp_values by reflexivity. cbn [bind]. rewrite truth_b01. cbn [bind].
  unfold vabs, nltb. cbn [cmp_holds vcmp vint]. destruct (ncmp n (NI 0)); reflexivity.
Qed.
Lemma absolute_law c n : absolute c (positional [OV (VN n)]) = Ok (OV (vabs (VN n))).
Proof. exact (absolute_body_law c n). Qed.

Lemma contains_random c s x Ds Dx : cfg_trunc c = false -> seq_law s Ds -> num_law x Dx -> is_die s || is_die x = true ->
  total Ds * total Dx <= SUM_LIMIT ->
  exists q, contains c (positional [s; x]) = Ok (ORV q) /\ canon (rv_dist q) /\ proper (rv_dist q) /\
    same_law (rv_dist q) (image (fun lv => b01 (occurs (snd lv) (fst lv))) (indep Ds Dx)).
Proof.
  intros T S X R L.
  destruct (two_args c contains_sig (contains_body c) T AS AN s x OSeq OV unS unV Ds Dx (fun l v => b01 (occurs v l))) as (q & Q1 & Q2 & Q3 & Q4 & Q5 & Q6);
    [reflexivity|apply unS_fits|reflexivity|apply unV_fits|reflexivity|reflexivity|constructor; assumption|constructor; assumption|exact R| |eapply seq_law_total; eassumption|eapply num_law_total; eassumption|exact L|].
  - intros l v [l' [E N]] [n E']. injection E as <-. injection E' as ->. exact (contains_body_law c l n N).
  - exists q. repeat split; auto; try apply Q4; apply Q5.
Qed.

Lemma count_in_random c vs s Dv Ds : cfg_trunc c = false -> seq_law vs Dv -> seq_law s Ds -> is_die vs || is_die s = true ->
  total Dv * total Ds <= SUM_LIMIT ->
  exists q, count_in c (positional [vs; s]) = Ok (ORV q) /\ canon (rv_dist q) /\ proper (rv_dist q) /\
    same_law (rv_dist q) (image (fun ls => vint (equal_pairs (fst ls) (snd ls))) (indep Dv Ds)).
Proof.
  intros T V S R L.
  destruct (two_args c count_in_sig (count_in_body c) T AS AS vs s OSeq OSeq unS unS Dv Ds (fun l l' => vint (equal_pairs l l'))) as (q & Q1 & Q2 & Q3 & Q4 & Q5 & Q6);
    [reflexivity|apply unS_fits|reflexivity|apply unS_fits|reflexivity|reflexivity|constructor; assumption|constructor; assumption|exact R| |eapply seq_law_total; eassumption|eapply seq_law_total; eassumption|exact L|].
  - intros l l2 [l' [E N]] [l2' [E' N']]. injection E as <-. injection E' as <-. exact (count_in_body_law c l l2 N N').
  - exists q. repeat split; auto; try apply Q4; apply Q5.
Qed.

Lemma absolute_random c x : cfg_trunc c = false -> proper (rv_dist x) -> numbers (vals (rv_dist x)) -> total (rv_dist x) <= SUM_LIMIT ->
  exists q, absolute c (positional [ORV x]) = Ok (ORV q) /\ canon (rv_dist q) /\ proper (rv_dist q) /\
    same_law (rv_dist q) (image vabs (rv_dist x)).
Proof.
  intros T P N L.
  destruct (one_arg c absolute_sig (absolute_body c) T AN (ORV x) OV unV (rv_dist x) vabs) as (q & Q1 & Q2 & Q3 & Q4 & Q5 & Q6);
    [reflexivity|apply unV_fits|reflexivity|constructor; constructor; assumption|reflexivity| |split; [apply P|exact L]|].
  - intros v [n E]. injection E as ->. exact (absolute_body_law c n).
  - exists q. repeat split; auto; try apply Q4; apply Q5.
Qed.

(** *** Larger and smaller *)
Lemma pick_gt c a b : is_number a = true -> is_number b = true ->
  pick_body c OGt (positional [OV a; OV b]) = Ok (OV (larger a b)).
Proof.
  intros A B. unfold pick_body. cbv zeta. change (need 0 "A" (positional [OV a; OV b])) with (Ok (OV a)).
  change (need 1 "B" (positional [OV a; OV b])) with (Ok (OV b)). cbn [bind]. rewrite op_cmp_values by auto. cbn [bind]. rewrite truth_b01. cbn [bind].
  unfold larger. destruct a as [a|a], b as [b|b]; try discriminate. cbn [vcmp vq]. rewrite ncmp_Q, cmp_holds_Q by reflexivity. cbn [related].
  destruct (Qle_bool (numQ a) (numQ b)); reflexivity.
Qed.
Lemma pick_lt c a b : is_number a = true -> is_number b = true ->
  pick_body c OLt (positional [OV a; OV b]) = Ok (OV (smaller a b)).
Proof.
  intros A B. unfold pick_body. cbv zeta. change (need 0 "A" (positional [OV a; OV b])) with (Ok (OV a)).
  change (need 1 "B" (positional [OV a; OV b])) with (Ok (OV b)). cbn [bind]. rewrite op_cmp_values by auto. cbn [bind]. rewrite truth_b01. cbn [bind].
  unfold smaller. destruct a as [a|a], b as [b|b]; try discriminate. cbn [vcmp vq]. rewrite ncmp_Q, cmp_holds_Q by reflexivity. cbn [related].
  destruct (Qle_bool (numQ b) (numQ a)); reflexivity.
Qed.
Lemma larger_Q a b : (vq (larger a b) == Qmax (vq a) (vq b))%Q.
Proof.
  unfold larger. destruct (Qle_bool (vq a) (vq b)) eqn:E.
  - apply Qle_bool_iff in E. symmetry. apply Q.max_r. exact E.
  - symmetry. apply Q.max_l. apply Qnot_lt_le. intro X. apply Qlt_le_weak, Qle_bool_iff in X. congruence.
Qed.
Lemma smaller_Q a b : (vq (smaller a b) == Qmin (vq a) (vq b))%Q.
Proof.
  unfold smaller. destruct (Qle_bool (vq b) (vq a)) eqn:E.
  - apply Qle_bool_iff in E. symmetry. apply Q.min_r. exact E.
  - symmetry. apply Q.min_l. apply Qnot_lt_le. intro X. apply Qlt_le_weak, Qle_bool_iff in X. congruence.
Qed.
Lemma pick_numbers c a b : is_number a = true -> is_number b = true ->
  highest_of c (positional [OV a; OV b]) = Ok (OV (larger a b)) /\ lowest_of c (positional [OV a; OV b]) = Ok (OV (smaller a b)).
Proof.
  intros A B. destruct a as [a|a], b as [b|b]; try discriminate. split.
  - exact (pick_gt c (VN a) (VN b) A B).
  - exact (pick_lt c (VN a) (VN b) A B).
Qed.
Lemma pick_random c a b Da Db : cfg_trunc c = false -> num_law a Da -> num_law b Db -> is_die a || is_die b = true ->
  total Da * total Db <= SUM_LIMIT ->
  (exists q, highest_of c (positional [a; b]) = Ok (ORV q) /\ canon (rv_dist q) /\ proper (rv_dist q) /\
     same_law (rv_dist q) (image (fun uv => larger (fst uv) (snd uv)) (indep Da Db))) /\
  (exists q, lowest_of c (positional [a; b]) = Ok (ORV q) /\ canon (rv_dist q) /\ proper (rv_dist q) /\
     same_law (rv_dist q) (image (fun uv => smaller (fst uv) (snd uv)) (indep Da Db))).
Proof.
  intros T A B R L. split.
  - destruct (two_args c two_sig (pick_body c OGt) T AN AN a b OV OV unV unV Da Db larger) as (q & Q1 & Q2 & Q3 & Q4 & Q5 & Q6);
      [reflexivity|apply unV_fits|reflexivity|apply unV_fits|reflexivity|reflexivity|constructor; assumption|constructor; assumption|exact R| |eapply num_law_total; eassumption|eapply num_law_total; eassumption|exact L|].
    + intros u v [n E] [m E']. injection E as ->. injection E' as ->. apply pick_gt; reflexivity.
    + exists q. repeat split; auto; try apply Q4; apply Q5.
  - destruct (two_args c two_sig (pick_body c OLt) T AN AN a b OV OV unV unV Da Db smaller) as (q & Q1 & Q2 & Q3 & Q4 & Q5 & Q6);
      [reflexivity|apply unV_fits|reflexivity|apply unV_fits|reflexivity|reflexivity|constructor; assumption|constructor; assumption|exact R| |eapply num_law_total; eassumption|eapply num_law_total; eassumption|exact L|].
    + intros u v [n E] [m E']. injection E as ->. injection E' as ->. apply pick_lt; reflexivity.
    + exists q. repeat split; auto; try apply Q4; apply Q5.
Qed.

(** *** The largest outcome *)
Lemma mk_seq_die x : mk_seq [ORV x] = Ok (OSeq (vals (rv_dist x))).
Proof. unfold mk_seq, flatten. cbn. rewrite app_nil_r. reflexivity. Qed.
Lemma entry_rev_last (l : list pval) v : entry 1 (rev (l ++ [v])) = v.
Proof. rewrite rev_app_distr. unfold entry. cbn [rev app length]. rewrite Nat2Z.inj_succ. destruct (Z.leb_spec 1 (Z.succ (Z.of_nat (length (rev l))))); [reflexivity|lia]. Qed.
Lemma strict_last d l m w : d = l ++ [(m, w)] -> strict d -> forall v, In v (vals d) -> vleb v m = true.
Proof.
  intros -> S v I. unfold vals in I. rewrite map_app in I. apply in_app_or in I. destruct I as [I|[<-|[]]].
  - apply in_map_iff in I. destruct I as [[v' w'] [<- I]]. cbn [fst].
    induction l as [|[a p] l IH]; [destruct I|]. inversion S as [|? ? S1 S2]; subst. destruct I as [E|I].
    + injection E as -> ->. pose proof (proj1 (Forall_forall _ _) S2 (m, w)) as H. unfold vlt in H. cbn in H.
      unfold vleb. rewrite H; [reflexivity|]. apply in_or_app. right. left. reflexivity.
    + apply IH; assumption.
  - cbn. unfold vleb. rewrite (lw_refl vcmp vcmp_lawful m). reflexivity.
Qed.
Lemma maximum_law c x : numbers (vals (rv_dist x)) -> strict (rv_dist x) -> rv_dist x <> [] ->
  exists m, maximum_of c (positional [ORV x]) = Ok (OV m) /\ In m (vals (rv_dist x)) /\ forall v, In v (vals (rv_dist x)) -> vleb v m = true.
Proof.
  intros N S E. destruct (exists_last E) as [l [[m w] D]]. exists m. split; [|split].
  - change (maximum_of c (positional [ORV x])) with (s <- mk_seq [ORV x] ;; r <- reverse c (positional [s]) ;; matmul c (oint 1) r).
    rewrite mk_seq_die. cbn [bind]. rewrite (reverse_law c _ N). cbn [bind]. rewrite position_int. rewrite D. unfold vals. rewrite map_app. cbn [map fst].
    rewrite entry_rev_last. reflexivity.
  - rewrite D. unfold vals. rewrite map_app. apply in_or_app. right. left. reflexivity.
  - exact (strict_last _ _ _ _ D S).
Qed.
