(** The rolls of several dice: their sequences and the positions in them. *)
From Coq Require Import String List ZArith QArith Qreduction Qabs Bool Permutation Sorted Lia Lqa.
From Verif Require Import PyBase Num Val Sorting RVModel UtilModel Obj RollModel AtModel Spec CmpFacts SortFacts MassFacts NumFacts RVFacts ConstructFacts
  ConvFacts IntFacts RoundFacts LimitFacts OpFacts UnaryFacts MixFacts RollFacts RollSpec RollObjFacts OrderFacts ExpandFacts SelectFacts CastMixFacts.
From Verif Require Import IdealSpec IdealFacts IdealOps.
Import ListNotations.
Open Scope Z_scope.
Open Scope list_scope.

Lemma qsum_app {A} (f : A -> Q) (a b : list (A * Z)) : (qsum f (a ++ b) == qsum f a + qsum f b)%Q.
Proof. induction a as [|[x w] a IH]; cbn [qsum app]; [ring|]. rewrite IH. ring. Qed.
Lemma qsum_indep {A B} (f : A * B -> Q) (a : list (A * Z)) (b : list (B * Z)) :
  (qsum f (indep a b) == qsum (fun x => qsum (fun y => f (x, y)) b) a)%Q.
Proof.
  induction a as [|[x w] a IH]; [reflexivity|]. unfold indep in *. cbn [flat_map qsum fst snd]. rewrite qsum_app, IH.
  apply Qplus_comp; [|reflexivity]. clear IH. induction b as [|[y u] b IH]; cbn [map qsum fst snd]; [ring|].
  rewrite IH, inject_Z_mult. ring.
Qed.
Lemma qsum_map {A B} (h : A -> B) (f : B -> Q) (l : list (A * Z)) :
  (qsum f (map (fun xy => (h (fst xy), snd xy)) l) == qsum (fun a => f (h a)) l)%Q.
Proof. induction l as [|[a w] l IH]; cbn [map qsum fst snd]; [reflexivity|]. rewrite IH. reflexivity. Qed.
Lemma qsum_tuples_S {A} n (l : list (A * Z)) f :
  (qsum f (tuples (S n) l) == qsum (fun a => qsum (fun t => f (a :: t)) (tuples n l)) l)%Q.
Proof.
  cbn [tuples]. rewrite (qsum_map (fun xy : A * list A => fst xy :: snd xy)). rewrite qsum_indep. reflexivity.
Qed.

Lemma ex_rolls_S g n t : (ex g (rolls (S n) t) == ex (fun x => ex (fun l => g (x :: l)) (rolls n t)) t)%Q.
Proof.
  change (rolls (S n) t) with (draw t (fun x => draw (rolls n t) (fun l => sure (x :: l)))).
  rewrite ex_draw. apply ex_ext. intros x q _. rewrite ex_draw. apply ex_ext. intros l r _. apply ex_sure.
Qed.
Lemma positive_rolls n t : positive t -> positive (rolls n t).
Proof.
  intro P. induction n as [|n IH]; [apply positive_sure|].
  change (rolls (S n) t) with (draw t (fun x => draw (rolls n t) (fun l => sure (x :: l)))).
  apply positive_draw; [exact P|]. intros x q _. apply positive_draw; [exact IH|]. intros; apply positive_sure.
Qed.
Lemma tuples_rolls t x n : reps t x -> forall g,
  (qsum (fun u => g (map toZ u)) (tuples n x) == inject_Z (total x ^ Z.of_nat n) * ex g (rolls n t))%Q.
Proof.
  intro R. induction n as [|n IH]; intro g.
  - cbn [tuples rolls qsum]. rewrite ex_sure. cbn [map]. change (total x ^ Z.of_nat 0) with 1. ring.
  - rewrite qsum_tuples_S, ex_rolls_S.
    rewrite (qsum_ext _ (fun a => inject_Z (total x ^ Z.of_nat n) * ex (fun l => g (toZ a :: l)) (rolls n t))%Q).
    + rewrite qsum_cmul, (reps_ex t x R (fun z => ex (fun l => g (z :: l)) (rolls n t))).
      rewrite Nat2Z.inj_succ, Z.pow_succ_r by lia. rewrite inject_Z_mult. ring.
    + intros a w _. cbn [map]. exact (IH (fun l => g (toZ a :: l))).
Qed.

(** ** Sorting and positions *)
Definition all_int (l : list pval) : Prop := Forall (fun v => v_is_int v = true) l.
Lemma all_int_map l : all_int l -> l = map vint (map toZ l).
Proof. induction 1 as [|v l V _ IH]; [reflexivity|]. cbn [map]. rewrite <- (is_int_vint v V), <- IH. reflexivity. Qed.
Lemma all_int_vint l : all_int (map vint l).
Proof. apply Forall_map. apply Forall_forall. reflexivity. Qed.
Lemma toZ_vints l : map toZ (map vint l) = l.
Proof. rewrite map_map. apply map_id. Qed.
Lemma insert_put z l : insert (fun a b => vleb b a) (vint z) (map vint l) = map vint (put_in z l).
Proof.
  induction l as [|y l IH]; [reflexivity|]. cbn [map insert put_in].
  assert (E : vleb (vint y) (vint z) = (y <=? z)). { unfold vleb, leb_of. rewrite vcmp_int, Z.leb_compare. reflexivity. }
  rewrite E. destruct (y <=? z); cbn [map]; [reflexivity|]. rewrite IH. reflexivity.
Qed.
Lemma descending_vint l : descending (map vint l) = map vint (downwards l).
Proof. unfold descending, downwards. induction l as [|z l IH]; [reflexivity|]. cbn [map isort fold_right]. rewrite IH. apply insert_put. Qed.
Lemma descending_downwards u : all_int u -> descending u = map vint (downwards (map toZ u)).
Proof. intro H. rewrite (all_int_map u H) at 1. apply descending_vint. Qed.
Lemma ascending_upwards u : all_int u -> ascending u = map vint (rev (downwards (map toZ u))).
Proof.
  intro H. rewrite map_rev, <- (descending_downwards u H).
  apply (sorted_perm_unique (fun a b => vleb a b = true)).
  - intros a b Ia Ib La Lb. unfold all_int in H. rewrite Forall_forall in H.
    assert (Xa : v_is_int a = true) by (apply H; apply (Permutation_in _ (Permutation_sym (ascending_perm u)) Ia)).
    assert (Xb : v_is_int b = true) by (apply H; apply (Permutation_in _ (Permutation_sym (ascending_perm u)) Ib)).
    assert (E : forall x y, vleb (vint x) (vint y) = true -> x <= y).
    { intros x y. unfold vleb, leb_of. rewrite vcmp_int. intro X. apply Z.leb_le. rewrite Z.leb_compare. exact X. }
    rewrite (is_int_vint a Xa), (is_int_vint b Xb) in *. apply E in La, Lb. f_equal. lia.
  - apply ascending_sorted.
  - apply StronglySorted_rev with (R := fun a b => vleb b a = true). apply descending_sorted.
  - etransitivity; [apply Permutation_sym, ascending_perm|]. etransitivity; [apply descending_perm|]. apply Permutation_rev.
Qed.
Lemma entry_nth k l : entry k (map vint l) = vint (nth_of k l).
Proof.
  unfold entry, nth_of. rewrite map_length. destruct ((1 <=? k) && (k <=? Z.of_nat (length l))); [|reflexivity].
  exact (map_nth vint l 0 (Z.to_nat (k - 1))).
Qed.
Lemma sum_sumZ l : IdealSpec.sum l = sumZ l.
Proof. reflexivity. Qed.
Definition picks (h : bool) (ks : list Z) (l : list Z) : Z := IdealSpec.sum (map (fun k => nth_of k (in_order h l)) ks).
Lemma picked_picks ks u : all_int u -> picked ks u = vint (picks true ks (map toZ u)).
Proof.
  intro H. unfold picked, picks, in_order. rewrite (descending_downwards u H). change IdealSpec.sum with sumZ. f_equal. f_equal. apply map_ext. intro k. rewrite entry_nth. reflexivity.
Qed.
Definition pick_law (h : bool) (ks : list Z) (n : nat) (t : table) : table := collect (draw (rolls n t) (fun l => sure (picks h ks l))).
Lemma pick_fine h ks n t : positive t -> fine (pick_law h ks n t).
Proof. intro P. apply collect_fine. apply positive_draw; [apply positive_rolls; exact P|]. intros; apply positive_sure. Qed.
Lemma pick_prob h ks n t k : (prob (pick_law h ks n t) k == ex (fun l => ind (k =? picks h ks l)) (rolls n t))%Q.
Proof. rewrite prob_ex. unfold pick_law. rewrite ex_collect, ex_draw. apply ex_ext. intros l q _. rewrite ex_sure. reflexivity. Qed.
Lemma tuples_pick ks n t x k : reps t x ->
  (inject_Z (mass (fun u => veqb (vint k) (picked ks u)) (tuples n x)) == inject_Z (total x ^ Z.of_nat n) * prob (pick_law true ks n t) k)%Q.
Proof.
  intro R. rewrite mass_qsum, pick_prob, <- (tuples_rolls t x n R). apply qsum_ext. intros u w I.
  rewrite (picked_picks ks u) by exact (tuple_ints n x u w (reps_int _ _ R) I). unfold veqb. rewrite vcmp_int, <- Z.eqb_compare. reflexivity.
Qed.

Lemma tuples_repeat {A} n (l : list (A * Z)) v w : In (v, w) l -> exists u, In (repeat v n, u) (tuples n l) /\ (0 < w -> 0 < u).
Proof.
  intro I. induction n as [|n IH]; [exists 1; split; [left; reflexivity|lia]|]. destruct IH as [u [J P]]. exists (w * u). split.
  - apply in_tuples_S. exists v, w, (repeat v n), u. auto.
  - intro W. specialize (P W). nia.
Qed.

(** one position *)
Lemma position_reps c y t n k : cfg_trunc c = false -> reps t (rv_die y) -> rv_roll y = Z.of_nat n ->
  1 <= k <= Z.of_nat n -> total (rv_die y) ^ Z.of_nat n <= SUM_LIMIT ->
  exists d, rv_rmatmul c (oint k) y = Ok (ORV (rv_of d)) /\ reps (pick_law (cfg_highest c) [k] n t) d.
Proof.
  intros TR R RY K L. set (h := cfg_highest c). rewrite at_single, RY. set (x := rv_die y) in *.
  pose proof (reps_total _ _ R) as TP. pose proof (reps_int _ _ R) as IX.
  destruct (kth_order_list c x (Z.of_nat n) k TR (rp_canon _ _ R) TP (fun _ => rp_pos _ _ R) K) as [xs [E [V [PX [TX W]]]]].
  rewrite Nat2Z.id in W. rewrite E.
  assert (IXS : int_vals xs). { unfold int_vals in *. apply (proj1 (Forall_map fst (fun v => v_is_int v = true) xs)). fold (vals xs). rewrite V. apply Forall_map. exact IX. }
  assert (AT : forall u w v, In (u, w) (tuples n x) -> veqb v (at_position c k u) = veqb v (vint (picks h [k] (map toZ u)))).
  { intros u w v I. unfold at_position. fold h. pose proof (tuple_ints n x u w IX I) as AI.
    unfold picks, in_order. cbn [map IdealSpec.sum fold_right]. rewrite Z.add_0_r. destruct h.
    - rewrite (descending_downwards u AI), entry_nth. reflexivity.
    - rewrite (ascending_upwards u AI), entry_nth. reflexivity. }
  assert (R' : reps (pick_law h [k] n t) (normal c xs)).
  { apply (normal_reps c xs _ (inject_Z (total x ^ Z.of_nat n))); [exact (proj1 PX)|exact IXS| | |apply pick_fine; exact (proj2 (rp_fine _ _ R))| | |].
    - intro Z0. rewrite Z0 in TX. assert (0 < total x ^ Z.of_nat n) by (apply Z.pow_pos_nonneg; lia). cbn in TX. lia.
    - intros z Lz. rewrite W.
      assert (Lx : listed (vint z) x = true). { rewrite <- Lz. symmetry. apply listed_vals. exact V. }
      apply listed_iff in Lx. destruct Lx as [[v w] [I Ev]]. cbn [fst] in Ev.
      destruct (tuples_repeat n x v w I) as [u [J P]]. specialize (P (reps_weight _ _ _ _ R I)).
      apply (Z.lt_le_trans _ u); [exact P|]. apply (mass_in _ _ (repeat v n) u); [apply nonneg_tuples; exact (reps_nonneg _ _ R)|exact J|].
      assert (Q : In (at_position c k (repeat v n)) (repeat v n)) by (apply at_position_in; rewrite repeat_length; exact K).
      apply repeat_spec in Q. rewrite Q. exact Ev.
    - apply inject_pos. apply Z.pow_pos_nonneg; lia.
    - intro z. rewrite W, mass_qsum, pick_prob, <- (tuples_rolls t x n R). apply qsum_ext. intros u w I.
      rewrite (AT u w (vint z) I). unfold veqb. rewrite vcmp_int, <- Z.eqb_compare. reflexivity.
    - rewrite TX. reflexivity. }
  pose proof (normal_total_le c xs (proj1 PX)) as TL. rewrite TX in TL.
  rewrite prob_limit_id by (etransitivity; [exact TL|]; apply Z.max_lub; [discriminate|exact L]).
  eexists. split; [reflexivity|exact R'].
Qed.

(** several positions *)
Lemma faces_prod x t d : reps t x -> faces x d -> 0 < prodw (wt x) d.
Proof.
  intros R. induction 1 as [|v d I _ IH]; [reflexivity|]. unfold prodw in *. cbn [fold_right].
  unfold vals in I. apply in_map_iff in I. destruct I as [[v' w] [Ev I]]. cbn [fst] in Ev. subst v'.
  pose proof (wt_strict x (v, w) (reps_strict _ _ R) I) as E. cbn [fst snd] in E. rewrite E. pose proof (reps_weight _ _ _ _ R I). nia.
Qed.
Lemma arrangements_pos x t n d : reps t x -> In d (roll_list x n) -> 0 < arrangements x n d.
Proof.
  intros R I. apply (roll_list_spec x (reps_strict _ _ R)) in I. destruct I as [L [F _]]. unfold arrangements.
  assert (HP : forall a w, In (a, w) x -> wt x a = w) by (intros a w J; exact (wt_strict x (a, w) (reps_strict _ _ R) J)).
  pose proof (multinomial pval_eq_dec (wt x) x (vals_NoDup x (reps_strict _ _ R)) HP n d L F) as M.
  pose proof (faces_prod x t d R F). pose proof (den_pos pval_eq_dec d).
  assert (FP : forall m, 0 < fact_z m). { induction m as [|m IHm]; [reflexivity|]. change (fact_z (S m)) with (Z.of_nat (S m) * fact_z m). nia. }
  specialize (FP n). nia.
Qed.
Lemma select_reps c y t n ks : cfg_trunc c = false -> reps t (rv_die y) -> rv_roll y = Z.of_nat n ->
  lcd (pick_law true ks n t) <= bound ->
  exists d, rv_sum_at c y ks = Ok (ORV (rv_of d)) /\ reps (pick_law true ks n t) d.
Proof.
  intros TR R RY L. set (x := rv_die y) in *.
  assert (HR : 0 <= rv_roll y) by lia.
  pose proof (reps_strict _ _ R) as SX. pose proof (reps_int _ _ R) as IX. pose proof (reps_nonneg _ _ R) as NX. pose proof (reps_total _ _ R) as TP.
  rewrite (sum_at_list y x eq_refl SX NX IX HR). set (P := pick_list y x ks).
  assert (TT : total P = total x ^ Z.of_nat n) by (unfold P; rewrite (pick_total y x SX HR ks), RY; reflexivity).
  assert (TPP : 0 < total P) by (rewrite TT; apply Z.pow_pos_nonneg; lia).
  assert (PI : Forall (fun vw => v_is_int (fst vw) = true /\ 0 < snd vw) P).
  { unfold P, pick_list. apply Forall_map. apply Forall_forall. intros d I. cbn [fst snd]. split; [reflexivity|].
    exact (arrangements_pos x t _ d R I). }
  set (Lw := map (fun vw => (sure (toZ (fst vw)), (inject_Z (snd vw) / inject_Z (total P))%Q)) P).
  assert (TQ : ~ (inject_Z (total P) == 0)%Q). { intro E. apply (inject_eq _ 0) in E. lia. }
  assert (PA : Forall2 (part (inject_Z (total P))) Lw (map (fun vw : pval * Z => (snd vw, [(fst vw, 1)])) P)).
  { unfold Lw. generalize (total P) TPP TQ. intros T TPos TNZ. clear -PI TNZ TPos. induction PI as [|[v w] l [IV PW] _ IH]; [constructor|]. cbn [map fst snd] in *.
    constructor; [|exact IH]. split; [|split; [|exact PW]]; cbn [fst snd].
    - rewrite (is_int_vint v IV). apply sure_reps.
    - field. exact TNZ. }
  destruct (from_rvs_reps c (map MxVal (map fst P)) (map snd P) (inject_Z (total P)) Lw (pick_law true ks n t) TR) as [d [E Rd]].
  - rewrite !map_length. reflexivity.
  - apply inject_pos. exact TPP.
  - rewrite (vals_components P). exact PA.
  - unfold Lw. destruct P; [discriminate TPP|discriminate].
  - apply pick_fine. exact (proj2 (rp_fine _ _ R)).
  - intro k.
    assert (E1 : (ex (fun s => prob s k) Lw == inject_Z (wt P (vint k)) / inject_Z (total P))%Q).
    { unfold Lw. generalize (total P) TQ. intros T TNZ. clear -PI TNZ. unfold wt. induction PI as [|[v w] l [IV _] _ IH]; cbn [map ex mass fst snd] in *; [field; exact TNZ|].
      rewrite IH. unfold prob, sure. cbn [chance]. rewrite (is_int_vint v IV) at 2. unfold veqb. rewrite vcmp_int, <- Z.eqb_compare, inject_Z_plus.
      destruct (k =? toZ v); field; exact TNZ. }
    assert (E2 : (chance (fun _ => true) Lw == inject_Z (total P) / inject_Z (total P))%Q).
    { unfold Lw. unfold total at 2. generalize (total P) TQ. intros T TNZ. clear -TNZ. induction P as [|[v w] l IH]; cbn [map chance mass fst snd] in *; [field; exact TNZ|].
      rewrite IH, inject_Z_plus. field. exact TNZ. }
    rewrite E1, E2. unfold wt, P. rewrite (pick_mass y x SX ks). fold P. rewrite RY, Nat2Z.id.
    rewrite (tuples_pick ks n t x k R), TT. field. rewrite <- TT. exact TQ.
  - exact L.
  - rewrite E. cbn [bind]. exists d. split; [reflexivity|exact Rd].
Qed.

(** ** The sequences shown *)
Lemma lists_cwr n : forall vs, cwr n (map vint vs) = map (map vint) (lists_of n vs).
Proof.
  induction n as [|n IH]; [reflexivity|]. induction vs as [|v vs IHv]; [reflexivity|].
  change (lists_of (S n) (v :: vs)) with (map (cons v) (lists_of n (v :: vs)) ++ lists_of (S n) vs).
  cbn [map]. rewrite cwr_S, map_app, IHv. f_equal. change (vint v :: map vint vs) with (map vint (v :: vs)). rewrite IH, !map_map. reflexivity.
Qed.
Lemma stands_vals T t d : Forall2 (IdealFacts.stands T) t d -> vals d = map vint (map fst t).
Proof. induction 1 as [|a b t d [E _] _ IH]; [reflexivity|]. cbn [vals map]. rewrite E. unfold vals in IH. rewrite IH. reflexivity. Qed.
Lemma reps_vals t d : reps t d -> vals d = map vint (map fst t).
Proof. intro R. exact (stands_vals _ _ _ (rp_stands _ _ R)). Qed.
Lemma same_list_spec a : forall b, same_list a b = true <-> a = b.
Proof.
  induction a as [|x a IH]; intros [|y b]; cbn [same_list]; try (split; congruence).
  rewrite andb_true_iff, Z.eqb_eq, IH. split; [intros [-> ->]; reflexivity|intro E; injection E as -> ->; auto].
Qed.
Lemma vint_inj a b : vint a = vint b -> a = b.
Proof. intro E. injection E as E. exact E. Qed.
Lemma vints_inj a : forall b, map vint a = map vint b -> a = b.
Proof. induction a as [|x a IH]; intros [|y b] E; try discriminate; [reflexivity|]. cbn [map] in E. injection E as E1 E2. f_equal; [exact E1|exact (IH b E2)]. Qed.

Definition shows (C : Q) (sq : list Z * Q) (ow : obj * Z) : Prop :=
  fst ow = OSeq (map vint (fst sq)) /\ (inject_Z (snd ow) == C * snd sq)%Q /\ 0 < snd ow.
Lemma shown_rolls y t n : reps t (rv_die y) -> rv_roll y = Z.of_nat n ->
  exists L, roll_seqs y = Ok L /\ Forall2 (shows (inject_Z (total (rv_die y) ^ Z.of_nat n))) (shown n t) L.
Proof.
  intros R RY. set (x := rv_die y) in *.
  assert (HR : 0 <= rv_roll y) by lia.
  pose proof (reps_strict _ _ R) as SX. pose proof (reps_int _ _ R) as IX. pose proof (reps_nonneg _ _ R) as NX.
  rewrite (roll_seqs_ints y x eq_refl SX NX IX HR), RY, Nat2Z.id. eexists. split; [reflexivity|].
  assert (GEN : forall ss, (forall s, In s ss -> In (map vint s) (roll_list x n)) ->
    Forall2 (shows (inject_Z (total x ^ Z.of_nat n))) (map (fun s => (s, chance (fun l => same_list (downwards l) s) (rolls n t))) ss)
      (map (fun t0 => (OSeq t0, arrangements x n t0)) (map (map vint) ss))).
  { induction ss as [|s ss IH]; intro H; [constructor|]. cbn [map]. constructor; [|apply IH; intros s' I; apply H; right; exact I].
    pose proof (H s (or_introl eq_refl)) as I. split; [reflexivity|]. cbn [fst snd]. split; [|exact (arrangements_pos x t n _ R I)].
    rewrite (arrangements_mass x SX n _ I), mass_qsum, chance_ex, <- (tuples_rolls t x n R). apply qsum_ext. intros u w J.
    rewrite (descending_downwards u (tuple_ints n x u w IX J)).
    destruct (list_eq_dec pval_eq_dec (map vint s) (map vint (downwards (map toZ u)))) as [E|N].
    - apply vints_inj in E. rewrite <- E. rewrite (proj2 (same_list_spec s s) eq_refl). reflexivity.
    - destruct (same_list (downwards (map toZ u)) s) eqn:E; [|reflexivity]. apply same_list_spec in E. rewrite E in N. congruence. }
  destruct (Nat.eq_dec n 1) as [E1|N1].
  - subst n. change (Z.of_nat 1) with 1. rewrite Z.pow_1_r. unfold roll_list. cbn [Nat.eqb]. unfold shown.
    pose proof (rp_stands _ _ R) as S. fold x in S.
    assert (IN : forall v w, In (v, w) x -> arrangements x 1 [v] = w) by (intros v w I; exact (arrangements_1 x SX v w I)).
    assert (PW : forall v w, In (v, w) x -> 0 < w) by (intros v w I; exact (reps_weight _ _ _ _ R I)).
    generalize (arrangements x 1) IN PW. revert S. generalize (total x). clear. intros T S A IN PW.
    induction S as [|[z q] [v w] t d [E1 E2] _ IH]; [constructor|]. cbn [fst snd] in *. cbn [map vals fst].
    constructor; [|apply IH; intros; [apply IN|eapply PW]; right; eassumption].
    split; [cbn [fst map]; rewrite E1; reflexivity|]. cbn [fst snd]. rewrite (IN v w (or_introl eq_refl)). split; [exact E2|exact (PW v w (or_introl eq_refl))].
  - assert (EL : roll_list x n = map (map vint) (lists_of n (rev (map fst t)))).
    { unfold roll_list. rewrite (proj2 (Nat.eqb_neq n 1) N1), (reps_vals _ _ R). rewrite <- map_rev. apply lists_cwr. }
    rewrite EL. replace (shown n t) with (map (fun s => (s, chance (fun l => same_list (downwards l) s) (rolls n t))) (lists_of n (rev (map fst t)))).
    + apply GEN. intros s I. rewrite EL. exact (in_map _ _ _ I).
    + destruct n as [|[|n]]; [reflexivity|congruence|reflexivity].
Qed.
