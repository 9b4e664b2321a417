(** Operations on dice that stand for tables: combining, mapping, rolling, mixing. *)
From Coq Require Import String List ZArith QArith Qreduction Qabs Bool Permutation Sorted Lia Lqa.
From Verif Require Import PyBase Num Val Sorting RVModel UtilModel Obj RollModel Spec CmpFacts SortFacts MassFacts NumFacts RVFacts ConstructFacts
  ConvFacts IntFacts RoundFacts LimitFacts OpFacts UnaryFacts MixFacts RollFacts RollSpec RollObjFacts CastMixFacts.
From Verif Require Import IdealSpec IdealFacts.
Import ListNotations.
Open Scope Z_scope.
Open Scope list_scope.

Notation ind := IdealFacts.ind.

Lemma mass_qsum {A} (P : A -> bool) (l : list (A * Z)) : (inject_Z (mass P l) == qsum (fun a => ind (P a)) l)%Q.
Proof.
  induction l as [|[a w] l IH]; [reflexivity|]. cbn [mass qsum]. rewrite inject_Z_plus, IH. destruct (P a); cbn; ring.
Qed.
Lemma mass_indep_qsum {A B} (P : A * B -> bool) (a : list (A * Z)) (b : list (B * Z)) :
  (inject_Z (mass P (indep a b)) == qsum (fun x => qsum (fun y => ind (P (x, y))) b) a)%Q.
Proof.
  rewrite MassFacts.mass_indep_wsum, qsum_inject. apply qsum_ext. intros x w _. apply mass_qsum.
Qed.
Lemma qsum_cmul {A} k (f : A -> Q) (l : list (A * Z)) : (qsum (fun a => k * f a) l == k * qsum f l)%Q.
Proof. induction l as [|[a w] l IH]; cbn [qsum]; [ring|]. rewrite IH. ring. Qed.

Lemma reps_in t d v w : reps t d -> In (v, w) d -> exists z q, In (z, q) t /\ v = vint z /\ (inject_Z w == inject_Z (total d) * q)%Q.
Proof.
  intros H. pose proof (rp_stands t d H) as S. revert S. generalize (total d). intros T S. clear H.
  induction S as [|[z q] [u x] t' d' [E1 E2] _ IH]; intros I; [destruct I|]. cbn [fst snd] in *. destruct I as [I|I].
  - injection I as -> ->. exists z, q. split; [left; reflexivity|split; assumption].
  - destruct (IH I) as [y [r [J R]]]. exists y, r. split; [right; exact J|exact R].
Qed.
Lemma reps_in' t d z q : reps t d -> In (z, q) t -> exists w, In (vint z, w) d.
Proof.
  intros H. pose proof (rp_stands t d H) as S. revert S. generalize (total d). intros T S. clear H.
  induction S as [|[y r] [u x] t' d' [E1 E2] _ IH]; intros I; [destruct I|]. cbn [fst snd] in *. destruct I as [I|I].
  - injection I as -> ->. exists x. left. rewrite E1. reflexivity.
  - destruct (IH I) as [w J]. exists w. right. exact J.
Qed.
Lemma reps_weight t d v w : reps t d -> In (v, w) d -> 0 < w.
Proof.
  intros H I. pose proof (rp_pos t d H) as P. unfold positive_weights in P. rewrite Forall_forall in P.
  apply P. exact (in_map snd _ _ I).
Qed.
(** the total is one *)
Lemma reps_one t d : reps t d -> (ex (fun _ => 1) t == 1)%Q.
Proof.
  intro H. pose proof (reps_total t d H) as P. pose proof (reps_ex t d H (fun _ => 1)%Q) as E.
  assert (X : (qsum (fun _ : pval => 1) d == inject_Z (total d))%Q).
  { rewrite total_wsum, qsum_inject. reflexivity. }
  rewrite X in E. apply inject_pos in P.
  apply (Qmult_inj_l _ _ (inject_Z (total d))); [intro Z0; rewrite Z0 in P; exact (Qlt_irrefl _ P)|]. rewrite <- E. ring.
Qed.
Lemma mass_in {A} (P : A -> bool) (l : list (A * Z)) a w : nonneg l -> In (a, w) l -> P a = true -> w <= mass P l.
Proof.
  induction 1 as [|[b u] l U N IH]; intros I E; [destruct I|]. cbn [mass snd] in *. pose proof (mass_nonneg P l N). destruct I as [I|I].
  - injection I as -> ->. rewrite E. lia.
  - specialize (IH I E). destruct (P b); lia.
Qed.

(** ** Two dice *)
Lemma conv_reps c f (F : Z -> Z -> Z) a b x y t : cfg_trunc c = false -> reps a x -> reps b y ->
  (forall p q, In p (map fst a) -> In q (map fst b) -> f (vint p) (vint q) = Ok (vint (F p q))) ->
  fine t -> (forall g, (ex g t == ex (fun p => ex (fun q => g (F p q)) b) a)%Q) ->
  total x * total y <= SUM_LIMIT \/ lcd t <= bound ->
  exists d, rv_conv c f x y = Ok (rv_of d) /\ reps t d /\ total d <= total x * total y.
Proof.
  intros TR Ra Rb Hf Ft Hex Lim.
  assert (FF : forall v u w w', In (v, w) x -> In (u, w') y -> f v u = Ok (vint (F (toZ v) (toZ u)))).
  { intros v u w w' I J. destruct (reps_in a x v w Ra I) as [z [q [I1 [-> _]]]]. destruct (reps_in b y u w' Rb J) as [z' [q' [J1 [-> _]]]].
    apply Hf; [exact (in_map fst _ _ I1)|exact (in_map fst _ _ J1)]. }
  destruct (fast_convolve_total f x y) as [m E].
  { intros [v w] [u w'] I J. eexists. exact (FF v u w w' I J). }
  pose proof (fast_convolve_spec f x y m E) as CR.
  pose proof (reps_nonneg a x Ra) as Nx. pose proof (reps_nonneg b y Rb) as Ny.
  pose proof (cr_nonneg _ _ _ _ CR Nx Ny) as Nm.
  assert (Im : int_vals m).
  { apply (conv_keys (fun v => v_is_int v = true) f x y m E). intros [v w] [u w'] r I J R. cbn [fst] in R.
    rewrite (FF v u w w' I J) in R. injection R as <-. reflexivity. }
  pose proof (conv_total f x y m CR) as TM.
  pose proof (reps_total a x Ra) as Tx. pose proof (reps_total b y Rb) as Ty.
  assert (TP : 0 < total x * total y) by nia.
  assert (WT : forall k, (inject_Z (wt m (vint k)) == inject_Z (total x * total y) * prob t k)%Q).
  { intro k. unfold wt. rewrite (cr_mass _ _ _ _ CR _ (vresp_veqb _)), mass_indep_qsum.
    rewrite (qsum_ext _ (fun v => inject_Z (total y) * ex (fun q => ind (k =? F (toZ v) q)) b)%Q).
    - rewrite qsum_cmul, (reps_ex a x Ra (fun p => ex (fun q => ind (k =? F p q)) b)).
      rewrite prob_ex, Hex, inject_Z_mult. ring.
    - intros v w I. rewrite <- (reps_ex b y Rb (fun q => ind (k =? F (toZ v) q))). apply qsum_ext. intros u w' J.
      unfold okP, uncur. cbn [fst snd]. rewrite (FF v u w w' I J). unfold veqb. rewrite vcmp_int.
      rewrite <- Z.eqb_compare. reflexivity. }
  assert (R : reps t (normal c m)).
  { apply (normal_reps c m t (inject_Z (total x * total y))); [exact Nm|exact Im| | |exact Ft|exact (inject_pos _ TP)|exact WT|rewrite TM; reflexivity].
    - intro Z0. subst m. cbn in TM. lia.
    - intros k Lk. apply (cr_listed _ _ _ _ CR) in Lk. destruct Lk as [[v w] [[u w'] [I [J O]]]]. cbn [fst] in O.
      unfold wt. rewrite (cr_mass _ _ _ _ CR _ (vresp_veqb _)).
      assert (K : In ((v, u), w * w') (indep x y)). { apply IntFacts.in_indep. exists w, w'. auto. }
      pose proof (mass_in _ _ _ _ (nonneg_indep x y Nx Ny) K O). pose proof (reps_weight a x v w Ra I). pose proof (reps_weight b y u w' Rb J). nia. }
  exists (normal c m). pose proof (normal_total_le c m Nm) as TL. rewrite TM in TL.
  split; [|split; [exact R|lia]]. rewrite (rv_conv_limit c f x y m TR Nm E).
  replace (prob_limit (normal c m)) with (Ok (normal c m)); [reflexivity|]. symmetry. destruct Lim as [L|L].
  - apply prob_limit_id. lia.
  - exact (reps_limit t _ R L).
Qed.

(** ** One die *)
Lemma map_reps c f (F : Z -> Z) a x t : cfg_trunc c = false -> reps a x ->
  (forall p, In p (map fst a) -> f (vint p) = Ok (vint (F p))) ->
  fine t -> (forall g, (ex g t == ex (fun p => g (F p)) a)%Q) ->
  exists d, rv_map c f x = Ok (rv_of d) /\ reps t d /\ total d <= total x.
Proof.
  intros TR Ra Hf Ft Hex.
  assert (FF : forall v w, In (v, w) x -> f v = Ok (vint (F (toZ v)))).
  { intros v w I. destruct (reps_in a x v w Ra I) as [z [q [I1 [-> _]]]]. apply Hf. exact (in_map fst _ _ I1). }
  assert (M : mapM f (vals x) = Ok (map (fun v => vint (F (toZ v))) (vals x))).
  { clear -FF. induction x as [|[v w] x IH]; [reflexivity|]. cbn [vals map fst mapM]. rewrite (FF v w (or_introl eq_refl)). cbn [bind].
    fold (vals x). rewrite IH by (intros u w' I; exact (FF u w' (or_intror I))). reflexivity. }
  pose proof (reps_nonneg a x Ra) as Nx. pose proof (reps_int a x Ra) as Ix.
  rewrite (rv_map_eq c f x _ TR Nx M), image_combine.
  set (m := image (fun v => vint (F (toZ v))) x).
  assert (Nm : nonneg m) by exact (MassFacts.nonneg_image _ _ Nx).
  assert (TM : total m = total x) by apply MassFacts.total_image.
  pose proof (reps_total a x Ra) as Tx.
  exists (normal c m). split; [reflexivity|]. split; [|pose proof (normal_total_le c m Nm); lia].
  apply (normal_reps c m t (inject_Z (total x))); [exact Nm|apply image_int| | |exact Ft|exact (inject_pos _ Tx)| |rewrite TM; reflexivity].
  - intro Z0. rewrite Z0 in TM. cbn in TM. lia.
  - intros k Lk. apply (listed_image_int F x k Ix) in Lk. destruct Lk as [[v w] [I E]]. cbn [fst] in E.
    unfold m. rewrite (wt_image_int F x k). pose proof (mass_in (fun v => F (toZ v) =? k) x v w Nx I (proj2 (Z.eqb_eq _ _) E)).
    pose proof (reps_weight a x v w Ra I). lia.
  - intro k. unfold m. rewrite (wt_image_int F x k), mass_qsum.
    rewrite (reps_ex a x Ra (fun p => ind (F p =? k))), prob_ex, Hex.
    apply Qmult_comp; [reflexivity|]. apply ex_ext. intros p q _. rewrite Z.eqb_sym. reflexivity.
Qed.

Lemma reps_same t t' d : reps t d -> fine t' -> (forall g, (ex g t' == ex g t)%Q) -> reps t' d.
Proof.
  intros R F E. apply reps_intro; [exact F|exact (rp_canon t d R)|exact (rp_pos t d R)|exact (reps_int t d R)|].
  intro k. rewrite (wt_qsum d k (reps_int t d R)), (reps_ex t d R (fun z => ind (k =? z))), !prob_ex, E. reflexivity.
Qed.

(** ** Several dice *)
Lemma ex_several_S g n t : (ex g (several (S n) t) == ex (fun x => ex (fun y => g (x + y)%Z) (several n t)) t)%Q.
Proof.
  change (several (S n) t) with (collect (draw t (fun x => draw (several n t) (fun y => sure (x + y))))).
  rewrite ex_collect, ex_draw. apply ex_ext. intros x q _. rewrite ex_draw. apply ex_ext. intros y r _. apply ex_sure.
Qed.
Lemma several_fine n t : positive t -> fine (several n t).
Proof.
  intro P. induction n as [|n IH]; [apply fine_sure|].
  change (several (S n) t) with (collect (draw t (fun x => draw (several n t) (fun y => sure (x + y))))).
  apply collect_fine. apply positive_draw; [exact P|]. intros x q _. apply positive_draw; [exact (proj2 IH)|]. intros y r _. apply positive_sure.
Qed.
Lemma ex_several_1 g t : (ex g (several 1 t) == ex g t)%Q.
Proof. rewrite ex_several_S. apply ex_ext. intros x q _. cbn [several]. rewrite ex_sure, Z.add_0_r. reflexivity. Qed.
Lemma ex_several_add a b t : forall g, (ex g (several (a + b) t) == ex (fun x => ex (fun y => g (x + y)%Z) (several b t)) (several a t))%Q.
Proof.
  induction a as [|a IH]; intro g.
  - cbn [plus several]. rewrite ex_sure. apply ex_ext. intros y r _. rewrite Z.add_0_l. reflexivity.
  - cbn [plus]. rewrite !ex_several_S. apply ex_ext. intros x q _. rewrite (IH (fun y => g (x + y)%Z)). apply ex_ext. intros y r _.
    apply ex_ext. intros z s _. rewrite Z.add_assoc. reflexivity.
Qed.
Lemma add_ints p q : vop OAdd (vint p) (vint q) = Ok (vint (p + q)).
Proof. reflexivity. Qed.

Lemma roll_pure_reps c p t d : cfg_trunc c = false -> reps t (rv_dist d) -> total (rv_dist d) ^ Zpos p <= SUM_LIMIT ->
  exists r, roll_pure c p d = Ok r /\ reps (several (Pos.to_nat p) t) (rv_dist r) /\ total (rv_dist r) <= total (rv_dist d) ^ Zpos p.
Proof.
  intros TR R. pose proof (reps_total _ _ R) as TP. set (T := total (rv_dist d)) in *.
  assert (MO : forall a b, 0 <= a <= b -> T ^ a <= T ^ b) by (intros a b H; apply Z.pow_le_mono_r; lia).
  assert (PT : positive t) by exact (proj2 (rp_fine _ _ R)).
  assert (DB : forall q, T ^ Zpos (q~0) = T ^ Zpos q * T ^ Zpos q).
  { intro q. rewrite <- Z.pow_add_r by lia. f_equal. lia. }
  induction p as [q IH|q IH|]; intro L; cbn [roll_pure].
  - assert (SP : T ^ Zpos (q~1) = T ^ Zpos q * T ^ Zpos q * T).
    { rewrite <- Z.pow_add_r by lia. rewrite <- (Z.pow_1_r T) at 3. rewrite <- Z.pow_add_r by lia. f_equal. lia. }
    destruct IH as [h [Eh [Rh Th]]]; [pose proof (MO (Zpos q) (Zpos q~1)); lia|]. rewrite Eh. cbn [bind].
    pose proof (reps_total _ _ Rh) as HP. set (H := total (rv_dist h)) in *.
    destruct (conv_reps c (vop OAdd) Z.add _ _ _ _ (several (Pos.to_nat q + Pos.to_nat q) t) TR Rh Rh) as [d2 [E2 [R2 T2]]].
    { intros; apply add_ints. }
    { apply several_fine. exact PT. }
    { intro g. apply ex_several_add. }
    { left. fold H. pose proof (MO (Zpos q~0) (Zpos q~1)). rewrite DB in H0. nia. }
    unfold rv_op. rewrite E2. cbn [bind rv_dist rv_of]. fold H in T2. pose proof (reps_total _ _ R2) as P2.
    assert (T3 : total d2 <= T ^ Zpos q * T ^ Zpos q) by nia.
    destruct (conv_reps c (vop OAdd) Z.add _ _ _ _ (several (Pos.to_nat q~1) t) TR R2 R) as [d3 [E3 [R3 T4]]].
    { intros; apply add_ints. }
    { apply several_fine. exact PT. }
    { intro g. replace (Pos.to_nat q~1) with ((Pos.to_nat q + Pos.to_nat q) + 1)%nat by lia. rewrite (ex_several_add _ 1). apply ex_ext.
      intros x r _. rewrite ex_several_1. reflexivity. }
    { left. fold T. nia. }
    rewrite E3. cbn [bind rv_dist rv_of set_source]. eexists. split; [reflexivity|]. cbn [rv_dist set_source rv_of]. split; [exact R3|].
    fold T in T4. nia.
  - destruct IH as [h [Eh [Rh Th]]]; [pose proof (MO (Zpos q) (Zpos q~0)); lia|]. rewrite Eh. cbn [bind].
    pose proof (reps_total _ _ Rh) as HP. set (H := total (rv_dist h)) in *. rewrite DB in L |- *.
    destruct (conv_reps c (vop OAdd) Z.add _ _ _ _ (several (Pos.to_nat q~0) t) TR Rh Rh) as [d2 [E2 [R2 T2]]].
    { intros; apply add_ints. }
    { apply several_fine. exact PT. }
    { intro g. replace (Pos.to_nat q~0) with (Pos.to_nat q + Pos.to_nat q)%nat by lia. apply ex_several_add. }
    { left. fold H. nia. }
    unfold rv_op. rewrite E2. cbn [bind rv_dist rv_of]. eexists. split; [reflexivity|]. cbn [rv_dist set_source rv_of]. split; [exact R2|].
    fold H in T2. nia.
  - exists d. split; [reflexivity|]. split; [|fold T; lia]. apply (reps_same t); [exact R|apply several_fine; exact PT|].
    intro g. apply ex_several_1.
Qed.

Lemma sure_reps z : reps (sure z) [(vint z, 1)].
Proof.
  apply reps_intro; [apply fine_sure| | | |].
  - split; [|left; unfold probs; cbn; reflexivity]. split; [discriminate|]. split; repeat constructor. discriminate.
  - repeat constructor.
  - repeat constructor.
  - intro k. rewrite wt_cons. unfold prob, sure, total. cbn [chance mass wt]. destruct (k =? z); reflexivity.
Qed.
Lemma opposite_reps c t d : cfg_trunc c = false -> reps t d ->
  exists x, rv_neg c d = Ok (rv_of x) /\ reps (opposite t) x /\ total x <= total d.
Proof.
  intros TR R. apply (map_reps c (fun a => vop OSub (vint 0) a) Z.opp t d (opposite t) TR R).
  - intros p _. change (vop OSub (vint 0) (vint p)) with (Ok (vint (0 - p))). rewrite Z.sub_0_l. reflexivity.
  - apply collect_fine. apply positive_draw; [exact (proj2 (rp_fine _ _ R))|]. intros; apply positive_sure.
  - intro g. unfold opposite. rewrite ex_collect, ex_draw. apply ex_ext. intros; apply ex_sure.
Qed.

Lemma pool_reps c n t d : cfg_trunc c = false -> reps t (rv_dist d) -> total (rv_dist d) ^ Z.abs n <= SUM_LIMIT ->
  exists r, roll_int_pure c n d = Ok r /\ reps (pool n t) (rv_dist r) /\ total (rv_dist r) <= total (rv_dist d) ^ Z.abs n.
Proof.
  intros TR R L. unfold pool. destruct n as [|p|p]; cbn [roll_int_pure Z.abs Z.leb Z.compare] in *.
  - rewrite from_const_int by exact TR. eexists. split; [reflexivity|]. cbn [rv_dist rv_of Z.to_nat several].
    split; [apply sure_reps|]. unfold total. cbn. lia.
  - exact (roll_pure_reps c p t d TR R L).
  - destruct (roll_pure_reps c p t d TR R L) as [r [E [R1 T1]]]. rewrite E. cbn [bind].
    destruct (opposite_reps c _ _ TR R1) as [x [Ex [Rx Tx]]]. rewrite Ex. eexists. split; [reflexivity|]. cbn [rv_dist rv_of].
    change (- Zneg p) with (Zpos p). change (Z.to_nat (Zpos p)) with (Pos.to_nat p). split; [exact Rx|lia].
Qed.

(** ** One of several dice *)
Lemma live_pos l : Forall (fun vw => 0 < snd vw) l -> live l.
Proof.
  intros H k Lk. apply listed_iff in Lk. destruct Lk as [[v w] [I E]]. cbn [fst] in E.
  assert (N : nonneg l). { unfold nonneg. eapply Forall_impl; [|exact H]. cbn beta. intros. lia. }
  unfold wt. pose proof (mass_in _ _ _ _ N I E). rewrite Forall_forall in H. specialize (H _ I). cbn [snd] in H. lia.
Qed.
Definition part (C : Q) (tq : table * Q) (wd : Z * dist) : Prop :=
  reps (fst tq) (snd wd) /\ (inject_Z (fst wd) == C * snd tq)%Q /\ 0 < fst wd.
Lemma part_good C L cs : Forall2 (part C) L cs -> Forall MixFacts.good cs.
Proof. induction 1 as [|tq wd L cs [R [E P]] _ IH]; constructor; [|exact IH]. split; [lia|exact (reps_proper _ _ R)]. Qed.
Lemma part_num C L cs k : Forall2 (part C) L cs -> (mix_num (veqb (vint k)) cs == C * ex (fun t => prob t k) L)%Q.
Proof.
  induction 1 as [|[t q] [w d] L cs [R [E P]] _ IH]; cbn [mix_num ex fst snd] in *; [ring|].
  change (PrP (veqb (vint k)) d) with (Pr d (vint k)). rewrite IH, E, (reps_Pr _ _ k R). ring.
Qed.
Lemma part_total C L cs : Forall2 (part C) L cs -> (inject_Z (wtotal cs) == C * chance (fun _ => true) L)%Q.
Proof.
  unfold wtotal, sumZ. induction 1 as [|[t q] [w d] L cs [R [E P]] _ IH]; cbn [map fold_right chance fst snd] in *; [ring|].
  rewrite inject_Z_plus, IH, E. ring.
Qed.
Lemma part_entries C L cs D : Forall2 (part C) L cs -> 0 < D -> (forall wd, In wd cs -> (total (snd wd) | D)) ->
  Forall (fun vw => v_is_int (fst vw) = true /\ 0 < snd vw) (List.concat (map (scaled D) cs)).
Proof.
  intros H DP. induction H as [|[t q] [w d] L cs [R [E P]] _ IH]; intro DV; [constructor|]. cbn [map List.concat fst snd] in *.
  apply Forall_app. split; [|apply IH; intros wd I; apply DV; right; exact I].
  unfold scaled. apply Forall_map. apply Forall_forall. intros [v u] I. cbn [fst snd].
  split; [exact (int_in d v u (reps_int _ _ R) I)|]. pose proof (reps_weight _ _ _ _ R I) as UP. pose proof (reps_total _ _ R) as TP.
  destruct (DV (w, d) (or_introl eq_refl)) as [m Em]. cbn [snd] in Em. rewrite Em, Z.div_mul by lia. assert (0 < m) by nia. nia.
Qed.
Lemma wtotal_pos C L cs : Forall2 (part C) L cs -> cs <> [] -> 0 < wtotal cs.
Proof.
  intros H NE. destruct H as [|[t q] [w d] L cs [R [E P]] H]; [congruence|]. unfold wtotal, sumZ. cbn [map fold_right fst snd] in *.
  pose proof (wtotal_nonneg cs (part_good C L cs H)) as W. unfold wtotal, sumZ in W. lia.
Qed.
Lemma mix_reps c C L cs t : (0 < C)%Q -> Forall2 (part C) L cs -> cs <> [] -> fine t ->
  (forall k, (chance (fun _ => true) L * prob t k == ex (fun s => prob s k) L)%Q) -> reps t (normal c (mix_list cs)).
Proof.
  intros CP H NE F E. pose proof (part_good C L cs H) as G. destruct (mix_list_spec cs G) as [N [TT _]].
  pose proof (denominators_pos cs G) as DP. pose proof (wtotal_pos C L cs H NE) as WP.
  assert (EN : Forall (fun vw => v_is_int (fst vw) = true /\ 0 < snd vw) (mix_list cs)).
  { apply (part_entries C L); [exact H|exact DP|]. intros wd I. apply denominators_divide. exact I. }
  apply (normal_reps c (mix_list cs) t (inject_Z (denominators cs * wtotal cs))); [exact N| | | |exact F|apply inject_pos; nia| |rewrite TT; reflexivity].
  - unfold int_vals. eapply Forall_impl; [|exact EN]. intros e [A _]. exact A.
  - intro Z0. rewrite Z0 in TT. cbn in TT. nia.
  - apply live_pos. eapply Forall_impl; [|exact EN]. intros e [_ B]. exact B.
  - intro k. unfold wt, mix_list. rewrite mass_mixture; [|intros wd I; apply denominators_divide; exact I|exact G].
    rewrite (part_num C L cs k H), inject_Z_mult, (part_total C L cs H).
    rewrite <- Qmult_assoc. apply Qmult_comp; [reflexivity|]. rewrite <- Qmult_assoc. apply Qmult_comp; [reflexivity|].
    symmetry. apply E.
Qed.
Lemma from_rvs_reps c l ws C L t : cfg_trunc c = false -> length l = length ws -> (0 < C)%Q ->
  Forall2 (part C) L (components l ws) -> L <> [] -> fine t ->
  (forall k, (chance (fun _ => true) L * prob t k == ex (fun s => prob s k) L)%Q) -> lcd t <= bound ->
  exists d, from_rvs c l ws = Ok (Some (rv_of d)) /\ reps t d.
Proof.
  intros TR LE CP H NE F E LB. rewrite (from_rvs_is c l ws TR LE (part_good C L _ H)).
  destruct (components l ws) as [|wd cs] eqn:EC; [inversion H; subst; congruence|]. rewrite <- EC in *.
  assert (CN : components l ws <> []) by (rewrite EC; discriminate).
  pose proof (mix_reps c C L _ t CP H CN F E) as R. rewrite (reps_limit t _ R LB). cbn [bind]. eexists. split; [reflexivity|exact R].
Qed.

(** a random number of dice *)
Lemma chance_one t d : reps t d -> (chance (fun _ => true) t == 1)%Q.
Proof. intro R. rewrite chance_ex. exact (reps_one t d R). Qed.
Lemma pow_le_bound t d n : reps t d -> roll_ok n t = true -> total d ^ Z.abs n <= SUM_LIMIT.
Proof.
  intros R H. unfold roll_ok in H. apply Z.leb_le in H. pose proof (reps_total_le t d R) as A. pose proof (reps_total t d R). pose proof bound_limit.
  assert (total d ^ Z.abs n <= lcd t ^ Z.abs n) by (apply Z.pow_le_mono_l; lia). lia.
Qed.
Lemma random_count_reps c ns N t d : cfg_trunc c = false -> reps ns (rv_dist N) -> reps t (rv_dist d) ->
  forallb (fun nq => roll_ok (fst nq) t) ns = true -> lcd (collect (draw ns (fun n => pool n t))) <= bound ->
  exists x, roll_count_pure c (CRV N) d = Ok (set_source (rv_of x) 1 (rv_dist d)) /\ reps (collect (draw ns (fun n => pool n t))) x.
Proof.
  intros TR RN R OK LB. cbn [roll_count_pure]. rewrite (int_of_vals _ (reps_int _ _ RN)).
  assert (X : forall (s : table) (m : dist) T, Forall2 (IdealFacts.stands T) s m -> (0 < T) -> Forall (fun vw => 0 < snd vw) m -> forallb (fun nq => roll_ok (fst nq) t) s = true ->
    exists dies, mapM (fun n => roll_int_pure c n d) (map toZ (vals m)) = Ok dies /\ length dies = length m /\
      Forall2 (part (inject_Z T)) (map (fun nq => (pool (fst nq) t, snd nq)) s) (combine (probs m) (map rv_dist dies))).
  { intros s m T H TP. induction H as [|[n q] [v w] s m [E1 E2] H IH]; intros PW OKs; [exists []; repeat split; constructor|].
    cbn [fst snd forallb] in *. apply andb_prop in OKs. destruct OKs as [O1 O2]. inversion PW as [|? ? P1 P2]; subst. cbn [fst snd] in *.
    destruct (IH P2 O2) as [dies [Ed [Ld Fd]]]. destruct (pool_reps c n t d TR R (pow_le_bound t _ n R O1)) as [r [Er [Rr _]]].
    exists (r :: dies). cbn [vals map mapM fst toZ vint]. rewrite Er. cbn [bind]. fold (vals m). rewrite Ed. cbn [bind length]. split; [reflexivity|].
    split; [lia|]. cbn [probs map snd combine]. constructor; [|exact Fd]. split; [exact Rr|]. split; [exact E2|exact P1]. }
  assert (PW : Forall (fun vw => 0 < snd vw) (rv_dist N)).
  { apply Forall_forall. intros [v w] I. exact (reps_weight _ _ _ _ RN I). }
  destruct (X ns (rv_dist N) _ (rp_stands _ _ RN) (reps_total _ _ RN) PW OK) as [dies [Ed [Ld Fd]]]. rewrite Ed. cbn [bind].
  destruct (from_rvs_reps c (map MxRV dies) (probs (rv_dist N)) (inject_Z (total (rv_dist N))) (map (fun nq => (pool (fst nq) t, snd nq)) ns)
              (collect (draw ns (fun n => pool n t))) TR) as [x [Ex Rx]].
  - unfold probs. rewrite !map_length. exact Ld.
  - apply inject_pos. exact (reps_total _ _ RN).
  - rewrite components_rvs. exact Fd.
  - intro Z0. apply map_eq_nil in Z0. pose proof (rp_stands _ _ RN) as H. rewrite Z0 in H. inversion H as [E1 E2|]. exact (reps_nonempty _ _ RN (eq_sym E2)).
  - apply collect_fine. apply positive_draw; [exact (proj2 (rp_fine _ _ RN))|]. intros n q I.
    unfold pool. destruct (0 <=? n); [exact (proj2 (several_fine _ t (proj2 (rp_fine _ _ R))))|].
    unfold opposite. apply (fun H => proj2 (collect_fine _ H)). apply positive_draw; [|intros; apply positive_sure].
    exact (proj2 (several_fine _ t (proj2 (rp_fine _ _ R)))).
  - intro k. rewrite prob_ex, ex_collect, ex_draw, chance_ex. rewrite (ex_map (fun _ => ind true) (fun n => pool n t) ns).
    rewrite (ex_map (fun s => prob s k) (fun n => pool n t) ns). change (fun _ : Z => ind true) with (fun _ : Z => 1%Q). rewrite (reps_one _ _ RN).
    rewrite Qmult_1_l. apply ex_ext. intros n q _. rewrite prob_ex. reflexivity.
  - exact LB.
  - exists x. rewrite Ex. cbn [bind]. split; [reflexivity|exact Rx].
Qed.

(** ** The dice that numbers and sequences stand for *)
Lemma ex_const_weight {A} g q (l : list A) : (ex g (map (fun z => (z, q)) l) == q * ex g (map (fun z => (z, 1%Q)) l))%Q.
Proof. induction l as [|z l IH]; cbn [map ex]; [ring|]. rewrite IH. ring. Qed.
Lemma fair_fine l : fine (IdealSpec.fair l).
Proof. unfold IdealSpec.fair. apply collect_fine. apply Forall_map. apply Forall_forall. intros z _. reflexivity. Qed.
Lemma ex_ones g l : (ex g (map (fun z : Z => (z, 1%Q)) l) == qsum (fun v => g (toZ v)) (map (fun z => (vint z, 1%Z)) l))%Q.
Proof. induction l as [|z l IH]; cbn [map ex qsum]; [reflexivity|]. rewrite IH. reflexivity. Qed.
Lemma fair_reps c l : l <> [] -> reps (IdealSpec.fair l) (normal c (RollSpec.fair (map vint l))).
Proof.
  intro NE. unfold RollSpec.fair. rewrite map_map. set (m := map (fun z => (vint z, 1)) l).
  assert (TM : total m = Z.of_nat (length l)). { unfold m. rewrite <- (map_map vint (fun v => (v, 1))). rewrite ones_total, map_length. reflexivity. }
  assert (LP : (0 < length l)%nat) by (destruct l; [congruence|cbn; lia]).
  assert (PM : Forall (fun vw : pval * Z => 0 < snd vw) m). { unfold m. apply Forall_map. apply Forall_forall. intros z _. cbn. lia. }
  assert (IM : int_vals m). { unfold int_vals, m. apply Forall_map. apply Forall_forall. intros z _. reflexivity. }
  apply (normal_reps c m (IdealSpec.fair l) (inject_Z (Z.of_nat (length l)))).
  - unfold nonneg. eapply Forall_impl; [|exact PM]. cbn beta. intros. lia.
  - exact IM.
  - unfold m. destruct l; [congruence|discriminate].
  - apply live_pos. exact PM.
  - apply fair_fine.
  - apply inject_pos. lia.
  - intro k. rewrite (wt_qsum m k IM), prob_ex. unfold IdealSpec.fair. rewrite ex_collect, ex_const_weight, ex_ones.
    fold m. rewrite Qmult_assoc.
    assert (E : (inject_Z (Z.of_nat (length l)) * (1 # Pos.of_nat (length l)) == 1)%Q).
    { unfold Qeq, Qmult, inject_Z. cbn [Qnum Qden]. rewrite Pos.mul_1_l, !Z.mul_1_r, Z.mul_1_l.
      rewrite <- (Nat2Pos.id (length l)) at 1 by lia. apply positive_nat_Z. }
    rewrite E. ring.
  - rewrite TM. reflexivity.
Qed.
Lemma from_to_zrange a b : map vint (from_to a b) = zrange a (b + 1).
Proof. unfold from_to, zrange. rewrite map_map. reflexivity. Qed.
Lemma sides_reps m : reps (sides m) (int_die m).
Proof.
  unfold sides, int_die.
  assert (X : forall lo hi, lo <= hi -> reps (IdealSpec.fair (from_to lo hi)) (uniform lo hi)).
  { intros lo hi H. set (c := default_cfg).
    assert (NE : from_to lo hi <> []). { unfold from_to. replace (Z.to_nat (hi + 1 - lo)) with (S (Z.to_nat (hi - lo))) by lia. discriminate. }
    pose proof (fair_reps c (from_to lo hi) NE) as R. rewrite from_to_zrange in R. unfold RollSpec.fair in R. rewrite zrange_uniform in R.
    rewrite (normal_id_int c) in R; [exact R|apply uniform_canon; exact H|intro E; discriminate E|apply uniform_int]. }
  destruct (Z.ltb_spec 0 m) as [P|P]; [apply X; lia|]. destruct (Z.eqb_spec m 0) as [->|N]; [apply sure_reps|]. apply X. lia.
Qed.
