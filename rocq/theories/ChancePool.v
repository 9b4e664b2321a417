(** Proofs for property C111 (PropChance.v). *)
From Coq Require Import List ZArith QArith Qpower Qfield Bool Arith Lia.
From Verif Require Import PyBase Num Val Sorting RVModel Obj RollModel RollSpec AtModel Spec CmpFacts SortFacts MassFacts RVFacts ConstructFacts IntFacts ConvFacts OpFacts OrderFacts UnaryFacts MixFacts RollObjFacts RollFacts GwfFacts ChanceSpec ChanceFacts.
Import ListNotations.
Open Scope Z_scope.

Lemma exactly_mass {A} (P : A -> bool) (d : list (A * Z)) N j : 0 < total d -> (j <= N)%nat ->
  (PrP (fun t => Nat.eqb (cnt P t) j) (tuples N d) == exactly N (PrP P d) j)%Q.
Proof.
  intros T J. pose proof (at_least_sum P d N T (S (N - j)) j ltac:(lia)) as A1.
  pose proof (at_least_sum P d N T (N - j) (S j) ltac:(lia)) as B.
  cbn [seq any_of] in A1. rewrite <- B in A1.
  rewrite <- (Qplus_inj_r _ _ (PrP (fun t => Nat.leb (S j) (cnt P t)) (tuples N d))). rewrite <- A1.
  unfold PrP. rewrite (mass_ext (fun t => Nat.leb j (cnt P t)) (fun t => Nat.eqb (cnt P t) j || Nat.leb (S j) (cnt P t))).
  2:{ intros t w _. destruct (Nat.leb_spec j (cnt P t)), (Nat.eqb_spec (cnt P t) j), (Nat.leb_spec (S j) (cnt P t)); cbn [orb]; auto; lia. }
  rewrite mass_or. 2:{ intros t E. apply Nat.eqb_eq in E. apply Nat.leb_gt. lia. }
  rewrite inject_Z_plus. unfold Qdiv. ring.
Qed.

Definition one (v : pval) : bool := toZ v =? 1.

Lemma marks_total P (x : dist) N t w : In (t, w) (tuples N (image (fun a => b01 (P a)) x)) ->
  sumZ (map toZ t) = Z.of_nat (cnt one t).
Proof.
  intro I. apply tuples_in in I. induction I as [|v t V I IH]; [reflexivity|]. rewrite cnt_cons. cbn [map].
  change (sumZ (toZ v :: map toZ t)) with (toZ v + sumZ (map toZ t)). rewrite IH.
  unfold image in V. rewrite map_map in V. cbn [fst] in V. apply in_map_iff in V. destruct V as ([a u] & <- & _). cbn [fst].
  unfold one at 2. unfold b01, vint. cbn [toZ ntrunc].
  destruct (P a); [change (1 =? 1) with true|change (0 =? 1) with false]; cbv iota; set (z := cnt one t); clearbody z; lia.
Qed.

Lemma marks_law P (x : dist) n j : proper x -> 0 <= n ->
  (Pr (dice_total n (image (fun a => b01 (P a)) x)) (vint (Z.of_nat j)) ==
   if Nat.leb j (Z.to_nat n) then exactly (Z.to_nat n) (PrP P x) j else 0)%Q.
Proof.
  intros [Nn T] N. set (b := image (fun a => b01 (P a)) x).
  assert (Tb : total b = total x) by (unfold b; apply total_image).
  assert (E : (Pr (dice_total n b) (vint (Z.of_nat j)) == PrP (fun t => Nat.eqb (cnt one t) j) (tuples (Z.to_nat n) b))%Q).
  { unfold Pr, PrP, wt, dice_total, total. rewrite !mass_image. replace (Z.abs_nat n) with (Z.to_nat n) by lia.
    apply Qdiv_comp; [|reflexivity]. apply inject_Z_injective. apply mass_ext. intros t w I.
    pose proof (marks_total P x _ t w I) as S. rewrite S.
    pose proof (tuples_length _ _ _ _ I) as L. pose proof (cnt_le one t) as C.
    assert (M : Z.sgn n * Z.of_nat (cnt one t) = Z.of_nat (cnt one t)).
    { destruct (Z.eq_dec n 0) as [->|]; [cbn [Z.to_nat] in L; lia|]. rewrite Z.sgn_pos by lia. lia. }
    rewrite M. rewrite veqb_int. destruct (Z.eqb_spec (Z.of_nat j) (Z.of_nat (cnt one t))), (Nat.eqb_spec (cnt one t) j); auto; lia. }
  rewrite E. destruct (Nat.leb_spec j (Z.to_nat n)) as [J|J].
  - rewrite exactly_mass by (rewrite ?Tb; auto).
    assert (Q : PrP one b = PrP P x).
    { unfold PrP. rewrite Tb. unfold b. rewrite mass_image. do 2 f_equal.
      apply mass_ext. intros a w _. unfold one, b01, vint. cbn [toZ]. destruct (P a); reflexivity. }
    rewrite Q. reflexivity.
  - unfold PrP. rewrite mass_false; [reflexivity|]. intros t w I. pose proof (tuples_length _ _ _ _ I). pose proof (cnt_le one t).
    apply Nat.eqb_neq. lia.
Qed.

Lemma pool_law c calls op P n x m s : Forall int_call calls -> cfg_trunc c = false -> proper x -> 0 <= n ->
  total x ^ n <= SUM_LIMIT -> (forall a, vop op a m = Ok (b01 (P a))) -> rv_op_const c op x m = Ok s ->
  exists r, roll_after c calls (oint n) (Some (ORV s)) = Ok (ORV r) /\
    forall j, (Pr (rv_dist r) (vint (Z.of_nat j)) ==
      if Nat.leb j (Z.to_nat n) then exactly (Z.to_nat n) (PrP P x) j else 0)%Q.
Proof.
  intros H Ht Px N L V Es. set (b := image (fun a => b01 (P a)) x).
  assert (M : mapM (fun a => vop op a m) (vals x) = Ok (map (fun a => b01 (P a)) (vals x))).
  { clear -V. induction (vals x) as [|a l IH]; [reflexivity|]. cbn [mapM map]. rewrite V, IH. reflexivity. }
  unfold rv_op_const in Es. rewrite (rv_map_eq c _ x _ Ht (proj1 Px) M), image_combine in Es. injection Es as <-. fold b.
  assert (Pb : proper b) by (apply proper_image, Px).
  assert (Ib : int_vals b) by (unfold b, image; apply Forall_forall; intros e I; apply in_map_iff in I; destruct I as ([a w] & <- & _); reflexivity).
  assert (Pn : proper (normal c b)) by (apply normal_proper; exact Pb).
  assert (In_ : int_vals (normal c b)) by (apply normal_int; exact Ib).
  assert (S : same_law (normal c b) b) by (intro v; apply normal_Pr; exact Pb).
  assert (Ln : total (normal c b) ^ Z.abs n <= SUM_LIMIT).
  { rewrite Z.abs_eq by exact N. etransitivity; [|exact L]. apply Z.pow_le_mono_l.
    pose proof (normal_total_le c b (proj1 Pb)) as K. assert (total b = total x) by apply total_image.
    pose proof (proj2 Pn). pose proof (proj2 Px). lia. }
  destruct (roll_exact c calls n (rv_of (normal c b)) H Ht Pn In_ Ln) as (r & Er & R & _).
  exists r. split; [exact Er|]. intro j. rewrite (R (vint (Z.of_nat j))). cbn [rv_of rv_dist].
  rewrite (dice_total_law n (normal c b) b Pn Pb In_ Ib S (vint (Z.of_nat j))). apply marks_law; auto.
Qed.

Lemma pool_defined c op P x m : cfg_trunc c = false -> nonneg x -> (forall a, vop op a m = Ok (b01 (P a))) ->
  exists s, rv_op_const c op x m = Ok s.
Proof.
  intros Ht Nn V.
  assert (M : mapM (fun a => vop op a m) (vals x) = Ok (map (fun a => b01 (P a)) (vals x))).
  { clear -V. induction (vals x) as [|a l IH]; [reflexivity|]. cbn [mapM map]. rewrite V, IH. reflexivity. }
  unfold rv_op_const. rewrite (rv_map_eq c _ x _ Ht Nn M). eauto.
Qed.
