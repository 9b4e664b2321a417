(** Proofs for property C110 (PropChance.v). *)
From Coq Require Import List ZArith QArith Qpower Qfield Bool Permutation Sorted Arith Factorial Lia.
From Verif Require Import PyBase Num Val Sorting RVModel Obj RollModel RollSpec AtModel Spec CmpFacts SortFacts MassFacts RVFacts ConstructFacts OpFacts OrderFacts UnaryFacts SelectFacts ChanceSpec.
Import ListNotations.
Open Scope Z_scope.

(** ** Pascal's triangle gives n! / (k! (n-k)!) *)
Lemma choose_fact n : forall k, (k <= n)%nat ->
  comb n k * (Z.of_nat (fact k) * Z.of_nat (fact (n - k))) = Z.of_nat (fact n).
Proof.
  induction n as [|n IH]; intros [|k] H; try lia.
  - reflexivity.
  - change (comb (S n) 0) with 1. change (fact 0) with 1%nat. rewrite Nat.sub_0_r. lia.
  - cbn [comb]. change (S n - S k)%nat with (n - k)%nat. pose proof (IH k ltac:(lia)) as A.
    replace (fact (S k)) with (S k * fact k)%nat by reflexivity. replace (fact (S n)) with (S n * fact n)%nat by reflexivity.
    rewrite !Nat2Z.inj_mul.
    destruct (Nat.eq_dec k n) as [->|N].
    + rewrite (comb_zero n (S n)) by lia.
      transitivity (Z.of_nat (S n) * (comb n n * (Z.of_nat (fact n) * Z.of_nat (fact (n - n))))); [ring|now rewrite A].
    + pose proof (IH (S k) ltac:(lia)) as B. replace (n - k)%nat with (S (n - S k)) in A |- * by lia.
      replace (fact (S k)) with (S k * fact k)%nat in B by reflexivity. rewrite Nat2Z.inj_mul in B.
      replace (fact (S (n - S k))) with (S (n - S k) * fact (n - S k))%nat in A |- * by reflexivity.
      rewrite Nat2Z.inj_mul in A |- *.
      set (a := Z.of_nat (fact k)) in *. set (b := Z.of_nat (fact (n - S k))) in *. set (f := Z.of_nat (fact n)) in *.
      replace (Z.of_nat (S n)) with (Z.of_nat (S k) + Z.of_nat (S (n - S k))) by lia.
      clearbody a b f. nia.
Qed.

Lemma comb_choose n k : (k <= n)%nat -> (inject_Z (comb n k) == choose n k)%Q.
Proof.
  intro H. unfold choose. rewrite <- (choose_fact n k H), !inject_Z_mult.
  assert (F : forall i, ~ (inject_Z (Z.of_nat (fact i)) == 0)%Q).
  { intros i E. apply (proj1 (inject_Z_injective _ 0)) in E. pose proof (lt_O_fact i). set (z := fact i) in *. clearbody z. lia. }
  field. split; apply F.
Qed.

(** ** Laws that agree on every value agree on every event *)
Lemma zero_law l : (forall v, mass (veqb v) l = 0) -> forall P, vresp P -> mass P l = 0.
Proof.
  assert (G : forall n l, (length l <= n)%nat -> (forall v, mass (veqb v) l = 0) -> forall P, vresp P -> mass P l = 0).
  { clear l. induction n as [|n IH]; intros [|[v w] l] L Z P R; cbn [length] in L; try reflexivity; try lia.
    pose proof (veqb_refl v) as Rv.
    set (l' := filter (fun y => negb (veqb v (fst y))) l).
    assert (F : forall Q, mass Q l' = mass (fun a => Q a && negb (veqb v a)) l).
    { intro Q. unfold l'. clear. induction l as [|[a u] l IH]; [reflexivity|]. cbn [filter fst mass].
      destruct (veqb v a); cbn [negb]; [rewrite IH, andb_false_r; reflexivity|]. cbn [mass]. rewrite IH, andb_true_r. reflexivity. }
    assert (S : forall Q, vresp Q -> mass Q ((v, w) :: l) = mass Q l').
    { intros Q RQ. rewrite F. pose proof (Z v) as Zv. cbn [mass] in Zv |- *. rewrite Rv in Zv.
      rewrite (mass_ext Q (fun a => (Q v && veqb v a) || (Q a && negb (veqb v a)))).
      2:{ intros a u _. destruct (veqb v a) eqn:E; [rewrite (RQ v a E)|]; cbn; now rewrite ?andb_true_r, ?andb_false_r, ?orb_false_r. }
      rewrite mass_or by (intros a E; apply andb_true_iff in E; destruct E as [_ ->]; now rewrite andb_false_r).
      destruct (Q v); cbn [andb].
      - change (mass (fun a => veqb v a) l) with (mass (veqb v) l). lia.
      - rewrite (mass_false (fun a => false)) by auto. lia. }
    rewrite (S P R). apply IH; [|intro u; rewrite <- (S _ (vresp_veqb u)); apply Z|exact R].
    unfold l'. clear -L. etransitivity; [|exact (le_S_n _ _ L)]. clear L. induction l as [|y l IH]; [apply le_n|]. cbn [filter length].
    destruct (negb (veqb v (fst y))); cbn [length]; lia. }
  intros Z P R. exact (G (length l) l (le_n _) Z P R).
Qed.

Lemma law_events a b : total b <> 0 -> same_law a b -> forall P, vresp P -> (PrP P a == PrP P b)%Q.
Proof.
  intros Tb S P R.
  assert (Ta : total a <> 0).
  { intro E. apply Tb. apply (zero_law b); [|apply vresp_true]. intro v. pose proof (S v) as H. unfold Pr in H. rewrite E in H.
    change (inject_Z 0) with 0%Q in H. unfold Qdiv at 1 in H. change (/ 0)%Q with 0%Q in H. rewrite Qmult_0_r in H.
    assert (N : ~ (inject_Z (total b) == 0)%Q) by (intro K; apply Tb; now apply inject_Z_injective).
    assert (K : (inject_Z (wt b v) == 0)%Q).
    { rewrite <- (Qmult_div_r (inject_Z (wt b v)) (inject_Z (total b)) N). rewrite <- H. ring. }
    now apply inject_Z_injective. }
  assert (Na : ~ (inject_Z (total a) == 0)%Q) by (intro K; apply Ta; now apply inject_Z_injective).
  assert (Nb : ~ (inject_Z (total b) == 0)%Q) by (intro K; apply Tb; now apply inject_Z_injective).
  set (l := map (fun x => (fst x, total b * snd x)) a ++ map (fun x => (fst x, - total a * snd x)) b).
  assert (M : forall Q, mass Q l = total b * mass Q a - total a * mass Q b).
  { intro Q. unfold l. rewrite mass_app, !mass_scale. ring. }
  assert (Z : mass P l = 0).
  { apply zero_law; [|exact R]. intro v. rewrite M. fold (wt a v). fold (wt b v).
    assert (K : (inject_Z (total b * wt a v) == inject_Z (total a * wt b v))%Q).
    { rewrite !inject_Z_mult. pose proof (S v) as H. unfold Pr in H.
      rewrite <- (Qmult_div_r (inject_Z (wt a v)) (inject_Z (total a)) Na) at 1. rewrite H. field. exact Nb. }
    apply (proj1 (inject_Z_injective _ _)) in K. rewrite K. ring. }
  rewrite M in Z. unfold PrP.
  assert (K : (inject_Z (total b) * inject_Z (mass P a) == inject_Z (total a) * inject_Z (mass P b))%Q).
  { rewrite <- !inject_Z_mult. replace (total b * mass P a) with (total a * mass P b) by lia. reflexivity. }
  apply (Qmult_inj_l _ _ (inject_Z (total b))); [exact Nb|]. unfold Qdiv. rewrite Qmult_assoc, K. field. split; auto.
Qed.

(** ** The k-th entry of a sorted list and the number of entries on one side *)
Lemma nth_side {A} (le : A -> A -> Prop) (D : A -> bool) d s :
  (forall a b, le a b -> D b = true -> D a = true) -> StronglySorted le s ->
  forall k, (k < length s)%nat -> D (nth k s d) = Nat.ltb k (cnt D s).
Proof.
  intros H. induction 1 as [|a s Hs IH Ha]; intros k Hk; [cbn in Hk; lia|]. rewrite cnt_cons.
  assert (Z : D a = false -> cnt D s = O).
  { intro E. unfold cnt. replace (filter D s) with (@nil A); [reflexivity|]. clear IH Hs Hk.
    symmetry. induction s as [|b s IHs]; [reflexivity|]. inversion Ha; subst. cbn.
    destruct (D b) eqn:F; [rewrite (H a b) in E by assumption; discriminate|auto]. }
  destruct k as [|k]; cbn [nth].
  - destruct (D a); [reflexivity|]. now rewrite Z by reflexivity.
  - rewrite IH by (cbn in Hk; lia). destruct (D a); [reflexivity|]. now rewrite Z by reflexivity.
Qed.

Lemma highest_at_least m t k : 1 <= k <= Z.of_nat (length t) ->
  vleb m (entry k (descending t)) = Nat.leb (Z.to_nat k) (cnt (vleb m) t).
Proof.
  intro H. unfold entry. rewrite descending_length.
  destruct (Z.leb_spec 1 k), (Z.leb_spec k (Z.of_nat (length t))); try lia. cbn [andb].
  rewrite (nth_side (fun a b => vleb b a = true)).
  - rewrite <- (cnt_perm _ _ _ (descending_perm t)).
    destruct (Nat.ltb_spec (Z.to_nat (k - 1)) (cnt (vleb m) t)), (Nat.leb_spec (Z.to_nat k) (cnt (vleb m) t)); auto; lia.
  - intros a b L E. exact (vleb_trans _ _ _ E L).
  - exact (descending_sorted t).
  - rewrite descending_length. lia.
Qed.

Lemma lowest_at_least m t k : 1 <= k <= Z.of_nat (length t) ->
  vleb m (entry k (ascending t)) = Nat.leb (length t + 1 - Z.to_nat k) (cnt (vleb m) t).
Proof.
  intro H. unfold entry. rewrite ascending_length.
  destruct (Z.leb_spec 1 k), (Z.leb_spec k (Z.of_nat (length t))); try lia. cbn [andb].
  pose proof (nth_side (fun a b => vleb a b = true) (fun a => negb (vleb m a)) (vint 0) (ascending t)) as N.
  specialize (N ltac:(intros a b L E; cbv beta in E |- *; destruct (vleb m a) eqn:F; [rewrite (vleb_trans _ _ _ F L) in E; discriminate|reflexivity]) (ascending_sorted t)).
  specialize (N (Z.to_nat (k - 1))). rewrite ascending_length in N. specialize (N ltac:(lia)).
  rewrite <- (cnt_perm _ _ _ (ascending_perm t)) in N. pose proof (cnt_compl (vleb m) t) as C.
  apply (f_equal negb) in N. rewrite negb_involutive in N. rewrite N.
  set (g := cnt (vleb m) t) in *. set (h := cnt (fun a => negb (vleb m a)) t) in *.
  destruct (Nat.ltb_spec (Z.to_nat (k - 1)) h), (Nat.leb_spec (length t + 1 - Z.to_nat k) g); cbn; auto; lia.
Qed.

(** ** At least j0 of n *)
Lemma at_least_sum {A} (P : A -> bool) (d : list (A * Z)) N : 0 < total d ->
  forall len j0, (j0 + len = N + 1)%nat ->
  (PrP (fun t => Nat.leb j0 (cnt P t)) (tuples N d) == any_of N (PrP P d) (seq j0 len))%Q.
Proof.
  intros T. assert (T' : ~ (inject_Z (total d) == 0)%Q) by (intro K; apply (proj1 (inject_Z_injective _ 0)) in K; lia).
  induction len as [|len IH]; intros j0 H.
  - cbn [seq any_of]. unfold PrP. rewrite mass_false; [reflexivity|]. intros t w I.
    apply Nat.leb_gt. pose proof (cnt_le P t) as C. pose proof (tuples_length N d t w I). lia.
  - cbn [seq any_of]. rewrite <- IH by lia. unfold exactly. rewrite <- comb_choose by lia. unfold PrP. rewrite total_tuples.
    rewrite (mass_ext (fun t => Nat.leb j0 (cnt P t)) (fun t => Nat.eqb (cnt P t) j0 || Nat.leb (S j0) (cnt P t))).
    2:{ intros t w _. destruct (Nat.leb_spec j0 (cnt P t)), (Nat.eqb_spec (cnt P t) j0), (Nat.leb_spec (S j0) (cnt P t)); cbn [orb]; auto; lia. }
    rewrite mass_or. 2:{ intros t E. apply Nat.eqb_eq in E. apply Nat.leb_gt. lia. }
    rewrite binomial by lia. rewrite inject_Z_plus. unfold Qdiv at 1. rewrite Qmult_plus_distr_l.
    apply Qplus_comp; [|reflexivity].
    replace (mass (fun a => negb (P a)) d) with (total d - mass P d) by (rewrite <- (mass_compl P d); ring).
    set (p := mass P d). set (s := total d) in *.
    rewrite !inject_Z_mult. rewrite <- Qmult_assoc. apply Qmult_comp; [reflexivity|].
    replace (Z.of_nat N) with (Z.of_nat j0 + Z.of_nat (N - j0)) by lia. rewrite Z.pow_add_r, inject_Z_mult by lia.
    rewrite !Zpower_Qpower by lia.
    assert (E : (1 - inject_Z p / inject_Z s == inject_Z (s - p) / inject_Z s)%Q).
    { unfold Zminus. rewrite inject_Z_plus, inject_Z_opp. field. exact T'. }
    rewrite E. rewrite !Qdiv_power.
    field. split; apply Qpower_not_0; exact T'.
Qed.

Lemma vresp_at_least m : vresp (vleb m).
Proof.
  intros a b E. destruct (vleb m a) eqn:A, (vleb m b) eqn:B; auto.
  - rewrite (vleb_trans m a b A) in B; [discriminate|]. unfold veqb in E. unfold vleb. destruct (vcmp a b); auto; discriminate.
  - rewrite (vleb_trans m b a B) in A; [discriminate|]. unfold veqb in E. unfold vleb.
    rewrite (lw_anti _ vcmp_lawful a b). destruct (vcmp a b); auto; discriminate.
Qed.

(** ** Positions of a roll *)
Lemma position_chance c calls n x k r m : Forall int_call calls -> int_vals (rv_dist x) -> 2 <= n ->
  roll_after c calls (oint n) (Some (ORV x)) = Ok (ORV r) ->
  cfg_trunc c = false -> canon (rv_dist x) -> 0 < total (rv_dist x) -> no_dropped c (rv_dist x) ->
  1 <= k <= n -> total (rv_dist x) ^ n <= SUM_LIMIT ->
  exists q, rv_rmatmul c (oint k) r = Ok (ORV q) /\
    (PrP (vleb m) (rv_dist q) ==
     at_least (Z.to_nat n) (PrP (vleb m) (rv_dist x)) (Z.to_nat (if cfg_highest c then k else n + 1 - k)))%Q.
Proof.
  intros H I N E Ht C T D K L.
  destruct (roll_position c calls n x k r H I N E Ht C T D K L) as (q & Eq & Q).
  exists q. split; [exact Eq|].
  set (g := fun t => if cfg_highest c then entry k (descending t) else entry k (ascending t)) in *.
  set (ts := tuples (Z.to_nat n) (rv_dist x)) in *.
  assert (Tt : total ts = total (rv_dist x) ^ n) by (unfold ts; rewrite total_tuples; f_equal; lia).
  assert (Ti : forall P, mass P (image g ts) = mass (fun t => P (g t)) ts) by (intro P; apply mass_image).
  assert (Tp : 0 < total ts) by (rewrite Tt; apply Z.pow_pos_nonneg; lia).
  assert (S : same_law (rv_dist q) (image g ts)).
  { intro v. rewrite (Q v). unfold Pr, PrP, wt, total. rewrite !Ti. reflexivity. }
  rewrite (law_events _ _ ltac:(unfold total in *; rewrite Ti; lia) S (vleb m) (vresp_at_least m)).
  unfold at_least. rewrite <- (at_least_sum (vleb m) (rv_dist x) (Z.to_nat n) T) by (destruct (cfg_highest c); lia).
  fold ts. unfold PrP. unfold total at 1. rewrite !Ti. fold (total ts).
  replace (mass (fun t => vleb m (g t)) ts) with
    (mass (fun t => Nat.leb (Z.to_nat (if cfg_highest c then k else n + 1 - k)) (cnt (vleb m) t)) ts); [reflexivity|].
  apply mass_ext. intros t w It. pose proof (tuples_length _ _ _ _ It) as Lt. unfold g. destruct (cfg_highest c).
  - symmetry. apply highest_at_least. lia.
  - rewrite lowest_at_least by lia. f_equal. lia.
Qed.

(** ** The best and the worst *)
Lemma all_mass {A} (P : A -> bool) (d : list (A * Z)) N : 0 < total d ->
  (PrP (fun t => Nat.leb N (cnt P t)) (tuples N d) == PrP P d ^ Z.of_nat N)%Q.
Proof.
  intro T. rewrite (at_least_sum P d N T 1 N) by lia. cbn [seq any_of]. unfold exactly.
  rewrite <- comb_choose by lia. rewrite Nat.sub_diag. change (Z.of_nat 0) with 0.
  assert (C : comb N N = 1).
  { clear. induction N as [|N IH]; [reflexivity|]. cbn [comb]. rewrite IH, comb_zero by lia. reflexivity. }
  rewrite C. change (inject_Z 1) with 1%Q.
  change ((1 - PrP P d) ^ 0)%Q with 1%Q. ring.
Qed.

Lemma some_mass {A} (P : A -> bool) (d : list (A * Z)) N : 0 < total d ->
  (PrP (fun t => Nat.leb 1 (cnt P t)) (tuples N d) == 1 - (1 - PrP P d) ^ Z.of_nat N)%Q.
Proof.
  intro T. assert (T' : ~ (inject_Z (total d) == 0)%Q) by (intro K; apply (proj1 (inject_Z_injective _ 0)) in K; lia).
  assert (E : (1 - PrP P d == PrP (fun a => negb (P a)) d)%Q).
  { unfold PrP. rewrite <- (Qmult_inv_r (inject_Z (total d)) T') at 1. rewrite <- (mass_compl P d) at 1.
    rewrite inject_Z_plus. unfold Qdiv. ring. }
  rewrite E. rewrite <- (all_mass (fun a => negb (P a)) d N T).
  assert (Tt : ~ (inject_Z (total (tuples N d)) == 0)%Q).
  { intro K. apply (proj1 (inject_Z_injective _ 0)) in K. rewrite total_tuples in K.
    pose proof (Z.pow_pos_nonneg (total d) (Z.of_nat N) T). lia. }
  unfold PrP. rewrite <- (Qmult_inv_r (inject_Z (total (tuples N d))) Tt) at 1.
  rewrite <- (mass_compl (fun t => Nat.leb 1 (cnt P t)) (tuples N d)) at 2.
  rewrite (mass_ext (fun t => negb (Nat.leb 1 (cnt P t))) (fun t => Nat.leb N (cnt (fun a => negb (P a)) t))).
  - rewrite inject_Z_plus. unfold Qdiv. ring.
  - intros t w I. pose proof (tuples_length _ _ _ _ I). pose proof (cnt_compl P t) as C.
    set (g := cnt P t) in *. set (h := cnt (fun a => negb (P a)) t) in *.
    destruct (Nat.leb_spec 1 g), (Nat.leb_spec N h); cbn [negb]; auto; lia.
Qed.

Lemma best_chance c calls n x r m : Forall int_call calls -> int_vals (rv_dist x) -> 2 <= n ->
  roll_after c calls (oint n) (Some (ORV x)) = Ok (ORV r) ->
  cfg_trunc c = false -> cfg_highest c = true ->
  canon (rv_dist x) -> 0 < total (rv_dist x) -> no_dropped c (rv_dist x) -> total (rv_dist x) ^ n <= SUM_LIMIT ->
  exists q, rv_rmatmul c (oint 1) r = Ok (ORV q) /\
    (PrP (vleb m) (rv_dist q) == 1 - (1 - PrP (vleb m) (rv_dist x)) ^ n)%Q.
Proof.
  intros H I N E Ht Hh C T D L.
  destruct (position_chance c calls n x 1 r m H I N E Ht C T D ltac:(lia) L) as (q & Eq & Q).
  exists q. split; [exact Eq|]. rewrite Q, Hh. unfold at_least.
  rewrite <- (at_least_sum (vleb m) (rv_dist x) (Z.to_nat n) T) by lia.
  change (Z.to_nat 1) with 1%nat. rewrite some_mass by exact T. rewrite Z2Nat.id by lia. reflexivity.
Qed.

Lemma worst_chance c calls n x r m : Forall int_call calls -> int_vals (rv_dist x) -> 2 <= n ->
  roll_after c calls (oint n) (Some (ORV x)) = Ok (ORV r) ->
  cfg_trunc c = false -> cfg_highest c = true ->
  canon (rv_dist x) -> 0 < total (rv_dist x) -> no_dropped c (rv_dist x) -> total (rv_dist x) ^ n <= SUM_LIMIT ->
  exists q, rv_rmatmul c (oint n) r = Ok (ORV q) /\
    (PrP (vleb m) (rv_dist q) == PrP (vleb m) (rv_dist x) ^ n)%Q.
Proof.
  intros H I N E Ht Hh C T D L.
  destruct (position_chance c calls n x n r m H I N E Ht C T D ltac:(lia) L) as (q & Eq & Q).
  exists q. split; [exact Eq|]. rewrite Q, Hh. unfold at_least.
  rewrite <- (at_least_sum (vleb m) (rv_dist x) (Z.to_nat n) T) by lia.
  rewrite all_mass by exact T. rewrite Z2Nat.id by lia. reflexivity.
Qed.

(** ** Lower positions reach a mark less often *)
Lemma fewer_at_least {A} (P : A -> bool) (d : list (A * Z)) N i j : nonneg d -> 0 < total d -> (i <= j <= N)%nat ->
  (at_least N (PrP P d) j <= at_least N (PrP P d) i)%Q.
Proof.
  intros Nn T H. unfold at_least.
  rewrite <- (at_least_sum P d N T (N + 1 - j) j), <- (at_least_sum P d N T (N + 1 - i) i) by lia.
  unfold PrP, Qdiv. apply Qmult_le_compat_r.
  - rewrite <- Zle_Qle. apply mass_mono; [apply nonneg_tuples; exact Nn|].
    intros t L. apply Nat.leb_le in L. apply Nat.leb_le. lia.
  - apply Qinv_le_0_compat. change 0%Q with (inject_Z 0). rewrite <- Zle_Qle. rewrite total_tuples. apply Z.pow_nonneg. lia.
Qed.

Lemma positions_fall c calls n x i j r m : Forall int_call calls -> int_vals (rv_dist x) -> 2 <= n ->
  roll_after c calls (oint n) (Some (ORV x)) = Ok (ORV r) ->
  cfg_trunc c = false -> cfg_highest c = true ->
  canon (rv_dist x) -> 0 < total (rv_dist x) -> no_dropped c (rv_dist x) -> total (rv_dist x) ^ n <= SUM_LIMIT ->
  1 <= i <= j -> j <= n ->
  exists p q, rv_rmatmul c (oint i) r = Ok (ORV p) /\ rv_rmatmul c (oint j) r = Ok (ORV q) /\
    (PrP (vleb m) (rv_dist q) <= PrP (vleb m) (rv_dist p))%Q.
Proof.
  intros H I N E Ht Hh C T D L Hi Hj.
  destruct (position_chance c calls n x i r m H I N E Ht C T D ltac:(lia) L) as (p & Ep & P).
  destruct (position_chance c calls n x j r m H I N E Ht C T D ltac:(lia) L) as (q & Eq & Q).
  exists p, q. split; [exact Ep|]. split; [exact Eq|]. rewrite P, Q, Hh. apply fewer_at_least; [apply C|exact T|lia].
Qed.
