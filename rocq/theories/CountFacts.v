(** Proofs for property C112 (PropCount.v). *)
From Coq Require Import String List ZArith QArith Bool Permutation Arith Lia.
From Verif Require Import PyBase Num Val Sorting RVModel Obj RollModel RollSpec AtModel Spec SeqSpec CastModel LibModel LibSpec CmpFacts MassFacts RVFacts ConstructFacts IntFacts OpFacts OrderFacts UnaryFacts SelectFacts DispFacts LibLaws ChanceSpec ChanceFacts ChancePool.
Import ListNotations.
Open Scope Z_scope.

Lemma cnt_disjoint {A} (P Q : A -> bool) t : (forall a, P a = true -> Q a = false) ->
  cnt (fun a => P a || Q a) t = (cnt P t + cnt Q t)%nat.
Proof.
  intro H. induction t as [|a t IH]; [reflexivity|]. rewrite !cnt_cons, IH. specialize (H a). destruct (P a), (Q a); cbn; try lia; discriminate (H eq_refl).
Qed.

Lemma how_many_pairs v vs s : how_many (fun vw => Qeq_bool (vq (fst vw)) (vq (snd vw))) (list_prod (v :: vs) s) =
  Z.of_nat (cnt (fun w => Qeq_bool (vq v) (vq w)) s) + equal_pairs vs s.
Proof.
  unfold equal_pairs. cbn [list_prod]. rewrite !how_many_filter, filter_app, app_length. rewrite Nat2Z.inj_add. f_equal. f_equal.
  unfold cnt. induction s as [|w s IH]; [reflexivity|]. cbn [map filter fst snd].
  destruct (Qeq_bool (vq v) (vq w)); cbn [length]; rewrite IH; reflexivity.
Qed.

(** no two of the values are equal *)
Definition distinct (vs : list pval) : Prop := ForallOrdPairs (fun a b => ~ (vq a == vq b)%Q) vs.

Lemma pairs_count vs s : distinct vs -> equal_pairs vs s = Z.of_nat (cnt (fun w => occurs w vs) s).
Proof.
  induction 1 as [|v vs F D IH].
  - unfold equal_pairs. cbn [list_prod how_many]. induction s as [|w s IHs]; [reflexivity|]. rewrite cnt_cons. exact IHs.
  - unfold equal_pairs. rewrite how_many_pairs, IH. rewrite <- Nat2Z.inj_add. f_equal.
    rewrite <- cnt_disjoint; [reflexivity|]. intros w E. apply Qeq_bool_eq in E.
    unfold occurs. destruct (existsb _ vs) eqn:X; [|reflexivity]. apply existsb_exists in X. destruct X as (u & I & U).
    apply Qeq_bool_eq in U. exfalso. apply (proj1 (Forall_forall _ _) F u I). rewrite E. symmetry. exact U.
Qed.

Lemma count_binomial c calls n x r vs : Forall int_call calls -> int_vals (rv_dist x) -> 2 <= n ->
  roll_after c calls (oint n) (Some (ORV x)) = Ok (ORV r) ->
  cfg_trunc c = false -> wf (rv_dist x) -> 0 < total (rv_dist x) -> total (rv_dist x) ^ n <= SUM_LIMIT ->
  numbers vs -> distinct vs ->
  exists q, count_in c (positional [OSeq vs; ORV r]) = Ok (ORV q) /\
    forall j, (Pr (rv_dist q) (vint (Z.of_nat j)) ==
      if Nat.leb j (Z.to_nat n) then exactly (Z.to_nat n) (PrP (fun a => occurs a vs) (rv_dist x)) j else 0)%Q.
Proof.
  intros H I N E Ht W T L Nv Dv. destruct (roll_source c calls n x r H I N E) as [Rn Rd].
  destruct W as (_ & St & Nn). set (d := rv_dist x) in *. set (ts := tuples (Z.to_nat n) d).
  assert (SL : seq_law (ORV r) (image descending ts)).
  { unfold ts. rewrite <- Rd, <- Rn. apply seq_law_dice; rewrite ?Rd, ?Rn; [split; assumption|exact St| |lia].
    unfold numbers, vals. apply Forall_forall. intros v J. apply in_map_iff in J. destruct J as ([a w] & <- & J).
    pose proof (proj1 (Forall_forall _ _) I _ J) as K. cbn [fst] in *. destruct a; [reflexivity|discriminate K]. }
  assert (Tt : total (image descending ts) = total d ^ n).
  { rewrite total_image. unfold ts. rewrite total_tuples. f_equal. lia. }
  destruct (count_in_random c (OSeq vs) (ORV r) [(vs, 1)] (image descending ts) Ht (seq_law_seq vs Nv) SL eq_refl) as (q & Eq & _ & _ & S).
  { change (total [(vs, 1)]) with 1. rewrite Tt. lia. }
  exists q. split; [exact Eq|]. intro j. rewrite (S (vint (Z.of_nat j))).
  assert (M : forall P, mass P (image (fun ls => vint (equal_pairs (fst ls) (snd ls))) (indep [(vs, 1)] (image descending ts))) =
    mass (fun t => P (vint (Z.of_nat (cnt (fun a => occurs a vs) t)))) ts).
  { intro P. rewrite mass_image, mass_indep_wsum. cbn [wsum fst snd]. rewrite mass_image. rewrite Z.mul_1_r, Z.add_0_r.
    apply mass_ext. intros t w _. rewrite pairs_count by exact Dv. rewrite <- (cnt_perm _ _ _ (descending_perm t)). reflexivity. }
  assert (Q : (Pr (image (fun ls => vint (equal_pairs (fst ls) (snd ls))) (indep [(vs, 1%Z)] (image descending ts))) (vint (Z.of_nat j)) ==
    PrP (fun t => Nat.eqb (cnt (fun a => occurs a vs) t) j) ts)%Q).
  { unfold Pr, PrP, wt, total. rewrite !M. apply Qdiv_comp; [|reflexivity]. apply inject_Z_injective. apply mass_ext. intros t w _.
    rewrite veqb_int. set (z := cnt _ t). clearbody z. destruct (Z.eqb_spec (Z.of_nat j) (Z.of_nat z)), (Nat.eqb_spec z j); auto; lia. }
  rewrite Q. destruct (Nat.leb_spec j (Z.to_nat n)) as [J|J].
  - apply exactly_mass; assumption.
  - unfold PrP. rewrite mass_false; [reflexivity|]. intros t w K. pose proof (tuples_length _ _ _ _ K). pose proof (cnt_le (fun a => occurs a vs) t).
    apply Nat.eqb_neq. lia.
Qed.
