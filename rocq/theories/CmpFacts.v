(** Lawful three-way comparisons and the order on numbers and values. *)
From Coq Require Import List ZArith Bool String Lia Ascii OrdersEx OrderedTypeEx.
From Verif Require Import PyBase Num Sorting Val.
Import ListNotations.
Open Scope Z_scope.

Record lawful {A : Type} (cmp : A -> A -> comparison) : Prop := {
  lw_refl : forall x, cmp x x = Eq;
  lw_anti : forall x y, cmp y x = CompOpp (cmp x y);
  lw_trans : forall c x y z, cmp x y = c -> cmp y z = c -> cmp x z = c
}.

Section Lawful.
  Context {A : Type} (cmp : A -> A -> comparison) (L : lawful cmp).

  Lemma lw_sym_eq x y : cmp x y = Eq -> cmp y x = Eq.
  Proof. intro H. rewrite (lw_anti _ L), H. reflexivity. Qed.

  Lemma lw_gt_lt x y : cmp x y = Gt <-> cmp y x = Lt.
  Proof. rewrite (lw_anti _ L x y). destruct (cmp x y); cbn; split; congruence. Qed.

  Lemma lw_eq_l x y z : cmp x y = Eq -> cmp x z = cmp y z.
  Proof.
    intro H.
    destruct (cmp y z) eqn:E.
    - exact (lw_trans _ L _ _ _ _ H E).
    - destruct (cmp x z) eqn:F; [| reflexivity |].
      + pose proof (lw_trans _ L _ _ _ _ (lw_sym_eq _ _ H) F). congruence.
      + apply lw_gt_lt in F.
        pose proof (lw_trans _ L _ _ _ _ E F).
        rewrite (lw_anti _ L x y), H in *. discriminate.
    - destruct (cmp x z) eqn:F; [| | reflexivity].
      + pose proof (lw_trans _ L _ _ _ _ (lw_sym_eq _ _ H) F). congruence.
      + apply lw_gt_lt in E.
        pose proof (lw_trans _ L _ _ _ _ F E). congruence.
  Qed.

  Lemma lw_eq_r x y z : cmp x y = Eq -> cmp z x = cmp z y.
  Proof.
    intro H. rewrite (lw_anti _ L x z), (lw_anti _ L y z), (lw_eq_l x y z H). reflexivity.
  Qed.

  Lemma leb_of_total x y : leb_of cmp x y = true \/ leb_of cmp y x = true.
  Proof.
    unfold leb_of. rewrite (lw_anti _ L x y). destruct (cmp x y); cbn; auto.
  Qed.

  Lemma leb_of_trans x y z :
    leb_of cmp x y = true -> leb_of cmp y z = true -> leb_of cmp x z = true.
  Proof.
    unfold leb_of. intros H1 H2.
    destruct (cmp x y) eqn:E1; try discriminate.
    - rewrite (lw_eq_l _ _ z E1). exact H2.
    - destruct (cmp y z) eqn:E2; try discriminate.
      + rewrite <- (lw_eq_r _ _ x E2), E1. reflexivity.
      + rewrite (lw_trans _ L _ _ _ _ E1 E2). reflexivity.
  Qed.

  Lemma leb_of_refl x : leb_of cmp x x = true.
  Proof. unfold leb_of. rewrite (lw_refl _ L). reflexivity. Qed.

  Lemma leb_of_antisym x y : leb_of cmp x y = true -> leb_of cmp y x = true -> cmp x y = Eq.
  Proof.
    unfold leb_of. rewrite (lw_anti _ L x y). destruct (cmp x y); cbn; congruence.
  Qed.

  Lemma leb_of_false x y : leb_of cmp x y = false -> cmp y x = Lt.
  Proof. unfold leb_of. intro H. apply lw_gt_lt. destruct (cmp x y); congruence. Qed.
End Lawful.

(** Lexicographic pairs. *)
Definition lexpair {A B : Type} (ca : A -> A -> comparison) (cb : B -> B -> comparison)
    (x y : A * B) : comparison :=
  match ca (fst x) (fst y) with Eq => cb (snd x) (snd y) | c => c end.

Lemma lexpair_lawful {A B : Type} (ca : A -> A -> comparison) (cb : B -> B -> comparison) :
  lawful ca -> lawful cb -> lawful (lexpair ca cb).
Proof.
  intros La Lb. unfold lexpair. constructor.
  - intro x. rewrite (lw_refl _ La), (lw_refl _ Lb). reflexivity.
  - intros x y. rewrite (lw_anti _ La (fst x) (fst y)).
    destruct (ca (fst x) (fst y)); cbn; auto. apply (lw_anti _ Lb).
  - intros c x y z H1 H2.
    destruct (ca (fst x) (fst y)) eqn:E1.
    + rewrite (lw_eq_l _ La _ _ (fst z) E1).
      destruct (ca (fst y) (fst z)); auto. exact (lw_trans _ Lb _ _ _ _ H1 H2).
    + destruct (ca (fst y) (fst z)) eqn:E2.
      * rewrite <- (lw_eq_r _ La _ _ (fst x) E2), E1. exact H1.
      * rewrite (lw_trans _ La _ _ _ _ E1 E2). exact H1.
      * congruence.
    + destruct (ca (fst y) (fst z)) eqn:E2.
      * rewrite <- (lw_eq_r _ La _ _ (fst x) E2), E1. exact H1.
      * congruence.
      * rewrite (lw_trans _ La _ _ _ _ E1 E2). exact H1.
Qed.

Lemma lexcmp_lawful {A : Type} (cmp : A -> A -> comparison) :
  lawful cmp -> lawful (lexcmp cmp).
Proof.
  intro L. constructor.
  - induction x as [|a x IH]; cbn; [reflexivity|]. rewrite (lw_refl _ L). exact IH.
  - induction x as [|a x IH]; destruct y as [|b y]; cbn; auto.
    rewrite (lw_anti _ L a b). destruct (cmp a b); cbn; auto.
  - intros c x y. revert x. induction y as [|b y IH]; intros [|a x] [|d z] H1 H2; cbn in *; try congruence.
    destruct (cmp a b) eqn:E1.
    + rewrite (lw_eq_l _ L _ _ d E1). destruct (cmp b d); eauto.
    + destruct (cmp b d) eqn:E2.
      * rewrite <- (lw_eq_r _ L _ _ a E2), E1. exact H1.
      * rewrite (lw_trans _ L _ _ _ _ E1 E2). exact H1.
      * congruence.
    + destruct (cmp b d) eqn:E2.
      * rewrite <- (lw_eq_r _ L _ _ a E2), E1. exact H1.
      * congruence.
      * rewrite (lw_trans _ L _ _ _ _ E1 E2). exact H1.
Qed.

Lemma lawful_pullback {A B : Type} (f : A -> B) (cmp : B -> B -> comparison) :
  lawful cmp -> lawful (fun x y => cmp (f x) (f y)).
Proof.
  intros [R S T]. constructor; intros; auto. eapply T; eauto.
Qed.

Lemma Z_compare_lawful : lawful Z.compare.
Proof.
  constructor.
  - apply Z.compare_refl.
  - intros. apply Z.compare_antisym.
  - intros [] x y z H1 H2.
    + apply Z.compare_eq_iff in H1, H2. apply Z.compare_eq_iff. congruence.
    + rewrite Z.compare_lt_iff in *. lia.
    + rewrite Z.compare_gt_iff in *. lia.
Qed.

(** Comparison of dyadics at any sufficiently small common exponent. *)
Lemma shl_shl m a b : 0 <= a -> 0 <= b -> shl (shl m a) b = shl m (a + b).
Proof. intros. unfold shl. rewrite Z.pow_add_r by lia. ring. Qed.

Lemma dy_cmp_at e m1 e1 m2 e2 : e <= e1 -> e <= e2 ->
  dy_cmp m1 e1 m2 e2 = Z.compare (shl m1 (e1 - e)) (shl m2 (e2 - e)).
Proof.
  intros H1 H2. unfold dy_cmp. set (e0 := Z.min e1 e2).
  assert (He : e <= e0) by (unfold e0; lia).
  replace (e1 - e) with ((e1 - e0) + (e0 - e)) by lia.
  replace (e2 - e) with ((e2 - e0) + (e0 - e)) by lia.
  rewrite <- !shl_shl by (unfold e0; lia).
  generalize (shl m1 (e1 - e0)) (shl m2 (e2 - e0)). intros a b.
  unfold shl.
  assert (Hp : 0 < 2 ^ (e0 - e)) by (apply Z.pow_pos_nonneg; lia).
  set (p := 2 ^ (e0 - e)) in *. clearbody p.
  destruct (Z.compare_spec a b).
  - subst. symmetry. apply Z.compare_refl.
  - symmetry. apply Z.compare_lt_iff. nia.
  - symmetry. apply Z.compare_gt_iff. nia.
Qed.

Lemma ncmp_at e a b : e <= expo a -> e <= expo b ->
  ncmp a b = Z.compare (shl (mant a) (expo a - e)) (shl (mant b) (expo b - e)).
Proof. intros. apply dy_cmp_at; assumption. Qed.

Lemma ncmp_lawful : lawful ncmp.
Proof.
  constructor.
  - intro x. unfold ncmp, dy_cmp. apply Z.compare_refl.
  - intros x y. unfold ncmp, dy_cmp. rewrite Z.min_comm. apply Z.compare_antisym.
  - intros c x y z.
    set (e := Z.min (expo x) (Z.min (expo y) (expo z))).
    rewrite !(ncmp_at e) by (unfold e; lia).
    apply (lw_trans _ Z_compare_lawful).
Qed.

Lemma ncmp_int x y : ncmp (NI x) (NI y) = Z.compare x y.
Proof. unfold ncmp, dy_cmp, shl. cbn. rewrite !Z.mul_1_r. reflexivity. Qed.

Lemma string_compare_lawful : lawful String.compare.
Proof.
  constructor.
  - intro x. apply (proj2 (String_as_OT.cmp_eq x x)). reflexivity.
  - intros x y. apply String_as_OT.cmp_antisym.
  - intros [] x y z H1 H2.
    + apply (proj1 (String_as_OT.cmp_eq _ _)) in H1.
      apply (proj1 (String_as_OT.cmp_eq _ _)) in H2.
      apply (proj2 (String_as_OT.cmp_eq _ _)). congruence.
    + apply (proj1 (String_as_OT.cmp_lt _ _)) in H1.
      apply (proj1 (String_as_OT.cmp_lt _ _)) in H2.
      apply (proj2 (String_as_OT.cmp_lt _ _)). eapply String_as_OT.lt_trans; eauto.
    + assert (K1 : String.compare y x = Lt)
        by (change String.compare with String_as_OT.cmp;
            rewrite String_as_OT.cmp_antisym;
            change String_as_OT.cmp with String.compare; rewrite H1; reflexivity).
      assert (K2 : String.compare z y = Lt)
        by (change String.compare with String_as_OT.cmp;
            rewrite String_as_OT.cmp_antisym;
            change String_as_OT.cmp with String.compare; rewrite H2; reflexivity).
      apply (proj1 (String_as_OT.cmp_lt _ _)) in K1.
      apply (proj1 (String_as_OT.cmp_lt _ _)) in K2.
      assert (K3 : String.compare z x = Lt)
        by (apply (proj2 (String_as_OT.cmp_lt _ _)); eapply String_as_OT.lt_trans; eauto).
      change String.compare with String_as_OT.cmp.
      rewrite String_as_OT.cmp_antisym.
      change String_as_OT.cmp with String.compare. rewrite K3. reflexivity.
Qed.

Lemma string_compare_eq x y : String.compare x y = Eq <-> x = y.
Proof. apply (String_as_OT.cmp_eq x y). Qed.

Lemma pair_cmp_lawful : lawful pair_cmp.
Proof. exact (lexpair_lawful _ _ string_compare_lawful ncmp_lawful). Qed.

Lemma scmp_lawful : lawful scmp.
Proof. exact (lawful_pullback s_sorted _ (lexcmp_lawful _ pair_cmp_lawful)). Qed.

Lemma vcmp_lawful : lawful vcmp.
Proof.
  constructor.
  - intros [n|s]; cbn; [apply (lw_refl _ ncmp_lawful) | apply (lw_refl _ scmp_lawful)].
  - intros [n|s] [n'|s']; cbn; auto; [apply (lw_anti _ ncmp_lawful) | apply (lw_anti _ scmp_lawful)].
  - intros c [x|x] [y|y] [z|z]; cbn; try congruence.
    + apply (lw_trans _ ncmp_lawful).
    + apply (lw_trans _ scmp_lawful).
Qed.

(** ** Equality of values *)
Lemma veqb_cmp a b : veqb a b = true <-> vcmp a b = Eq.
Proof. unfold veqb. destruct (vcmp a b); split; congruence. Qed.

Lemma veqb_refl a : veqb a a = true.
Proof. apply veqb_cmp, (lw_refl _ vcmp_lawful). Qed.

Lemma veqb_sym a b : veqb a b = veqb b a.
Proof. unfold veqb. rewrite (lw_anti _ vcmp_lawful b a). destruct (vcmp b a); reflexivity. Qed.

Lemma veqb_trans a b c : veqb a b = true -> veqb b c = true -> veqb a c = true.
Proof.
  rewrite !veqb_cmp. apply (lw_trans _ vcmp_lawful).
Qed.

Lemma veqb_congr_l a b c : veqb a b = true -> veqb a c = veqb b c.
Proof.
  intro H. apply veqb_cmp in H. unfold veqb. rewrite (lw_eq_l _ vcmp_lawful _ _ c H). reflexivity.
Qed.

Lemma veqb_congr_r a b c : veqb a b = true -> veqb c a = veqb c b.
Proof. intro H. rewrite !(veqb_sym c). apply veqb_congr_l, H. Qed.

Lemma vcmp_congr_l a b c : veqb a b = true -> vcmp a c = vcmp b c.
Proof. intro H. apply veqb_cmp in H. apply (lw_eq_l _ vcmp_lawful _ _ c H). Qed.

Lemma vcmp_congr_r a b c : veqb a b = true -> vcmp c a = vcmp c b.
Proof. intro H. apply veqb_cmp in H. apply (lw_eq_r _ vcmp_lawful _ _ c H). Qed.

Lemma veqb_int x y : veqb (vint x) (vint y) = (x =? y).
Proof.
  unfold veqb, vint. cbn. rewrite ncmp_int.
  destruct (Z.compare_spec x y); symmetry; [apply Z.eqb_eq | apply Z.eqb_neq | apply Z.eqb_neq]; lia.
Qed.

Lemma vcmp_int x y : vcmp (vint x) (vint y) = Z.compare x y.
Proof. apply ncmp_int. Qed.
