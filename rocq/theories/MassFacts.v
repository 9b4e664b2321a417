(** Facts about the specification functions [mass], [total], [wt], [Pr]. *)
From Coq Require Import List ZArith QArith Bool Permutation Lia.
From Verif Require Import PyBase Num Val Spec CmpFacts.
Import ListNotations.
Open Scope Z_scope.

Lemma mass_app {A} (P : A -> bool) l1 l2 : mass P (l1 ++ l2) = mass P l1 + mass P l2.
Proof. induction l1 as [|[a w] l1 IH]; cbn; [reflexivity|]. rewrite IH. ring. Qed.

Lemma mass_perm {A} (P : A -> bool) l1 l2 : Permutation l1 l2 -> mass P l1 = mass P l2.
Proof.
  induction 1 as [|[a w] l l' _ IH|[a w] [b v] l|l l' l'' _ IH1 _ IH2]; cbn; try lia.
Qed.

Lemma mass_ext {A} (P P' : A -> bool) l :
  (forall a w, In (a, w) l -> P a = P' a) -> mass P l = mass P' l.
Proof.
  induction l as [|[a w] l IH]; cbn; intro H; [reflexivity|].
  rewrite (H a w) by auto. rewrite IH; [reflexivity|]. intros; eapply H; eauto.
Qed.

Lemma mass_concat {A} (P : A -> bool) ll : mass P (concat ll) = fold_right Z.add 0 (map (mass P) ll).
Proof. induction ll as [|l ll IH]; cbn; [reflexivity|]. rewrite mass_app, IH. reflexivity. Qed.

Lemma mass_image {A B} (f : A -> B) (P : B -> bool) l :
  mass P (image f l) = mass (fun a => P (f a)) l.
Proof. induction l as [|[a w] l IH]; cbn; [reflexivity|]. rewrite <- IH. reflexivity. Qed.

Lemma mass_scale {A} (P : A -> bool) k l :
  mass P (map (fun x => (fst x, k * snd x)) l) = k * mass P l.
Proof. induction l as [|[a w] l IH]; cbn; [ring|]. rewrite IH. destruct (P a); ring. Qed.

Lemma mass_nonneg {A} (P : A -> bool) l : Forall (fun x => 0 <= snd x) l -> 0 <= mass P l.
Proof.
  induction 1 as [|[a w] l H _ IH]; cbn in *; [lia|]. destruct (P a); lia.
Qed.

Lemma mass_le_total {A} (P : A -> bool) l : Forall (fun x => 0 <= snd x) l -> mass P l <= total l.
Proof.
  unfold total. induction 1 as [|[a w] l H _ IH]; cbn in *; [lia|]. destruct (P a); lia.
Qed.

Lemma mass_mono {A} (P P' : A -> bool) l : Forall (fun x => 0 <= snd x) l ->
  (forall a, P a = true -> P' a = true) -> mass P l <= mass P' l.
Proof.
  intros H HP. induction H as [|[a w] l H _ IH]; cbn in *; [lia|].
  specialize (HP a). destruct (P a), (P' a); try lia; discriminate (HP eq_refl).
Qed.

Lemma mass_false {A} (P : A -> bool) l : (forall a w, In (a, w) l -> P a = false) -> mass P l = 0.
Proof.
  induction l as [|[a w] l IH]; cbn; intro H; [reflexivity|].
  rewrite (H a w) by auto. rewrite IH; [reflexivity|]. intros; eapply H; eauto.
Qed.

Lemma mass_compl {A} (P : A -> bool) l : mass P l + mass (fun a => negb (P a)) l = total l.
Proof. unfold total. induction l as [|[a w] l IH]; cbn; [reflexivity|]. destruct (P a); cbn; lia. Qed.

Lemma mass_or {A} (P P' : A -> bool) l :
  (forall a, P a = true -> P' a = false) ->
  mass (fun a => P a || P' a) l = mass P l + mass P' l.
Proof.
  intro H. induction l as [|[a w] l IH]; cbn; [reflexivity|].
  specialize (H a). destruct (P a), (P' a); cbn; try lia; discriminate (H eq_refl).
Qed.

Lemma mass_zero_weights {A} (P : A -> bool) l : Forall (fun x => snd x = 0) l -> mass P l = 0.
Proof. induction 1 as [|[a w] l H _ IH]; cbn in *; [reflexivity|]. subst. destruct (P a); lia. Qed.

Lemma total_app {A} (l1 l2 : list (A * Z)) : total (l1 ++ l2) = total l1 + total l2.
Proof. apply mass_app. Qed.

Lemma total_image {A B} (f : A -> B) l : total (image f l) = total l.
Proof. unfold total. rewrite mass_image. reflexivity. Qed.

(** independent pairs *)
Lemma mass_indep_row {A B} (P : A * B -> bool) (x : A * Z) (b : list (B * Z)) :
  mass P (map (fun y => ((fst x, fst y), snd x * snd y)) b)
  = snd x * mass (fun y => P (fst x, y)) b.
Proof.
  induction b as [|[y v] b IH]; cbn; [ring|]. rewrite IH. destruct (P (fst x, y)); ring.
Qed.

Lemma mass_indep {A B} (P : A * B -> bool) (a : list (A * Z)) (b : list (B * Z)) :
  mass P (indep a b) = fold_right (fun x s => snd x * mass (fun y => P (fst x, y)) b + s) 0 a.
Proof.
  unfold indep. induction a as [|x a IH]; cbn; [reflexivity|].
  rewrite mass_app, IH, mass_indep_row. reflexivity.
Qed.

Lemma total_indep {A B} (a : list (A * Z)) (b : list (B * Z)) : total (indep a b) = total a * total b.
Proof.
  unfold total at 1. rewrite mass_indep. unfold total.
  induction a as [|[x w] a IH]; cbn in *; [reflexivity|]. rewrite IH. ring.
Qed.

Lemma nonneg_indep {A B} (a : list (A * Z)) (b : list (B * Z)) :
  Forall (fun x => 0 <= snd x) a -> Forall (fun x => 0 <= snd x) b ->
  Forall (fun x => 0 <= snd x) (indep a b).
Proof.
  intros Ha Hb. rewrite Forall_forall in *. intros [[x y] w] H.
  unfold indep in H. apply in_flat_map in H as [[x' v] [H1 H2]].
  apply in_map_iff in H2 as [[y' u] [E H2]]. inversion E; subst. cbn.
  specialize (Ha _ H1). specialize (Hb _ H2). cbn in *. nia.
Qed.

Lemma nonneg_image {A B} (f : A -> B) l :
  Forall (fun x => 0 <= snd x) l -> Forall (fun x => 0 <= snd x) (image f l).
Proof. intro H. unfold image. apply Forall_map. exact H. Qed.

Lemma total_tuples {A} n (l : list (A * Z)) : total (tuples n l) = total l ^ Z.of_nat n.
Proof.
  induction n as [|n IH]; [reflexivity|].
  cbn [tuples]. change (map _ (indep l (tuples n l))) with
    (image (fun xy : A * list A => fst xy :: snd xy) (indep l (tuples n l))).
  rewrite total_image, total_indep, IH, Nat2Z.inj_succ, Z.pow_succ_r by lia. reflexivity.
Qed.

Lemma nonneg_tuples {A} n (l : list (A * Z)) :
  Forall (fun x => 0 <= snd x) l -> Forall (fun x => 0 <= snd x) (tuples n l).
Proof.
  intro H. induction n as [|n IH]; cbn; [constructor; [cbn; lia | constructor]|].
  apply Forall_map. cbn. apply nonneg_indep; assumption.
Qed.

Lemma tuples_length {A} n (l : list (A * Z)) t w : In (t, w) (tuples n l) -> length t = n.
Proof.
  revert t w. induction n as [|n IH]; cbn; intros t w H.
  - destruct H as [E|[]]. inversion E. reflexivity.
  - apply in_map_iff in H as [[[x t'] v] [E H]]. inversion E; subst. cbn.
    unfold indep in H. apply in_flat_map in H as [y [_ H]].
    apply in_map_iff in H as [[t'' u] [E' H]]. inversion E'; subst. f_equal. eapply IH; eauto.
Qed.

Lemma tuples_in {A} n (l : list (A * Z)) t w : In (t, w) (tuples n l) -> Forall (fun x => In x (map fst l)) t.
Proof.
  revert t w. induction n as [|n IH]; cbn; intros t w H.
  - destruct H as [E|[]]. inversion E. constructor.
  - apply in_map_iff in H as [[[x t'] v] [E H]]. inversion E; subst. cbn.
    unfold indep in H. apply in_flat_map in H as [y [Hy H]].
    apply in_map_iff in H as [[t'' u] [E' H]]. inversion E'; subst.
    constructor; [apply in_map, Hy | eapply IH; eauto].
Qed.

(** ** Probability *)
Lemma inject_Z_nonzero z : z <> 0 -> ~ (inject_Z z == 0)%Q.
Proof. intros H E. unfold Qeq in E. cbn in E. lia. Qed.

Lemma frac_eq a b c d : b <> 0 -> d <> 0 -> a * d = c * b ->
  (inject_Z a / inject_Z b == inject_Z c / inject_Z d)%Q.
Proof.
  intros Hb Hd E.
  apply inject_Z_nonzero in Hb, Hd.
  assert (inject_Z a * inject_Z d == inject_Z c * inject_Z b)%Q
    by (rewrite <- !inject_Z_mult, E; reflexivity).
  apply (Qmult_inj_r _ _ (inject_Z b * inject_Z d)).
  - intro K. apply Qmult_integral in K as [K|K]; contradiction.
  - transitivity (inject_Z a * inject_Z d)%Q; [field; assumption|].
    rewrite H. field. assumption.
Qed.

Lemma frac_eq_inv a b c d : b <> 0 -> d <> 0 ->
  (inject_Z a / inject_Z b == inject_Z c / inject_Z d)%Q -> a * d = c * b.
Proof.
  intros Hb Hd E.
  apply inject_Z_nonzero in Hb, Hd.
  assert (inject_Z a * inject_Z d == inject_Z c * inject_Z b)%Q as K.
  { transitivity ((inject_Z a / inject_Z b) * (inject_Z b * inject_Z d))%Q; [field; assumption|].
    rewrite E. field. assumption. }
  rewrite <- !inject_Z_mult in K. unfold Qeq in K. cbn in K. lia.
Qed.

Lemma same_law_of_scale a b ka kb : 0 < ka -> 0 < kb -> total a <> 0 ->
  (forall v, ka * wt a v = kb * wt b v) -> ka * total a = kb * total b -> same_law a b.
Proof.
  intros Ha Hb Ht Hw HT v. unfold Pr. apply frac_eq; [assumption | nia |].
  specialize (Hw v).
  assert (ka * kb * (wt a v * total b) = ka * kb * (wt b v * total a)) as K.
  { transitivity ((ka * wt a v) * (kb * total b)); [ring|]. rewrite Hw, <- HT. ring. }
  apply Z.mul_reg_l in K; [exact K | nia].
Qed.

Lemma same_law_refl a : same_law a a.
Proof. intro v. reflexivity. Qed.
Lemma same_law_sym a b : same_law a b -> same_law b a.
Proof. intros H v. symmetry. apply H. Qed.
Lemma same_law_trans a b c : same_law a b -> same_law b c -> same_law a c.
Proof. intros H K v. transitivity (Pr b v); auto. Qed.

Lemma wt_app a b v : wt (a ++ b) v = wt a v + wt b v.
Proof. apply mass_app. Qed.

Lemma wt_congr l v v' : veqb v v' = true -> wt l v = wt l v'.
Proof. intro H. apply mass_ext. intros. apply veqb_congr_l, H. Qed.

(** ** wsum *)
Lemma wsum_app {A} (f : A -> Z) l1 l2 : wsum f (l1 ++ l2) = wsum f l1 + wsum f l2.
Proof. induction l1 as [|[a w] l1 IH]; cbn; [reflexivity|]. rewrite IH. ring. Qed.

Lemma wsum_perm {A} (f : A -> Z) l1 l2 : Permutation l1 l2 -> wsum f l1 = wsum f l2.
Proof.
  induction 1 as [|[a w] l l' _ IH|[a w] [b v] l|l l' l'' _ IH1 _ IH2]; cbn; lia.
Qed.

Lemma wsum_scale {A} (f : A -> Z) k l :
  wsum f (map (fun x => (fst x, k * snd x)) l) = k * wsum f l.
Proof. induction l as [|[a w] l IH]; cbn; [ring|]. rewrite IH. ring. Qed.

Lemma wsum_image {A B} (g : A -> B) (f : B -> Z) l : wsum f (image g l) = wsum (fun a => f (g a)) l.
Proof. induction l as [|[a w] l IH]; cbn; [reflexivity|]. rewrite <- IH. reflexivity. Qed.

Lemma wsum_ext {A} (f f' : A -> Z) l : (forall a w, In (a, w) l -> f a = f' a) -> wsum f l = wsum f' l.
Proof.
  induction l as [|[a w] l IH]; cbn; intro H; [reflexivity|].
  rewrite (H a w) by auto. rewrite IH; [reflexivity|]. intros; eapply H; eauto.
Qed.

Lemma wsum_plus {A} (f f' : A -> Z) l : wsum (fun a => f a + f' a) l = wsum f l + wsum f' l.
Proof. induction l as [|[a w] l IH]; cbn; [reflexivity|]. rewrite IH. ring. Qed.

Lemma wsum_cmul {A} k (f : A -> Z) l : wsum (fun a => k * f a) l = k * wsum f l.
Proof. induction l as [|[a w] l IH]; cbn; [ring|]. rewrite IH. ring. Qed.

Lemma mass_wsum {A} (P : A -> bool) l : mass P l = wsum (fun a => if P a then 1 else 0) l.
Proof. induction l as [|[a w] l IH]; cbn; [reflexivity|]. rewrite IH. destruct (P a); ring. Qed.

Lemma total_wsum {A} (l : list (A * Z)) : total l = wsum (fun _ => 1) l.
Proof. apply mass_wsum. Qed.

Lemma wsum_indep {A B} (f : A * B -> Z) (a : list (A * Z)) (b : list (B * Z)) :
  wsum f (indep a b) = wsum (fun x => wsum (fun y => f (x, y)) b) a.
Proof.
  unfold indep. induction a as [|[x w] a IH]; cbn [flat_map wsum]; [reflexivity|].
  rewrite wsum_app, IH. f_equal. clear.
  induction b as [|[y v] b IH]; cbn in *; [ring|]. rewrite IH. ring.
Qed.

Lemma wsum_const {A} k (l : list (A * Z)) : wsum (fun _ => k) l = k * total l.
Proof. rewrite total_wsum. induction l as [|[a w] l IH]; cbn [wsum]; [ring|]. rewrite IH. ring. Qed.

Lemma mass_indep_wsum {A B} (P : A * B -> bool) (a : list (A * Z)) (b : list (B * Z)) :
  mass P (indep a b) = wsum (fun x => mass (fun y => P (x, y)) b) a.
Proof.
  rewrite mass_wsum, wsum_indep. apply wsum_ext. intros x w _. rewrite mass_wsum. reflexivity.
Qed.
