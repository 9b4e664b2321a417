(** Proofs about the RV constructor. *)
From Coq Require Import List ZArith QArith Bool Permutation Sorted Lia.
From Verif Require Import PyBase Num Val Sorting RVModel Spec CmpFacts SortFacts MassFacts.
Import ListNotations.
Open Scope Z_scope.

(** predicates on values that do not distinguish equal values *)
Definition vresp (P : pval -> bool) : Prop := forall a b, veqb a b = true -> P a = P b.

Lemma vresp_veqb v : vresp (veqb v).
Proof. intros a b H. apply veqb_congr_r, H. Qed.

Lemma vresp_true : vresp (fun _ => true).
Proof. intros a b _. reflexivity. Qed.

Lemma vresp_vltb v : vresp (fun x => vltb x v).
Proof. intros a b H. unfold vltb. rewrite (vcmp_congr_l _ _ v H). reflexivity. Qed.

Lemma vresp_vleb v : vresp (fun x => vleb x v).
Proof. intros a b H. unfold vleb. rewrite (vcmp_congr_l _ _ v H). reflexivity. Qed.

Lemma vresp_vltb_r v : vresp (fun x => vltb v x).
Proof. intros a b H. unfold vltb. rewrite (vcmp_congr_r _ _ v H). reflexivity. Qed.

Definition vlt (x y : pval * Z) : Prop := vcmp (fst x) (fst y) = Lt.
Definition vle (x y : pval * Z) : Prop := vcmp (fst x) (fst y) <> Gt.
Definition strict (l : dist) : Prop := StronglySorted vlt l.

(** a well-formed die: what the library keeps in vals/probs *)
Definition wf (d : dist) : Prop := d <> [] /\ strict d /\ nonneg d.
(** canonical: weights share no factor (or are all 0) *)
Definition canon (d : dist) : Prop := wf d /\ (gcd_list (probs d) = 1 \/ gcd_list (probs d) = 0).

(** ** combine / vals / probs *)
Lemma combine_vals_probs (d : dist) : combine (vals d) (probs d) = d.
Proof. induction d as [|[v p] d IH]; cbn; [reflexivity|]. f_equal. exact IH. Qed.

Lemma length_vals_probs (d : dist) : Nat.eqb (length (vals d)) (length (probs d)) = true.
Proof. unfold vals, probs. rewrite !map_length. apply Nat.eqb_refl. Qed.

Lemma probs_combine vs ps : length vs = length ps -> probs (combine vs ps) = ps.
Proof.
  revert ps. induction vs as [|v vs IH]; intros [|p ps]; cbn; intro H; try congruence.
  f_equal. apply IH. congruence.
Qed.

Lemma vals_combine vs ps : length vs = length ps -> vals (combine vs ps) = vs.
Proof.
  revert ps. induction vs as [|v vs IH]; intros [|p ps]; cbn; intro H; try congruence.
  f_equal. apply IH. congruence.
Qed.

Lemma sum_probs_total d : sum_probs d = total d.
Proof. unfold sum_probs, total. induction d as [|[v p] d IH]; cbn in *; [reflexivity|]. rewrite <- IH. reflexivity. Qed.

(** ** Sorting *)
Lemma vp_cmp_lawful : lawful vp_cmp.
Proof. exact (lexpair_lawful _ _ vcmp_lawful Z_compare_lawful). Qed.

Lemma vp_leb_vle x y : vp_leb x y = true -> vle x y.
Proof. unfold vp_leb, leb_of, vp_cmp, vle. destruct (vcmp (fst x) (fst y)); congruence. Qed.

Lemma rev_get_zip l : rev (get_zip l) = isort vp_leb (rev l).
Proof. unfold get_zip, isort_rev. apply rev_involutive. Qed.

Lemma asc_sorted l : StronglySorted vle (rev (get_zip l)).
Proof.
  rewrite rev_get_zip. eapply StronglySorted_impl; [exact vp_leb_vle|].
  apply isort_sorted; [apply leb_of_total, vp_cmp_lawful | apply leb_of_trans, vp_cmp_lawful].
Qed.

Lemma asc_perm l : Permutation l (rev (get_zip l)).
Proof. rewrite rev_get_zip, <- isort_perm. apply Permutation_rev. Qed.

(** ** Grouping *)
Lemma mass_group_from P x l : vresp P -> mass P (group_from x l) = mass P (x :: l).
Proof.
  intro HP. revert x. induction l as [|y l IH]; intros [vx px]; cbn; [reflexivity|].
  destruct y as [vy py]. cbn. destruct (veqb vx vy) eqn:E.
  - rewrite IH. cbn. rewrite (HP _ _ E). destruct (P vy); lia.
  - cbn. rewrite IH. cbn. reflexivity.
Qed.

Lemma mass_group P l : vresp P -> mass P (group l) = mass P l.
Proof. intro H. destruct l as [|x l]; [reflexivity|]. apply mass_group_from, H. Qed.

Lemma group_from_in x l y : In y (group_from x l) -> In (fst y) (map fst (x :: l)).
Proof.
  revert x. induction l as [|z l IH]; intros x; cbn.
  - intros [<-|[]]. auto.
  - destruct (veqb (fst x) (fst z)).
    + intro H. apply IH in H. cbn in H. tauto.
    + intros [<-|H]; [auto|]. apply IH in H. cbn in H. tauto.
Qed.

Lemma group_from_nonneg x l : nonneg (x :: l) -> nonneg (group_from x l).
Proof.
  unfold nonneg. revert x. induction l as [|z l IH]; intros x H; cbn; [exact H|].
  inversion H as [|? ? Hx Hl]; subst. inversion Hl as [|? ? Hz Hl']; subst.
  destruct (veqb (fst x) (fst z)).
  - apply IH. constructor; [cbn; lia | assumption].
  - constructor; [assumption|]. apply IH. assumption.
Qed.

Lemma group_from_listed v x l : listed v (group_from x l) = listed v (x :: l).
Proof.
  unfold listed. revert x. induction l as [|z l IH]; intros x; [reflexivity|].
  cbn [group_from]. destruct (veqb (fst x) (fst z)) eqn:E.
  - rewrite IH. cbn. rewrite (veqb_congr_r _ _ v E). destruct (veqb v (fst z)); reflexivity.
  - cbn [existsb]. rewrite IH. reflexivity.
Qed.

Lemma vle_not_eq_lt x y : vle x y -> veqb (fst x) (fst y) = false -> vlt x y.
Proof. unfold vle, vlt, veqb. destruct (vcmp (fst x) (fst y)); congruence. Qed.

Lemma vlt_vle_trans x y z : vlt x y -> vle y z -> vlt x z.
Proof.
  unfold vlt, vle. intros H1 H2. destruct (vcmp (fst y) (fst z)) eqn:E; [| |congruence].
  - rewrite <- (lw_eq_r _ vcmp_lawful _ _ (fst x) E). exact H1.
  - exact (lw_trans _ vcmp_lawful _ _ _ _ H1 E).
Qed.

Lemma group_from_strict x l : StronglySorted vle (x :: l) -> strict (group_from x l).
Proof.
  unfold strict. revert x. induction l as [|y l IH]; intros x H; cbn.
  - constructor; constructor.
  - inversion H as [|? ? Hs Hf]; subst. inversion Hf as [|? ? Hxy Hfl]; subst.
    inversion Hs as [|? ? Hs' Hf']; subst.
    destruct (veqb (fst x) (fst y)) eqn:E.
    + apply IH. constructor; [assumption|]. exact Hf'.
    + constructor; [apply IH, Hs|].
      apply Forall_forall. intros z Hz. apply group_from_in in Hz.
      pose proof (vle_not_eq_lt _ _ Hxy E) as Hlt.
      destruct Hz as [Hz|Hz].
      * unfold vlt in *. rewrite <- Hz. exact Hlt.
      * apply in_map_iff in Hz as [z' [Ez Hz]].
        rewrite Forall_forall in Hf'. specialize (Hf' _ Hz).
        pose proof (vlt_vle_trans _ _ _ Hlt Hf') as K. unfold vlt in *. rewrite <- Ez. exact K.
Qed.

(** ** The whole constructor pipeline on the zipped list *)
Definition grouped (c : cfg) (l : dist) : dist := get_new_zipped (get_zip l) (cfg_skip0 c).
Definition normal (c : cfg) (l : dist) : dist :=
  let d := get_normalized (grouped c l) in match d with [] => [(vint 0, 1)] | _ => d end.

Lemma nonneg_perm {A} (l l' : list (A * Z)) : Permutation l l' -> nonneg l -> nonneg l'.
Proof. intros. eapply Permutation_Forall; eauto. Qed.

Lemma listed_perm v l l' : Permutation l l' -> listed v l = listed v l'.
Proof.
  intro H. unfold listed.
  induction H as [|x l l' _ IH|x y l|l l' l'' _ IH1 _ IH2]; cbn; try congruence.
  destruct (veqb v (fst x)), (veqb v (fst y)); reflexivity.
Qed.

Lemma mass_filter {A} (P f : A * Z -> bool) (Q : A -> bool) l :
  mass Q (filter f l) = mass Q l - mass Q (filter (fun x => negb (f x)) l).
Proof.
  induction l as [|[a w] l IH]; cbn; [reflexivity|].
  destruct (f (a, w)); cbn; rewrite IH; destruct (Q a); lia.
Qed.

Lemma mass_drop_zero {A} (Q : A -> bool) (l : list (A * Z)) :
  mass Q (filter (fun vp => negb (snd vp =? 0)) l) = mass Q l.
Proof.
  induction l as [|[a w] l IH]; cbn; [reflexivity|].
  destruct (w =? 0) eqn:E; cbn; rewrite IH; [|reflexivity].
  apply Z.eqb_eq in E. subst. destruct (Q a); reflexivity.
Qed.

Lemma mass_grouped c P l : vresp P -> mass P (grouped c l) = mass P l.
Proof.
  intro HP. unfold grouped, get_new_zipped.
  assert (H : mass P (group (rev (get_zip l))) = mass P l).
  { rewrite mass_group by exact HP. symmetry. apply mass_perm, asc_perm. }
  destruct (cfg_skip0 c); [rewrite mass_drop_zero|]; exact H.
Qed.

Lemma strict_group l : StronglySorted vle l -> strict (group l).
Proof. destruct l as [|x l]; [constructor|]. apply group_from_strict. Qed.

Lemma grouped_strict c l : strict (grouped c l).
Proof.
  unfold grouped, get_new_zipped.
  assert (H : strict (group (rev (get_zip l)))) by apply strict_group, asc_sorted.
  destruct (cfg_skip0 c); [apply StronglySorted_filter|]; exact H.
Qed.

Lemma nonneg_filter {A} f (l : list (A * Z)) : nonneg l -> nonneg (filter f l).
Proof.
  unfold nonneg. rewrite !Forall_forall. intros H x Hx. apply filter_In in Hx. apply H, Hx.
Qed.

Lemma grouped_nonneg c l : nonneg l -> nonneg (grouped c l).
Proof.
  intro H. unfold grouped, get_new_zipped.
  assert (K : nonneg (group (rev (get_zip l)))).
  { apply (nonneg_perm _ _ (asc_perm l)) in H. destruct (rev (get_zip l)); [exact H|].
    apply group_from_nonneg, H. }
  destruct (cfg_skip0 c); [apply nonneg_filter|]; exact K.
Qed.

Lemma group_listed v l : listed v (group l) = listed v l.
Proof. destruct l; [reflexivity|]. apply group_from_listed. Qed.

Lemma group_nil l : group l = [] -> l = [].
Proof.
  destruct l as [|x l]; [reflexivity|]. cbn.
  revert x. induction l as [|y l IH]; intros x; cbn; [discriminate|].
  destruct (veqb (fst x) (fst y)); [|discriminate]. intro H. apply IH in H. discriminate.
Qed.

Lemma grouped_listed_noskip c v l : cfg_skip0 c = false -> listed v (grouped c l) = listed v l.
Proof.
  intro H. unfold grouped, get_new_zipped. rewrite H, group_listed.
  symmetry. apply listed_perm, asc_perm.
Qed.

(** weight of a listed value in a strict list *)
Lemma wt_strict_notin (d : dist) v : (forall x, In x d -> veqb v (fst x) = false) -> wt d v = 0.
Proof. intro H. apply mass_false. intros a w Hin. apply (H (a, w) Hin). Qed.

Lemma strict_cons_notin x d y : strict (x :: d) -> In y d -> veqb (fst x) (fst y) = false.
Proof.
  intros H Hy. inversion H as [|? ? Hs Hf]; subst. rewrite Forall_forall in Hf.
  specialize (Hf _ Hy). unfold vlt in Hf. unfold veqb. rewrite Hf. reflexivity.
Qed.

Lemma wt_strict d x : strict d -> In x d -> wt d (fst x) = snd x.
Proof.
  induction d as [|y d IH]; intros Hs Hx; [destruct Hx|].
  destruct Hx as [->|Hx].
  - unfold wt. destruct x as [v p]. cbn. rewrite veqb_refl.
    fold (wt d v). rewrite (wt_strict_notin d v); [lia|].
    intros z Hz. apply (strict_cons_notin (v, p) d z Hs Hz).
  - unfold wt. destruct y as [v p]. cbn [mass].
    pose proof (strict_cons_notin (v, p) d x Hs Hx) as K. cbn [fst] in K.
    rewrite (veqb_sym (fst x) v), K.
    fold (wt d (fst x)). rewrite IH; [lia | inversion Hs; assumption | assumption].
Qed.

Lemma listed_iff v d : listed v d = true <-> exists x, In x d /\ veqb v (fst x) = true.
Proof. apply existsb_exists. Qed.

Lemma listed_false v d : listed v d = false <-> forall x, In x d -> veqb v (fst x) = false.
Proof.
  split.
  - intros H x Hx. destruct (veqb v (fst x)) eqn:E; [|reflexivity].
    assert (listed v d = true) by (apply listed_iff; eauto). congruence.
  - intro H. destruct (listed v d) eqn:E; [|reflexivity].
    apply listed_iff in E as [x [Hx Hv]]. rewrite (H x Hx) in Hv. discriminate.
Qed.

Lemma grouped_listed_skip c v l : cfg_skip0 c = true -> nonneg l ->
  listed v (grouped c l) = (0 <? wt l v).
Proof.
  intros H Hn.
  rewrite <- (mass_grouped c (veqb v) l (vresp_veqb v) : wt (grouped c l) v = wt l v).
  pose proof (grouped_strict c l) as Hs. pose proof (grouped_nonneg c l Hn) as Hnn.
  destruct (listed v (grouped c l)) eqn:E; symmetry.
  - apply listed_iff in E as [x [Hx Hv]].
    rewrite (wt_congr _ _ _ Hv), (wt_strict _ _ Hs Hx).
    unfold nonneg in Hnn. rewrite Forall_forall in Hnn. specialize (Hnn _ Hx).
    unfold grouped, get_new_zipped in Hx. rewrite H in Hx. apply filter_In in Hx as [_ Hx].
    destruct (Z.eqb_spec (snd x) 0); [discriminate|]. apply Z.ltb_lt. lia.
  - rewrite listed_false in E. rewrite (wt_strict_notin _ _ E). reflexivity.
Qed.

(** ** gcd normalisation *)
Lemma gcd_list_nonneg l : 0 <= gcd_list l.
Proof. destruct l; cbn; [lia | apply Z.gcd_nonneg]. Qed.

Lemma gcd_list_divide l p : In p l -> (gcd_list l | p).
Proof.
  induction l as [|q l IH]; intro H; [destruct H|]. cbn.
  destruct H as [->|H]; [apply Z.gcd_divide_l|].
  etransitivity; [apply Z.gcd_divide_r | apply IH, H].
Qed.

Lemma gcd_list_greatest l g : (forall p, In p l -> (g | p)) -> (g | gcd_list l).
Proof.
  induction l as [|q l IH]; cbn; intro H; [apply Z.divide_0_r|].
  apply Z.gcd_greatest; [apply H; auto | apply IH; auto].
Qed.

Lemma gcd_list_scale k l : 0 <= k -> gcd_list (map (Z.mul k) l) = k * gcd_list l.
Proof.
  intro Hk. unfold gcd_list. induction l as [|q l IH]; cbn [map fold_right]; [lia|].
  rewrite IH, Z.gcd_mul_mono_l, Z.abs_eq by lia. reflexivity.
Qed.

Lemma gcd_zero l : gcd_list l = 0 <-> Forall (fun p => p = 0) l.
Proof.
  split.
  - intro H. apply Forall_forall. intros p Hp. apply gcd_list_divide in Hp. rewrite H in Hp.
    destruct Hp as [k Hk]. lia.
  - unfold gcd_list. induction 1 as [|p l Hp _ IH]; cbn [fold_right]; [reflexivity|].
    rewrite IH, Hp. reflexivity.
Qed.

Lemma get_normalized_scale l :
  let g := Z.max 1 (gcd_list (probs l)) in
  map (fun vp => (fst vp, g * snd vp)) (get_normalized l) = l.
Proof.
  cbn. unfold get_normalized.
  destruct (Z.ltb_spec 1 (gcd_list (probs l))) as [H|H].
  - rewrite map_map. cbn. rewrite Z.max_r by lia.
    transitivity (map (fun x => x) l); [|apply map_id]. apply map_ext_in. intros [v p] Hin. cbn. f_equal.
    assert (gcd_list (probs l) | p) as [k ->].
    { apply gcd_list_divide. unfold probs. apply in_map_iff. exists (v, p). auto. }
    rewrite Z.div_mul by lia. ring.
  - rewrite Z.max_l by lia. transitivity (map (fun x => x) l); [|apply map_id]. apply map_ext. intros [v p]. cbn [fst snd].
    rewrite Z.mul_1_l. reflexivity.
Qed.

Lemma get_normalized_vals l : vals (get_normalized l) = vals l.
Proof.
  unfold get_normalized, vals. destruct (1 <? _); [|reflexivity]. rewrite map_map. reflexivity.
Qed.

Lemma get_normalized_gcd l : gcd_list (probs (get_normalized l)) = 1 \/ gcd_list (probs (get_normalized l)) = 0.
Proof.
  pose proof (get_normalized_scale l) as H. cbn in H.
  unfold get_normalized in *.
  destruct (Z.ltb_spec 1 (gcd_list (probs l))) as [Hg|Hg].
  - left. set (l' := map _ l) in *. set (g := Z.max _ _) in *.
    assert (E : gcd_list (probs l) = g * gcd_list (probs l')).
    { rewrite <- H at 1. unfold probs. rewrite map_map. cbn. rewrite <- gcd_list_scale by lia.
      rewrite map_map. reflexivity. }
    assert (g = gcd_list (probs l)) by lia. nia.
  - pose proof (gcd_list_nonneg (probs l)). lia.
Qed.

Lemma strict_vals d d' : vals d = vals d' -> strict d -> strict d'.
Proof.
  revert d'. induction d as [|x d IH]; intros [|y d'] E H; cbn in E; try discriminate; [constructor|].
  inversion H as [|? ? Hs Hf]; subst. inversion E as [[E1 E2]].
  constructor; [apply IH; assumption|].
  apply Forall_forall. intros z Hz. unfold vlt. rewrite <- E1.
  assert (In (fst z) (vals d)) as K by (unfold vals; rewrite E2; apply in_map, Hz).
  apply in_map_iff in K as [z' [Ez Hz']]. rewrite <- Ez.
  rewrite Forall_forall in Hf. apply Hf, Hz'.
Qed.

Lemma listed_vals v d d' : vals d = vals d' -> listed v d = listed v d'.
Proof.
  revert d'. induction d as [|x d IH]; intros [|y d'] E; cbn in *; try discriminate; [reflexivity|].
  inversion E as [[E1 E2]]. rewrite E1. f_equal. apply IH, E2.
Qed.

Lemma get_normalized_nonneg l : nonneg l -> nonneg (get_normalized l).
Proof.
  intro H. pose proof (get_normalized_scale l) as E. cbn in E.
  rewrite <- E in H. unfold nonneg in *. rewrite Forall_map in H.
  eapply Forall_impl; [|exact H]. intros [v p]. cbn. nia.
Qed.

Lemma get_normalized_mass P l :
  mass P l = Z.max 1 (gcd_list (probs l)) * mass P (get_normalized l).
Proof.
  pose proof (get_normalized_scale l) as E. cbn in E. rewrite <- E at 1. apply mass_scale.
Qed.

(** ** Weighted sums through the pipeline *)
Definition vrespf (f : pval -> Z) : Prop := forall a b, veqb a b = true -> f a = f b.

Lemma wsum_group_from f x l : vrespf f -> wsum f (group_from x l) = wsum f (x :: l).
Proof.
  intro HP. revert x. induction l as [|y l IH]; intros [vx px]; cbn; [reflexivity|].
  destruct y as [vy py]. cbn. destruct (veqb vx vy) eqn:E.
  - rewrite IH. cbn. rewrite (HP _ _ E). lia.
  - cbn. rewrite IH. cbn. reflexivity.
Qed.

Lemma wsum_drop_zero {A} (f : A -> Z) (l : list (A * Z)) :
  wsum f (filter (fun vp => negb (snd vp =? 0)) l) = wsum f l.
Proof.
  induction l as [|[a w] l IH]; cbn; [reflexivity|].
  destruct (w =? 0) eqn:E; cbn; rewrite IH; [|reflexivity].
  apply Z.eqb_eq in E. subst. lia.
Qed.

Lemma wsum_grouped c f l : vrespf f -> wsum f (grouped c l) = wsum f l.
Proof.
  intro HP. unfold grouped, get_new_zipped.
  assert (H : wsum f (group (rev (get_zip l))) = wsum f l).
  { rewrite (wsum_perm f _ _ (asc_perm l)). destruct (rev (get_zip l)); [reflexivity|].
    apply wsum_group_from, HP. }
  destruct (cfg_skip0 c); [rewrite wsum_drop_zero|]; exact H.
Qed.

Lemma get_normalized_wsum f l :
  wsum f l = Z.max 1 (gcd_list (probs l)) * wsum f (get_normalized l).
Proof.
  pose proof (get_normalized_scale l) as E. cbn in E. rewrite <- E at 1. apply wsum_scale.
Qed.

(** ** Summary of the constructor *)
Definition nothing_left (c : cfg) (l : dist) : bool :=
  match grouped c l with [] => true | _ => false end.

Lemma get_normalized_nil l : get_normalized l = [] -> l = [].
Proof. intro H. pose proof (get_normalized_vals l) as E. rewrite H in E. destruct l; [reflexivity|discriminate]. Qed.

Lemma normal_nothing c l : nothing_left c l = true -> normal c l = [(vint 0, 1)].
Proof.
  unfold nothing_left, normal. destruct (grouped c l) eqn:E; [|discriminate]. reflexivity.
Qed.

Lemma normal_something c l : nothing_left c l = false -> normal c l = get_normalized (grouped c l).
Proof.
  unfold nothing_left, normal. destruct (grouped c l) as [|x g] eqn:E; [discriminate|]. intros _.
  cbv zeta. destruct (get_normalized (x :: g)) eqn:F; [|reflexivity].
  apply get_normalized_nil in F. discriminate.
Qed.

Lemma nothing_left_iff c l : nonneg l ->
  nothing_left c l = true <-> l = [] \/ (cfg_skip0 c = true /\ Forall (fun x => snd x = 0) l).
Proof.
  intro Hn. unfold nothing_left. split.
  - destruct (grouped c l) eqn:E; [|discriminate]. intros _.
    destruct (cfg_skip0 c) eqn:Hc.
    + right. split; [reflexivity|].
      assert (T : total l = 0)
        by (unfold total; rewrite <- (mass_grouped c _ l vresp_true), E; reflexivity).
      clear E. unfold nonneg in Hn. induction Hn as [|[v p] l' H Hl IH]; [constructor|].
      unfold total in *. cbn in *.
      pose proof (mass_nonneg (fun _ : pval => true) l' Hl).
      constructor; [cbn; lia|]. apply IH. lia.
    + left. unfold grouped, get_new_zipped in E. rewrite Hc in E. apply group_nil in E.
      pose proof (asc_perm l) as P. rewrite E in P. apply Permutation_sym, Permutation_nil in P. exact P.
  - intros [->|[Hc Hz]]; [unfold grouped, get_new_zipped; cbn; destruct (cfg_skip0 c); reflexivity|].
    destruct (grouped c l) as [|x g] eqn:E; [reflexivity|]. exfalso.
    assert (L : listed (fst x) (grouped c l) = true)
      by (rewrite E; cbn; rewrite veqb_refl; reflexivity).
    rewrite (grouped_listed_skip c _ l Hc Hn) in L. apply Z.ltb_lt in L.
    unfold wt in L. rewrite mass_zero_weights in L by exact Hz. lia.
Qed.

Lemma normal_canon c l : nonneg l -> canon (normal c l).
Proof.
  intro Hn. destruct (nothing_left c l) eqn:E.
  - rewrite normal_nothing by exact E. split; [|left; reflexivity].
    split; [discriminate|]. split; [constructor; constructor|].
    constructor; [cbn; lia | constructor].
  - rewrite normal_something by exact E. split; [|apply get_normalized_gcd].
    split; [|split].
    + intro K. apply get_normalized_nil in K. unfold nothing_left in E. rewrite K in E. discriminate.
    + eapply strict_vals; [symmetry; apply get_normalized_vals | apply grouped_strict].
    + apply get_normalized_nonneg, grouped_nonneg, Hn.
Qed.

Lemma normal_scale c l : nothing_left c l = false ->
  exists g, 0 < g /\ (forall P, vresp P -> mass P l = g * mass P (normal c l)) /\
            (forall f, vrespf f -> wsum f l = g * wsum f (normal c l)).
Proof.
  intro E. rewrite normal_something by exact E.
  exists (Z.max 1 (gcd_list (probs (grouped c l)))). split; [lia|]. split.
  - intros P HP. rewrite <- (mass_grouped c P l HP). apply get_normalized_mass.
  - intros f Hf. rewrite <- (wsum_grouped c f l Hf). apply get_normalized_wsum.
Qed.

Lemma normal_mass c l : nothing_left c l = false ->
  exists g, 0 < g /\ forall P, vresp P -> mass P l = g * mass P (normal c l).
Proof. intro E. destruct (normal_scale c l E) as (g & Hg & HM & _). eauto. Qed.

Lemma normal_listed c l v : nonneg l -> nothing_left c l = false ->
  listed v (normal c l) = if cfg_skip0 c then 0 <? wt l v else listed v l.
Proof.
  intros Hn E. rewrite normal_something by exact E.
  rewrite (listed_vals v _ (grouped c l)) by apply get_normalized_vals.
  destruct (cfg_skip0 c) eqn:Hc;
    [apply grouped_listed_skip | apply grouped_listed_noskip]; assumption.
Qed.

Lemma sort_and_group_eq c l : nonneg l ->
  sort_and_group c l = Ok (get_normalized (grouped c l)).
Proof.
  intro Hn. unfold sort_and_group, assert_.
  replace (forallb _ _) with true; [reflexivity|].
  symmetry. apply forallb_forall. intros p Hp. unfold probs in Hp. apply in_map_iff in Hp as [x [<- Hx]].
  unfold nonneg in Hn. rewrite Forall_forall in Hn. apply Z.leb_le, Hn, Hx.
Qed.

Lemma mk_dist_ok c vs ps : cfg_trunc c = false -> length vs = length ps ->
  Forall (fun p => 0 <= p) ps -> mk_dist c vs ps = Ok (normal c (combine vs ps)).
Proof.
  intros Ht Hl Hp. unfold mk_dist, mk_dist_tr, assert_.
  rewrite Hl, Nat.eqb_refl, Ht. cbn [bind].
  rewrite sort_and_group_eq; [reflexivity|].
  unfold nonneg. apply Forall_forall. intros [v p] Hin.
  rewrite Forall_forall in Hp. apply Hp. cbn. eapply in_combine_r, Hin.
Qed.

(** the values after the optional truncation *)
Definition truncating (c : cfg) (tr : option bool) : bool :=
  match tr with Some b => b | None => cfg_trunc c end.
Definition eff_vals (c : cfg) (tr : option bool) (vs : list pval) : res (list pval) :=
  if truncating c tr then mapM vtrunc vs else Ok vs.

Lemma forallb_nonneg ps : forallb (fun p => 0 <=? p) ps = true <-> Forall (fun p => 0 <= p) ps.
Proof.
  rewrite forallb_forall, Forall_forall. split; intros H p Hp; specialize (H p Hp); lia.
Qed.

Lemma mapM_length {A B} (f : A -> res B) l l' : mapM f l = Ok l' -> length l' = length l.
Proof.
  revert l'. induction l as [|x l IH]; cbn; intros l' H; [inversion H; reflexivity|].
  destruct (f x); cbn in H; [|discriminate]. destruct (mapM f l); cbn in H; [|discriminate].
  inversion H; subst. cbn. f_equal. apply IH. reflexivity.
Qed.

Lemma mk_dist_tr_inv c tr vs ps d : mk_dist_tr c tr vs ps = Ok d ->
  length vs = length ps /\ Forall (fun p => 0 <= p) ps /\
  exists vs', eff_vals c tr vs = Ok vs' /\ length vs' = length vs /\ d = normal c (combine vs' ps).
Proof.
  unfold mk_dist_tr, assert_, eff_vals, truncating. intro H.
  destruct (Nat.eqb_spec (length vs) (length ps)) as [Hl|]; [|discriminate].
  destruct (if match tr with Some b => b | None => cfg_trunc c end then mapM vtrunc vs else Ok vs)
    as [vs'|] eqn:E; cbn [bind] in H; [|discriminate].
  assert (Hl' : length vs' = length vs).
  { destruct (match tr with Some b => b | None => cfg_trunc c end);
      [eapply mapM_length; eauto | inversion E; reflexivity]. }
  unfold sort_and_group, assert_ in H.
  rewrite probs_combine in H by congruence.
  destruct (forallb (fun p => 0 <=? p) ps) eqn:F; cbn [bind] in H; [|discriminate].
  apply forallb_nonneg in F.
  split; [exact Hl|]. split; [exact F|]. exists vs'. split; [reflexivity|]. split; [exact Hl'|].
  inversion H. reflexivity.
Qed.

Lemma mk_dist_inv c vs ps d : cfg_trunc c = false -> mk_dist c vs ps = Ok d ->
  length vs = length ps /\ Forall (fun p => 0 <= p) ps /\ d = normal c (combine vs ps).
Proof.
  intros Ht H. apply mk_dist_tr_inv in H as (Hl & Hp & vs' & E & _ & Hd).
  unfold eff_vals, truncating in E. rewrite Ht in E. inversion E; subst. auto.
Qed.

Lemma nonneg_combine (vs : list pval) ps : Forall (fun p => 0 <= p) ps -> nonneg (combine vs ps).
Proof.
  intro H. apply Forall_forall. intros [v p] Hin. cbn.
  rewrite Forall_forall in H. apply H. eapply in_combine_r, Hin.
Qed.

Lemma nonneg_probs d : nonneg d <-> Forall (fun p => 0 <= p) (probs d).
Proof. unfold nonneg, probs. rewrite Forall_map. reflexivity. Qed.

Lemma mk_dist_self c d : cfg_trunc c = false -> nonneg d -> mk_dist c (vals d) (probs d) = Ok (normal c d).
Proof.
  intros Ht Hn. rewrite mk_dist_ok; [rewrite combine_vals_probs; reflexivity | exact Ht | |].
  - unfold vals, probs. rewrite !map_length. reflexivity.
  - apply nonneg_probs, Hn.
Qed.

(** ** Uniqueness of the canonical form *)
Lemma strict_same_listed d d' : strict d -> strict d' ->
  (forall v, listed v d = listed v d') -> Forall2 (fun x y => veqb (fst x) (fst y) = true) d d'.
Proof.
  revert d'. induction d as [|x d IH]; intros d' Hs Hs' H.
  - destruct d' as [|y d']; [constructor|].
    specialize (H (fst y)). cbn in H. rewrite veqb_refl in H. discriminate.
  - destruct d' as [|y d'].
    { specialize (H (fst x)). cbn in H. rewrite veqb_refl in H. discriminate. }
    inversion Hs as [|? ? S1 F1]; subst. inversion Hs' as [|? ? S2 F2]; subst.
    rewrite Forall_forall in F1, F2.
    assert (E : veqb (fst x) (fst y) = true).
    { destruct (vcmp (fst x) (fst y)) eqn:C.
      - apply veqb_cmp, C.
      - exfalso. specialize (H (fst x)). cbn in H. rewrite veqb_refl in H. cbn in H.
        symmetry in H. apply orb_true_iff in H as [H|H].
        + unfold veqb in H. rewrite C in H. discriminate.
        + apply existsb_exists in H as [z [Hz Hv]]. apply veqb_cmp in Hv.
          specialize (F2 _ Hz). unfold vlt in F2.
          pose proof (lw_trans _ vcmp_lawful _ _ _ _ C F2). congruence.
      - exfalso. apply (lw_gt_lt _ vcmp_lawful) in C.
        specialize (H (fst y)). cbn in H. rewrite veqb_refl in H. cbn in H.
        apply orb_true_iff in H as [H|H].
        + unfold veqb in H. rewrite C in H. discriminate.
        + apply existsb_exists in H as [z [Hz Hv]]. apply veqb_cmp in Hv.
          specialize (F1 _ Hz). unfold vlt in F1.
          pose proof (lw_trans _ vcmp_lawful _ _ _ _ C F1). congruence. }
    constructor; [exact E|]. apply IH; [assumption|assumption|].
    intro v. specialize (H v). cbn in H.
    rewrite (veqb_congr_r _ _ v E) in H.
    destruct (veqb v (fst y)) eqn:V; cbn in H; [|exact H].
    (* v is equal to the heads, hence listed in neither tail *)
    transitivity false; [|symmetry].
    + apply listed_false. intros z Hz.
      rewrite (veqb_congr_l _ _ _ V), veqb_sym.
      rewrite <- (veqb_congr_r _ _ (fst z) E), veqb_sym. apply (strict_cons_notin x d z Hs Hz).
    + apply listed_false. intros z Hz. rewrite (veqb_congr_l _ _ _ V). apply (strict_cons_notin y d' z Hs' Hz).
Qed.

Lemma canon_unique d d' ka kb : canon d -> canon d' -> 0 < ka -> 0 < kb ->
  (forall v, listed v d = listed v d') -> (forall v, ka * wt d v = kb * wt d' v) ->
  Forall2 (fun x y => veqb (fst x) (fst y) = true) d d' /\ probs d = probs d'.
Proof.
  intros [(Hne & Hs & Hn) Hg] [(Hne' & Hs' & Hn') Hg'] Ha Hb HL HW.
  pose proof (strict_same_listed d d' Hs Hs' HL) as F2. split; [exact F2|].
  assert (E : map (Z.mul ka) (probs d) = map (Z.mul kb) (probs d')).
  { assert (W1 : forall x, In x d -> wt d (fst x) = snd x) by (intros; apply wt_strict; assumption).
    assert (W2 : forall x, In x d' -> wt d' (fst x) = snd x) by (intros; apply wt_strict; assumption).
    revert W1 W2. generalize (wt d) (wt d') HW (wt_congr d'). intros w w' HW' HC.
    clear -F2 HW' HC. unfold probs.
    induction F2 as [|x y l l' Hxy _ IH]; intros W1 W2; [reflexivity|]. cbn. f_equal.
    - rewrite <- W1, <- W2 by (left; reflexivity). rewrite HW'. f_equal. apply HC, Hxy.
    - apply IH; intros; [apply W1 | apply W2]; right; assumption. }
  assert (G : ka * gcd_list (probs d) = kb * gcd_list (probs d'))
    by (rewrite <- !gcd_list_scale by lia; rewrite E; reflexivity).
  destruct Hg as [Hg|Hg], Hg' as [Hg'|Hg']; rewrite Hg, Hg' in G; try lia.
  - assert (ka = kb) by lia. subst kb. clear -E Ha.
    revert E. generalize (probs d) (probs d'). induction l as [|x l IH]; intros [|y l'] H; cbn in H; try discriminate; [reflexivity|].
    inversion H as [[H1 H2]]. f_equal; [nia | apply IH, H2].
  - apply gcd_zero in Hg, Hg'. apply (f_equal (@length _)) in E. rewrite !map_length in E.
    revert Hg Hg' E. generalize (probs d) (probs d').
    induction l as [|x l IH]; intros [|y l'] G1 G2 L; cbn in L; try discriminate; [reflexivity|].
    inversion G1; inversion G2; subst. f_equal. apply IH; auto.
Qed.

(** equality test *)
Lemma list_eqb_Forall2 {A} (eqb : A -> A -> bool) l l' :
  list_eqb eqb l l' = true <-> Forall2 (fun x y => eqb x y = true) l l'.
Proof.
  revert l'. induction l as [|x l IH]; intros [|y l']; cbn; split; intro H; try discriminate;
    try constructor; try (inversion H; fail).
  - apply andb_true_iff in H as [H1 H2]. exact H1.
  - apply andb_true_iff in H as [H1 H2]. apply IH, H2.
  - inversion H; subst. apply andb_true_iff. split; [assumption | apply IH; assumption].
Qed.

Lemma list_eqb_Z l l' : list_eqb Z.eqb l l' = true <-> l = l'.
Proof.
  revert l'. induction l as [|x l IH]; intros [|y l']; cbn; split; intro H; try discriminate; try reflexivity.
  - apply andb_true_iff in H as [H1 H2]. apply Z.eqb_eq in H1. apply IH in H2. congruence.
  - inversion H; subst. apply andb_true_iff. split; [apply Z.eqb_refl | apply IH; reflexivity].
Qed.

Lemma Forall2_map_fst (d d' : dist) :
  Forall2 (fun x y => veqb x y = true) (vals d) (vals d') <->
  Forall2 (fun x y => veqb (fst x) (fst y) = true) d d'.
Proof.
  unfold vals. split.
  - revert d'. induction d as [|x d IH]; intros [|y d'] H; inversion H; subst; constructor; auto.
  - induction 1; cbn; constructor; auto.
Qed.

Lemma dists_equal_iff d d' : dists_equal d d' = true <->
  Forall2 (fun x y => veqb (fst x) (fst y) = true) d d' /\ probs d = probs d'.
Proof.
  unfold dists_equal. rewrite andb_true_iff, list_eqb_Forall2, list_eqb_Z, Forall2_map_fst. reflexivity.
Qed.

Lemma dists_equal_wt d d' v : dists_equal d d' = true -> wt d v = wt d' v.
Proof.
  rewrite dists_equal_iff. intros [H E]. unfold wt. revert E.
  induction H as [|[x p] [y q] l l' Hxy _ IH]; cbn; intro E; [reflexivity|].
  inversion E; subst. cbn in Hxy. rewrite (veqb_congr_r _ _ v Hxy), IH by assumption. reflexivity.
Qed.

Lemma dists_equal_total d d' : dists_equal d d' = true -> total d = total d'.
Proof.
  rewrite dists_equal_iff. intros [_ E]. rewrite <- !sum_probs_total. unfold sum_probs. rewrite E. reflexivity.
Qed.
