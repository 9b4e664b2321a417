(** Order statistics: the closed formula counts ordered tuples. *)
From Coq Require Import List ZArith QArith Qabs Bool Permutation Sorted Lia.
From Verif Require Import PyBase Num Val Sorting RVModel Spec CmpFacts SortFacts MassFacts RVFacts ConstructFacts IntFacts LimitFacts OpFacts ConvFacts UnaryFacts MixFacts.
Import ListNotations.
Open Scope Z_scope.

(** ** How many entries satisfy a test *)
Definition cnt {A} (P : A -> bool) (t : list A) : nat := length (filter P t).

Lemma cnt_cons {A} (P : A -> bool) a t : cnt P (a :: t) = ((if P a then 1 else 0) + cnt P t)%nat.
Proof. unfold cnt. cbn. destruct (P a); reflexivity. Qed.

Lemma cnt_perm {A} (P : A -> bool) t t' : Permutation t t' -> cnt P t = cnt P t'.
Proof.
  intro H. unfold cnt. induction H; cbn; auto.
  - destruct (P x); cbn; congruence.
  - destruct (P x), (P y); reflexivity.
  - congruence.
Qed.

Lemma cnt_mono {A} (P Q : A -> bool) t : (forall a, P a = true -> Q a = true) -> (cnt P t <= cnt Q t)%nat.
Proof.
  intro H. induction t as [|a t IH]; [apply le_n|]. rewrite !cnt_cons. specialize (H a).
  destruct (P a), (Q a); lia.
Qed.

Lemma cnt_le {A} (P : A -> bool) t : (cnt P t <= length t)%nat.
Proof. induction t as [|a t IH]; [apply le_n|]. rewrite cnt_cons. cbn [length]. destruct (P a); lia. Qed.

Lemma cnt_compl {A} (P : A -> bool) t : (cnt P t + cnt (fun a => negb (P a)) t = length t)%nat.
Proof. induction t as [|a t IH]; [reflexivity|]. rewrite !cnt_cons. cbn [length]. destruct (P a); cbn; lia. Qed.

Lemma cnt_ext {A} (P Q : A -> bool) t : (forall a, P a = Q a) -> cnt P t = cnt Q t.
Proof. intro H. induction t as [|a t IH]; [reflexivity|]. rewrite !cnt_cons, H, IH. reflexivity. Qed.

(** ** Binomial counting *)
Lemma comb_zero n k : (n < k)%nat -> comb n k = 0.
Proof.
  revert k. induction n as [|n IH]; intros [|k] H; cbn; try lia.
  rewrite (IH k), (IH (S k)) by lia. reflexivity.
Qed.

Lemma mass_tuples_S {A} (P : list A -> bool) n (d : list (A * Z)) :
  mass P (tuples (S n) d) = wsum (fun a => mass (fun t => P (a :: t)) (tuples n d)) d.
Proof.
  cbn [tuples].
  change (map (fun xy => (fst (fst xy) :: snd (fst xy), snd xy)) (indep d (tuples n d)))
    with (image (fun at_ : A * list A => fst at_ :: snd at_) (indep d (tuples n d))).
  rewrite mass_image, mass_indep_wsum. reflexivity.
Qed.

Lemma wsum_if {A} (P : A -> bool) x y (d : list (A * Z)) :
  wsum (fun a => if P a then x else y) d = x * mass P d + y * mass (fun a => negb (P a)) d.
Proof. induction d as [|[a w] d IH]; cbn; [lia|]. rewrite IH. destruct (P a); cbn; lia. Qed.

Lemma binomial {A} (P : A -> bool) (d : list (A * Z)) N : forall j, (j <= N)%nat ->
  mass (fun t => Nat.eqb (cnt P t) j) (tuples N d) =
  comb N j * (mass P d ^ Z.of_nat j * mass (fun a => negb (P a)) d ^ Z.of_nat (N - j)).
Proof.
  induction N as [|N IH]; intros j Hj.
  - assert (j = O) by lia. subst. reflexivity.
  - rewrite mass_tuples_S.
    rewrite (wsum_ext _ (fun a => if P a then mass (fun t => Nat.eqb (S (cnt P t)) j) (tuples N d)
                                  else mass (fun t => Nat.eqb (cnt P t) j) (tuples N d))).
    2:{ intros a w _. destruct (P a) eqn:E; apply mass_ext; intros t w' _; rewrite cnt_cons, E; reflexivity. }
    rewrite wsum_if. set (p := mass P d). set (q := mass (fun a => negb (P a)) d).
    destruct j as [|j].
    + rewrite (mass_false (fun t => Nat.eqb (S (cnt P t)) 0)) by (intros; reflexivity).
      rewrite (IH O) by lia. fold p q. rewrite !Nat.sub_0_r. rewrite Nat2Z.inj_succ, Z.pow_succ_r by lia.
      cbn [comb Z.of_nat]. destruct N; cbn [comb]; ring.
    + change (fun t => Nat.eqb (S (cnt P t)) (S j)) with (fun t : list A => Nat.eqb (cnt P t) j).
      rewrite (IH j) by lia. fold p q.
      destruct (Nat.eq_dec j N) as [->|Nj].
      * replace (S N - S N)%nat with O by lia. replace (N - N)%nat with O by lia.
        rewrite (mass_false (fun t => Nat.eqb (cnt P t) (S N))).
        2:{ intros t w Ht. apply Nat.eqb_neq. pose proof (tuples_length _ _ _ _ Ht). pose proof (cnt_le P t). lia. }
        cbn [comb]. rewrite (comb_zero N (S N)) by lia. rewrite Nat2Z.inj_succ, Z.pow_succ_r by lia. ring.
      * rewrite (IH (S j)) by lia. fold p q. cbn [comb]. cbn [Nat.sub].
        replace (N - j)%nat with (S (N - S j)) by lia.
        rewrite !Nat2Z.inj_succ, !Z.pow_succ_r by lia. ring.
Qed.

Lemma zsum_cons x l : zsum (x :: l) = x + zsum l.
Proof. reflexivity. Qed.
Lemma zsum_app l l' : zsum (l ++ l') = zsum l + zsum l'.
Proof. unfold zsum. induction l as [|x l IH]; cbn [app fold_right]; [lia|]. rewrite IH. lia. Qed.
Lemma zsum_sub {A} (f g : A -> Z) l : zsum (map (fun a => f a - g a) l) = zsum (map f l) - zsum (map g l).
Proof. unfold zsum. induction l as [|x l IH]; cbn [map fold_right]; [lia|]. rewrite IH. lia. Qed.
Lemma zsum_ext {A} (f g : A -> Z) l : (forall a, In a l -> f a = g a) -> zsum (map f l) = zsum (map g l).
Proof. intro H. f_equal. apply map_ext_in. exact H. Qed.

Lemma cumulative {A} (P : A -> bool) (d : list (A * Z)) N m : (m <= N)%nat ->
  mass (fun t => Nat.leb (cnt P t) m) (tuples N d) =
  zsum (map (fun j => comb N j * (mass P d ^ Z.of_nat j * mass (fun a => negb (P a)) d ^ Z.of_nat (N - j))) (seq 0 (m + 1))).
Proof.
  intro Hm. induction m as [|m IH].
  - cbn [seq map Nat.add]. rewrite <- binomial by lia. cbn. rewrite Z.add_0_r. apply mass_ext. intros t w _.
    destruct (cnt P t); reflexivity.
  - replace (S m + 1)%nat with (S (m + 1)) by lia. rewrite seq_S, map_app, zsum_app, <- IH by lia.
    cbn [map zsum fold_right]. rewrite Z.add_0_r. replace (0 + (m + 1))%nat with (S m) by lia.
    rewrite <- binomial by lia.
    rewrite <- mass_or.
    2:{ intros t Ht. apply Nat.leb_le in Ht. apply Nat.eqb_neq. lia. }
    apply mass_ext. intros t w _. destruct (Nat.leb_spec (cnt P t) (S m)), (Nat.leb_spec (cnt P t) m), (Nat.eqb_spec (cnt P t) (S m)); cbn; auto; lia.
Qed.

(** ** Position in a sorted list *)
Section Position.
  Context {A : Type} (cmp : A -> A -> comparison) (L : lawful cmp).
  Definition ceq (v x : A) : bool := match cmp v x with Eq => true | _ => false end.
  (** entries strictly before, and not after, [v] *)
  Definition before (v x : A) : bool := match cmp x v with Lt => true | _ => false end.
  Definition upto (v x : A) : bool := match cmp x v with Gt => false | _ => true end.

  Lemma position v d s : StronglySorted (fun a b => leb_of cmp a b = true) s -> forall k, (k < length s)%nat ->
    ceq v (nth k s d) = Nat.leb (cnt (before v) s) k && Nat.ltb k (cnt (upto v) s).
  Proof.
    induction 1 as [|a s Hs IH Ha]; intros k Hk; [cbn in Hk; lia|]. rewrite !cnt_cons.
    assert (NB : cmp a v <> Lt -> cnt (before v) s = O).
    { intro N. unfold cnt. replace (filter (before v) s) with (@nil A); [reflexivity|].
      symmetry. clear IH Hs Hk. induction s as [|b s IHs]; [reflexivity|]. inversion Ha; subst. cbn.
      unfold before at 1. destruct (cmp b v) eqn:E; auto. exfalso. apply N.
      unfold leb_of in H1. destruct (cmp a b) eqn:F; try discriminate.
      - rewrite (lw_eq_l _ L _ _ _ F). exact E.
      - exact (lw_trans _ L _ _ _ _ F E). }
    assert (NU : cmp a v = Gt -> cnt (upto v) s = O).
    { intro G. unfold cnt. replace (filter (upto v) s) with (@nil A); [reflexivity|].
      symmetry. clear IH Hs Hk NB. induction s as [|b s IHs]; [reflexivity|]. inversion Ha; subst. cbn.
      unfold upto at 1. destruct (cmp b v) eqn:E; auto; exfalso.
      - rewrite (lw_eq_r _ L _ _ a (lw_sym_eq _ L _ _ E)) in G. unfold leb_of in H1. rewrite G in H1. discriminate.
      - apply (lw_gt_lt _ L) in G. pose proof (lw_trans _ L _ _ _ _ E G) as K. apply (lw_gt_lt _ L) in K.
        unfold leb_of in H1. rewrite K in H1. discriminate. }
    destruct k as [|k]; cbn [nth].
    - unfold ceq, before at 1, upto at 1. rewrite (lw_anti _ L a v). destruct (cmp a v) eqn:E; cbn [CompOpp].
      + rewrite NB by congruence. reflexivity.
      + reflexivity.
      + rewrite NB, NU by congruence. reflexivity.
    - rewrite IH by (cbn in Hk; lia). unfold before at 2, upto at 2. destruct (cmp a v) eqn:E.
      + rewrite NB by congruence. reflexivity.
      + reflexivity.
      + rewrite NB, NU by congruence. reflexivity.
  Qed.
End Position.

Definition vcmp_flip (a b : pval) : comparison := vcmp b a.
Lemma vcmp_flip_lawful : lawful vcmp_flip.
Proof.
  pose proof vcmp_lawful as [H1 H2 H3]. unfold vcmp_flip. constructor; auto.
  intros c x y z Hx Hy. eapply H3; eauto.
Qed.

Definition gtb_ (v x : pval) : bool := vltb v x.
Definition geb_ (v x : pval) : bool := vleb v x.

Lemma vleb_total a b : vleb a b = true \/ vleb b a = true.
Proof. exact (leb_of_total vcmp vcmp_lawful a b). Qed.
Lemma vleb_trans a b c : vleb a b = true -> vleb b c = true -> vleb a c = true.
Proof. exact (leb_of_trans vcmp vcmp_lawful a b c). Qed.

Lemma descending_perm t : Permutation t (descending t).
Proof. apply isort_perm. Qed.
Lemma ascending_perm t : Permutation t (ascending t).
Proof. apply isort_perm. Qed.
Lemma descending_length t : length (descending t) = length t.
Proof. symmetry. apply Permutation_length, descending_perm. Qed.
Lemma ascending_length t : length (ascending t) = length t.
Proof. symmetry. apply Permutation_length, ascending_perm. Qed.
Lemma descending_sorted t : StronglySorted (fun a b => vleb b a = true) (descending t).
Proof.
  apply isort_sorted.
  - intros x y. destruct (vleb_total x y); auto.
  - intros x y z H1 H2. eapply vleb_trans; eauto.
Qed.
Lemma ascending_sorted t : StronglySorted (fun a b => vleb a b = true) (ascending t).
Proof. apply isort_sorted; [apply vleb_total|apply vleb_trans]. Qed.

Lemma nth_highest v t k : 1 <= k <= Z.of_nat (length t) ->
  veqb v (entry k (descending t)) = Nat.leb (cnt (gtb_ v) t) (Z.to_nat (k - 1)) && negb (Nat.leb (cnt (geb_ v) t) (Z.to_nat (k - 1))).
Proof.
  intro H. unfold entry. rewrite descending_length.
  destruct (Z.leb_spec 1 k), (Z.leb_spec k (Z.of_nat (length t))); try lia. cbn [andb].
  pose proof (position vcmp_flip vcmp_flip_lawful v (vint 0) (descending t)) as P.
  assert (S : StronglySorted (fun a b => leb_of vcmp_flip a b = true) (descending t)) by exact (descending_sorted t).
  specialize (P S (Z.to_nat (k - 1))). rewrite descending_length in P.
  replace (veqb v (nth (Z.to_nat (k - 1)) (descending t) (vint 0))) with (ceq vcmp_flip v (nth (Z.to_nat (k - 1)) (descending t) (vint 0))).
  2:{ unfold ceq, vcmp_flip, veqb. rewrite (lw_anti _ vcmp_lawful v). destruct (vcmp v _); reflexivity. }
  rewrite P by lia. rewrite <- !(cnt_perm _ _ _ (descending_perm t)).
  f_equal. rewrite Nat.ltb_antisym. reflexivity.
Qed.

Lemma nth_lowest v t k : 1 <= k <= Z.of_nat (length t) ->
  veqb v (entry k (ascending t)) =
  Nat.leb (cnt (gtb_ v) t) (length t - Z.to_nat k) && negb (Nat.leb (cnt (geb_ v) t) (length t - Z.to_nat k)).
Proof.
  intro H. unfold entry. rewrite ascending_length.
  destruct (Z.leb_spec 1 k), (Z.leb_spec k (Z.of_nat (length t))); try lia. cbn [andb].
  pose proof (position vcmp vcmp_lawful v (vint 0) (ascending t) (ascending_sorted t) (Z.to_nat (k - 1))) as P.
  rewrite ascending_length in P.
  change (veqb v ?x) with (ceq vcmp v x). rewrite P by lia. rewrite <- !(cnt_perm _ _ _ (ascending_perm t)).
  pose proof (cnt_compl (before vcmp v) t) as C1. pose proof (cnt_compl (upto vcmp v) t) as C2.
  rewrite (cnt_ext (fun a => negb (before vcmp v a)) (geb_ v)) in C1.
  2:{ intro a. unfold before, geb_, vleb. rewrite (lw_anti _ vcmp_lawful a v). destruct (vcmp a v); reflexivity. }
  rewrite (cnt_ext (fun a => negb (upto vcmp v a)) (gtb_ v)) in C2.
  2:{ intro a. unfold upto, gtb_, vltb. rewrite (lw_anti _ vcmp_lawful a v). destruct (vcmp a v); reflexivity. }
  set (a := cnt (before vcmp v) t) in *. set (b := cnt (upto vcmp v) t) in *.
  set (g := cnt (gtb_ v) t) in *. set (e := cnt (geb_ v) t) in *.
  destruct (Nat.leb_spec a (Z.to_nat (k - 1))), (Nat.ltb_spec (Z.to_nat (k - 1)) b),
    (Nat.leb_spec g (length t - Z.to_nat k)), (Nat.leb_spec e (length t - Z.to_nat k)); cbn; auto; lia.
Qed.

(** ** The formula *)
Lemma mass_diff {A} (P Q : A -> bool) l : (forall a w, In (a, w) l -> Q a = true -> P a = true) ->
  mass P l - mass Q l = mass (fun a => P a && negb (Q a)) l.
Proof.
  induction l as [|[a w] l IH]; intro H; [reflexivity|]. cbn [mass].
  rewrite <- IH by (intros b w' Hb; apply (H b w'); right; exact Hb).
  specialize (H a w (or_introl eq_refl)). destruct (P a), (Q a); cbn; lia.
Qed.

Lemma mass_split3 (v : pval) (d : dist) :
  mass (gtb_ v) d = total d - mass (fun y => vleb y v) d /\
  mass (geb_ v) d = total d - mass (fun y => vleb y v) d + wt d v /\
  mass (fun a => negb (gtb_ v a)) d = mass (fun y => vleb y v) d /\
  mass (fun a => negb (geb_ v a)) d = mass (fun y => vleb y v) d - wt d v.
Proof.
  unfold wt, total. induction d as [|[a w] d IH]; cbn [mass]; [lia|].
  unfold gtb_, geb_, vltb, vleb, veqb in *. rewrite (lw_anti _ vcmp_lawful v a). destruct (vcmp v a); cbn [CompOpp negb]; lia.
Qed.

Lemma os_weight_counts (d : dist) N k v : (1 <= k <= N)%nat ->
  let q := mass (fun y => vleb y v) d in let p := wt d v in
  os_weight N k (q - p) p (total d - q) =
  mass (fun t => Nat.leb (cnt (gtb_ v) t) (N - k) && negb (Nat.leb (cnt (geb_ v) t) (N - k))) (tuples N d).
Proof.
  intros Hk q p. unfold os_weight.
  rewrite <- mass_diff.
  2:{ intros t w _ H. apply Nat.leb_le in H. apply Nat.leb_le.
      assert (cnt (gtb_ v) t <= cnt (geb_ v) t)%nat; [|lia]. apply cnt_mono. intros a. unfold gtb_, geb_, vltb, vleb. destruct (vcmp v a); auto; discriminate. }
  rewrite !cumulative by lia. destruct (mass_split3 v d) as (-> & -> & -> & ->). fold q p.
  rewrite <- zsum_sub. apply zsum_ext. intros j Hj. unfold os_term.
  replace (q - p + p) with q by lia. replace (p + (total d - q)) with (total d - q + p) by lia. ring.
Qed.

Lemma filter_id {A} (f : A -> bool) l : (forall a, In a l -> f a = true) -> filter f l = l.
Proof.
  induction l as [|a l IH]; intro H; [reflexivity|]. cbn. rewrite (H a (or_introl eq_refl)). f_equal. apply IH.
  intros b Hb. apply H. right. exact Hb.
Qed.

(** settings under which no outcome of [x] is dropped *)
Definition keeps (c : cfg) (x : dist) : Prop := cfg_skip0 c = false \/ positive_weights x.
Lemma no_dropped_keeps c x : no_dropped c x -> keeps c x.
Proof. unfold no_dropped, keeps. destruct (cfg_skip0 c); auto. Qed.

Lemma grouped_keeps c x : keeps c x -> strict x -> grouped c x = x.
Proof.
  intros K S. unfold grouped, get_new_zipped. rewrite rev_get_zip, (isort_rev_strict x S).
  destruct K as [K|K].
  - rewrite K. apply (group_strict x S).
  - rewrite (group_strict x S). destruct (cfg_skip0 c); [|reflexivity]. apply filter_id.
    intros vp Hvp. unfold positive_weights in K. assert (0 < snd vp); [|destruct (Z.eqb_spec (snd vp) 0); auto; lia].
    apply (proj1 (Forall_forall _ _) K). apply in_map. exact Hvp.
Qed.

Lemma gcd_accumulate l : forall acc, Z.gcd acc (gcd_list (accumulate acc l)) = Z.gcd acc (gcd_list l).
Proof.
  induction l as [|p l IH]; intro acc; [reflexivity|]. cbn [accumulate]. unfold gcd_list in *. cbn [fold_right].
  rewrite IH, !Z.gcd_assoc. f_equal. rewrite Z.add_comm. apply Z.gcd_add_diag_r.
Qed.

Lemma gcd_accumulate0 l : gcd_list (accumulate 0 l) = gcd_list l.
Proof.
  pose proof (gcd_accumulate l 0) as H. rewrite !Z.gcd_0_l, !Z.abs_eq in H; auto; apply gcd_list_nonneg.
Qed.

Lemma accumulate_pos l : forall acc, 0 <= acc -> Forall (fun p => 0 < p) l -> Forall (fun p => 0 < p) (accumulate acc l).
Proof.
  induction l as [|p l IH]; intros acc H0 H; [constructor|]. inversion H; subst. cbn [accumulate]. constructor; [lia|].
  apply IH; [lia|assumption].
Qed.

Lemma cdf_probs x : probs (cdf_list x) = accumulate 0 (probs x).
Proof.
  unfold cdf_list. apply probs_combine. rewrite accumulate_length. unfold vals, probs. now rewrite !map_length.
Qed.

Lemma cdf_exact c x : cfg_trunc c = false -> canon x -> 0 < total x -> keeps c x ->
  get_cdf c x = Ok (cdf_list x).
Proof.
  intros T [[N0 [S0 N1]] G] Ht K. rewrite get_cdf_is by auto. f_equal. unfold normal.
  assert (K' : keeps c (cdf_list x)).
  { destruct K as [K|K]; [left; exact K|right]. unfold positive_weights in *. rewrite cdf_probs. apply accumulate_pos; [lia|exact K]. }
  rewrite (grouped_keeps c _ K' (cdf_list_strict x S0)).
  assert (E : get_normalized (cdf_list x) = cdf_list x).
  { unfold get_normalized. rewrite cdf_probs, gcd_accumulate0. destruct G as [-> | ->]; reflexivity. }
  rewrite E. destruct (cdf_list x) eqn:F; [|reflexivity].
  pose proof (cdf_list_vals x) as V. rewrite F in V. destruct x; [contradiction|discriminate].
Qed.

Lemma accumulate_map (x : dist) : strict x -> forall acc,
  accumulate acc (probs x) = map (fun vp => acc + mass (fun y => vleb y (fst vp)) x) x.
Proof.
  induction x as [|[v p] x IH]; intros S acc; [reflexivity|]. inversion S; subst. cbn [probs map snd accumulate].
  f_equal.
  - cbn [mass fst]. rewrite mass_false.
    + unfold vleb. rewrite (lw_refl _ vcmp_lawful). lia.
    + intros a w Ha. pose proof (proj1 (Forall_forall _ _) H2 _ Ha) as L. unfold vlt in L. cbn [fst] in L.
      unfold vleb. apply (lw_gt_lt _ vcmp_lawful) in L. rewrite L. reflexivity.
  - change (map snd x) with (probs x). rewrite IH by auto. apply map_ext_in. intros [v' p'] Hv. cbn [mass fst].
    pose proof (proj1 (Forall_forall _ _) H2 _ Hv) as L. unfold vlt in L. cbn [fst] in L. unfold vleb at 2. rewrite L. lia.
Qed.

Lemma os_weights_map N k s {A} (f g : A -> Z) (l : list A) :
  os_weights N k s (map f l) (map g l) = Ok (map (fun a => os_weight N k (g a - f a) (f a) (s - g a)) l).
Proof. induction l as [|a l IH]; [reflexivity|]. cbn [map os_weights]. rewrite IH. reflexivity. Qed.

(** which entry of a roll is meant by position [k] *)
Definition at_position (c : cfg) (k : Z) (t : list pval) : pval :=
  if cfg_highest c then entry k (descending t) else entry k (ascending t).

Lemma combine_map {A B C} (f : A -> B) (g : A -> C) l : combine (map f l) (map g l) = map (fun a => (f a, g a)) l.
Proof. induction l as [|a l IH]; [reflexivity|]. cbn. now rewrite IH. Qed.

Lemma zsum_mass_swap {A B} (P : A -> B -> bool) (vs : list A) (l : list (B * Z)) :
  zsum (map (fun v => mass (P v) l) vs) = wsum (fun t => Z.of_nat (cnt (fun v => P v t) vs)) l.
Proof.
  induction vs as [|v vs IH].
  - cbn. induction l as [|[t w] l IHl]; [reflexivity|]. cbn [wsum]. rewrite <- IHl. cbn. reflexivity.
  - cbn [map]. rewrite zsum_cons, IH, mass_wsum, <- wsum_plus. apply wsum_ext. intros t w _. rewrite cnt_cons.
    destruct (P v t); lia.
Qed.

Lemma strict_cnt (x : dist) v : strict x -> listed v x = true -> cnt (fun vp => veqb (fst vp) v) x = 1%nat.
Proof.
  induction x as [|y x IH]; intros S H; [discriminate|]. inversion S; subst. rewrite cnt_cons. unfold listed in *. cbn [existsb] in H.
  rewrite veqb_sym in H. destruct (veqb (fst y) v) eqn:E; cbn [orb] in H.
  - unfold cnt. replace (filter (fun vp => veqb (fst vp) v) x) with (@nil (pval * Z)); [reflexivity|].
    symmetry. clear IH. induction x as [|z x IHx]; [reflexivity|]. cbn [filter].
    rewrite <- (veqb_congr_r _ _ (fst z) E), veqb_sym, (strict_cons_notin y (z :: x) z S (or_introl eq_refl)).
    apply IHx; [inversion S as [|? ? S' F]; inversion S'; inversion F; constructor; auto|inversion H2; auto|inversion H3; auto].
  - rewrite IH by assumption. reflexivity.
Qed.

Lemma entry_in k t : 1 <= k <= Z.of_nat (length t) -> In (entry k t) t.
Proof.
  intro H. unfold entry. destruct (Z.leb_spec 1 k), (Z.leb_spec k (Z.of_nat (length t))); try lia. cbn [andb].
  apply nth_In. lia.
Qed.

Lemma at_position_in c k t : 1 <= k <= Z.of_nat (length t) -> In (at_position c k t) t.
Proof.
  intro H. unfold at_position. destruct (cfg_highest c).
  - apply (Permutation_in _ (Permutation_sym (descending_perm t))), entry_in. now rewrite descending_length.
  - apply (Permutation_in _ (Permutation_sym (ascending_perm t))), entry_in. now rewrite ascending_length.
Qed.

Lemma tuple_listed n (x : dist) t w v : In (t, w) (tuples n x) -> In v t -> listed v x = true.
Proof.
  intros H Hv. pose proof (tuples_in _ _ _ _ H) as F. pose proof (proj1 (Forall_forall _ _) F v Hv) as I.
  apply listed_iff. apply in_map_iff in I. destruct I as [y [<- Hy]]. exists y. split; [exact Hy|apply veqb_refl].
Qed.

Lemma kth_order_list c x n k : cfg_trunc c = false -> canon x -> 0 < total x -> no_dropped c x -> 1 <= k <= n ->
  exists xs, kth_order c x n k = (d' <- prob_limit (normal c xs) ;; Ok (Some (rv_of d'))) /\
    vals xs = vals x /\ proper xs /\ total xs = total x ^ n /\
    forall v, wt xs v = mass (fun t => veqb v (at_position c k t)) (tuples (Z.to_nat n) x).
Proof.
  intros T C Ht D Hk. pose proof (no_dropped_keeps c x D) as K. pose proof C as [[N0 [S0 N1]] G]. unfold kth_order. rewrite (cdf_exact c x T C Ht K). cbn [bind].
  set (k' := if cfg_highest c then n - k + 1 else k).
  assert (Hk' : 1 <= k' <= n) by (unfold k'; destruct (cfg_highest c); lia).
  destruct (Z.ltb_spec k' 1), (Z.ltb_spec n k'); try lia. cbn [orb].
  set (N := Z.to_nat n). set (W := fun v => mass (fun t => veqb v (at_position c k t)) (tuples N x)).
  assert (E : os_weights N (Z.to_nat k') (sum_probs x) (probs x) (probs (cdf_list x)) = Ok (map (fun vp => W (fst vp)) x)).
  { rewrite cdf_probs, (accumulate_map x S0 0), sum_probs_total. unfold probs. rewrite os_weights_map. f_equal.
    apply map_ext_in. intros vp Hv. rewrite Z.add_0_l. rewrite <- (wt_strict x vp S0 Hv).
    rewrite os_weight_counts by (unfold N; lia). unfold W. apply mass_ext. intros t w Hin.
    pose proof (tuples_length _ _ _ _ Hin) as L. unfold at_position, k'.
    destruct (cfg_highest c).
    - rewrite nth_highest by (unfold N in *; lia). replace (Z.to_nat (k - 1)) with (N - Z.to_nat (n - k + 1))%nat by (unfold N; lia). reflexivity.
    - rewrite nth_lowest by (unfold N in *; lia). rewrite L. reflexivity. }
  rewrite E. cbn [bind].
  assert (NN : Forall (fun p => 0 <= p) (map (fun vp : pval * Z => W (fst vp)) x)).
  { apply Forall_forall. intros p Hp. apply in_map_iff in Hp. destruct Hp as [vp [<- _]]. apply mass_nonneg, nonneg_tuples. exact N1. }
  rewrite mk_dist_ok; [|exact T|unfold vals; now rewrite !map_length|exact NN].
  unfold vals. rewrite combine_map. set (xs := map (fun vp => (fst vp, W (fst vp))) x). cbn [bind].
  assert (Tot : total xs = total x ^ n).
  { transitivity (zsum (map (fun vp : pval * Z => mass (fun t => veqb (fst vp) (at_position c k t)) (tuples N x)) x)).
    - unfold xs, total. fold W. change (fun vp : pval * Z => mass (fun t => veqb (fst vp) (at_position c k t)) (tuples N x)) with (fun vp : pval * Z => W (fst vp)).
      generalize W. clear. intro W. induction x as [|a l IH]; [reflexivity|]. cbn [map mass]. rewrite zsum_cons, IH. reflexivity.
    - rewrite (zsum_mass_swap (fun (vp : pval * Z) t => veqb (fst vp) (at_position c k t))).
      rewrite (wsum_ext _ (fun _ => 1)), <- total_wsum, total_tuples.
      + unfold N. rewrite Z2Nat.id by lia. reflexivity.
      + intros t w Hin. rewrite (strict_cnt x); auto. apply (tuple_listed N x t w); auto.
        apply at_position_in. rewrite (tuples_length _ _ _ _ Hin). unfold N. lia. }
  assert (Wt : forall v, wt xs v = W v).
  { intro v. destruct (listed v x) eqn:Lv.
    - apply listed_iff in Lv. destruct Lv as [y [Hy Ey]].
      assert (Sx : strict xs) by (apply (strict_vals x); auto; unfold xs, vals; rewrite map_map; reflexivity).
      rewrite (wt_congr xs v (fst y)) by exact Ey.
      assert (Iy : In (fst y, W (fst y)) xs) by (apply in_map_iff; exists y; auto).
      pose proof (wt_strict xs _ Sx Iy) as Q. cbn [fst snd] in Q. rewrite Q.
      unfold W. apply mass_ext. intros t w _. symmetry. now apply veqb_congr_l.
    - rewrite listed_false_wt.
      + unfold W. symmetry. apply mass_false. intros t w Hin. destruct (veqb v (at_position c k t)) eqn:Ev; auto.
        rewrite <- Lv. symmetry. rewrite (listed_congr _ _ _ Ev). apply (tuple_listed N x t w); auto.
        apply at_position_in. rewrite (tuples_length _ _ _ _ Hin). unfold N. lia.
      + rewrite <- Lv. apply listed_vals. unfold xs, vals. rewrite map_map. reflexivity. }
  assert (Px : proper xs).
  { split; [|rewrite Tot; apply Z.pow_pos_nonneg; lia]. unfold xs. apply Forall_forall. intros y Hy. apply in_map_iff in Hy.
    destruct Hy as [vp [<- _]]. cbn [snd]. apply mass_nonneg, nonneg_tuples. exact N1. }
  exists xs. split; [reflexivity|]. split; [unfold xs, vals; rewrite map_map; reflexivity|]. split; [exact Px|]. split; [exact Tot|exact Wt].
Qed.
Lemma kth_order_gen c x n k : cfg_trunc c = false -> canon x -> 0 < total x -> no_dropped c x -> 1 <= k <= n ->
  exists d, kth_order c x n k = (d' <- prob_limit d ;; Ok (Some (rv_of d'))) /\
    canon d /\ proper d /\ total d <= Z.max 1 (total x ^ n) /\ (length d <= length x)%nat /\
    forall v, (Pr d v == PrP (fun t => veqb v (at_position c k t)) (tuples (Z.to_nat n) x))%Q.
Proof.
  intros T C Ht D Hk. destruct (kth_order_list c x n k T C Ht D Hk) as [xs [E [V [Px [Tot Wt]]]]].
  exists (normal c xs). split; [exact E|].
  split; [apply normal_canon, Px|]. split; [apply normal_proper, Px|].
  split; [rewrite <- Tot; apply normal_total_le, Px|]. split.
  { pose proof (normal_length c xs) as NL. assert (Lx : length xs = length x) by (unfold vals in V; rewrite <- (map_length fst xs), V; apply map_length).
    destruct C as [[N0 _] _]. destruct x; [congruence|]. cbn [length] in *. lia. }
  intro v. rewrite (normal_Pr c xs v Px). unfold Pr, PrP. rewrite Wt, Tot, total_tuples. rewrite Z2Nat.id by lia. reflexivity.
Qed.

Lemma kth_order_law c x n k : cfg_trunc c = false -> canon x -> 0 < total x -> no_dropped c x ->
  1 <= k <= n -> total x ^ n <= SUM_LIMIT ->
  exists r, kth_order c x n k = Ok (Some r) /\ canon (rv_dist r) /\ proper (rv_dist r) /\ rv_roll r = 1 /\ rv_src r = None /\
    forall v, (Pr (rv_dist r) v == PrP (fun t => veqb v (at_position c k t)) (tuples (Z.to_nat n) x))%Q.
Proof.
  intros T C Ht D Hk Hl. destruct (kth_order_gen c x n k T C Ht D Hk) as (d & E & Cd & Pd & Td & _ & L).
  rewrite prob_limit_id in E by (etransitivity; [exact Td|]; apply Z.max_lub; [discriminate|exact Hl]).
  exists (rv_of d). split; [exact E|]. auto.
Qed.
Lemma kth_order_close c x n k : cfg_trunc c = false -> canon x -> 0 < total x -> no_dropped c x ->
  1 <= k <= n -> total x ^ n < 2 ^ 1024 - 2 ^ 970 -> Z.of_nat (length x) <= 10 ^ 10 ->
  exists r, kth_order c x n k = Ok (Some r) /\ rv_roll r = 1 /\ rv_src r = None /\
    forall v, (Qabs (Pr (rv_dist r) v - PrP (fun t => veqb v (at_position c k t)) (tuples (Z.to_nat n) x)) <= 1 # 1000000000)%Q.
Proof.
  intros T C Ht D Hk Hl HL. destruct (kth_order_gen c x n k T C Ht D Hk) as (d & E & Cd & Pd & Td & Ld & L).
  destruct (prob_limit_ok d) as [d' E'].
  { eapply Z.le_lt_trans; [exact Td|]. apply Z.max_lub_lt; [reflexivity|exact Hl]. }
  rewrite E' in E. exists (rv_of d'). split; [exact E|]. split; [reflexivity|]. split; [reflexivity|].
  intro v. cbn [rv_of rv_dist]. rewrite <- L. apply limit_error; [apply Pd|lia|exact E'].
Qed.

Lemma kth_order_outside c x n k : cfg_trunc c = false -> nonneg x -> ~ 1 <= k <= n -> kth_order c x n k = Ok None.
Proof.
  intros T N H. unfold kth_order. rewrite get_cdf_is by auto. cbn [bind].
  destruct (cfg_highest c).
  - destruct (Z.ltb_spec (n - k + 1) 1), (Z.ltb_spec n (n - k + 1)); try lia; reflexivity.
  - destruct (Z.ltb_spec k 1), (Z.ltb_spec n k); try lia; reflexivity.
Qed.
