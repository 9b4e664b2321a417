(** Facts about exact laws, and how dice of the library stand for them. *)
From Coq Require Import String List ZArith QArith Qreduction Qabs Bool Permutation Sorted Lia Lqa.
From Verif Require Import PyBase Num Val Sorting RVModel Spec CmpFacts SortFacts MassFacts NumFacts RVFacts ConstructFacts
  ConvFacts IntFacts RoundFacts LimitFacts OpFacts UnaryFacts MixFacts CastMixFacts.
From Verif Require Import IdealSpec.
Import ListNotations.
Open Scope Z_scope.
Open Scope list_scope.

(** ** Expectations *)

Fixpoint ex {A : Type} (g : A -> Q) (l : law A) : Q :=
  match l with
  | [] => 0
  | (a, q) :: l' => (q * g a + ex g l')%Q
  end.
Definition ind (b : bool) : Q := if b then 1%Q else 0%Q.

Lemma chance_ex {A} (P : A -> bool) (l : law A) : (chance P l == ex (fun a => ind (P a)) l)%Q.
Proof. induction l as [|[a q] l IH]; [reflexivity|]. cbn [chance ex]. rewrite IH. destruct (P a); cbn [ind]; ring. Qed.
Lemma prob_ex t z : (prob t z == ex (fun y => ind (z =? y)) t)%Q.
Proof. apply chance_ex. Qed.
Lemma ex_ext {A} (f g : A -> Q) (l : law A) : (forall a q, In (a, q) l -> (f a == g a)%Q) -> (ex f l == ex g l)%Q.
Proof.
  induction l as [|[a q] l IH]; intro H; [reflexivity|]. cbn [ex]. rewrite (H a q (or_introl eq_refl)).
  rewrite IH; [reflexivity|]. intros b r I. apply (H b r). right. exact I.
Qed.
Lemma ex_app {A} (g : A -> Q) (l m : law A) : (ex g (l ++ m) == ex g l + ex g m)%Q.
Proof. induction l as [|[a q] l IH]; cbn [ex app]; [ring|]. rewrite IH. ring. Qed.
Lemma ex_sure {A} (g : A -> Q) a : (ex g (sure a) == g a)%Q.
Proof. unfold sure. cbn [ex]. ring. Qed.
Lemma ex_scale {A} (g : A -> Q) k (l : law A) : (ex g (map (fun aq => (fst aq, (k * snd aq)%Q)) l) == k * ex g l)%Q.
Proof. induction l as [|[a q] l IH]; cbn [ex map fst snd]; [ring|]. rewrite IH. ring. Qed.
Lemma ex_draw {A B} (g : B -> Q) (l : law A) (f : A -> law B) : (ex g (draw l f) == ex (fun a => ex g (f a)) l)%Q.
Proof.
  induction l as [|[a q] l IH]; [reflexivity|]. unfold draw in *. cbn [flat_map ex fst snd]. rewrite ex_app, IH.
  rewrite (ex_scale g q (f a)). reflexivity.
Qed.
Lemma ex_map {A B} (g : B -> Q) (h : A -> B) (l : law A) : (ex g (map (fun aq => (h (fst aq), snd aq)) l) == ex (fun a => g (h a)) l)%Q.
Proof. induction l as [|[a q] l IH]; [reflexivity|]. cbn [ex map fst snd]. rewrite IH. reflexivity. Qed.
Lemma ex_cmul {A} k (g : A -> Q) (l : law A) : (ex (fun a => k * g a) l == k * ex g l)%Q.
Proof. induction l as [|[a q] l IH]; cbn [ex]; [ring|]. rewrite IH. ring. Qed.
Lemma ex_plus {A} (f g : A -> Q) (l : law A) : (ex (fun a => f a + g a) l == ex f l + ex g l)%Q.
Proof. induction l as [|[a q] l IH]; cbn [ex]; [ring|]. rewrite IH. ring. Qed.
Lemma ex_zero {A} (l : law A) : (ex (fun _ => 0) l == 0)%Q.
Proof. induction l as [|[a q] l IH]; cbn [ex]; [ring|]. rewrite IH. ring. Qed.
Lemma ex_swap {A B} (f : A -> B -> Q) (l : law A) (m : law B) :
  (ex (fun a => ex (fun b => f a b) m) l == ex (fun b => ex (fun a => f a b) l) m)%Q.
Proof.
  induction l as [|[a q] l IH]; cbn [ex]; [rewrite ex_zero; ring|]. rewrite IH, ex_plus, ex_cmul. reflexivity.
Qed.

(** ** Tables *)

Lemma ex_add_to g z q t : (ex g (add_to z q t) == q * g z + ex g t)%Q.
Proof.
  induction t as [|[y r] t IH]; cbn [add_to ex].
  - rewrite Qred_correct. ring.
  - destruct (Z.compare_spec z y) as [->|L|L]; cbn [ex].
    + rewrite Qred_correct. ring.
    + rewrite Qred_correct. ring.
    + rewrite IH. ring.
Qed.
Lemma ex_collect g l : (ex g (collect l) == ex g l)%Q.
Proof.
  unfold collect. induction l as [|[z q] l IH]; [reflexivity|]. cbn [fold_right fst snd ex]. rewrite ex_add_to, IH. reflexivity.
Qed.

Definition positive {A} (l : law A) : Prop := Forall (fun aq => 0 < snd aq)%Q l.
(** values in order, probabilities positive *)
Definition fine (t : table) : Prop := StronglySorted (fun x y => fst x < fst y) t /\ positive t.

Lemma add_to_in z q t x : In x (add_to z q t) -> fst x = z \/ In (fst x) (map fst t).
Proof.
  induction t as [|[y r] t IH]; cbn [add_to].
  - intros [<-|[]]. left. reflexivity.
  - destruct (Z.compare_spec z y) as [->|L|L]; cbn [In map fst].
    + intros [<-|I]; [left; reflexivity|right; right; exact (in_map fst _ _ I)].
    + intros [<-|[<-|I]]; [left; reflexivity|right; left; reflexivity|right; right; exact (in_map fst _ _ I)].
    + intros [<-|I]; [right; left; reflexivity|]. destruct (IH I) as [E|E]; [left; exact E|right; right; exact E].
Qed.
Lemma add_to_fine z q t : (0 < q)%Q -> fine t -> fine (add_to z q t).
Proof.
  intros Q [S P]. revert S P. induction t as [|[y r] t IH]; intros S P; cbn [add_to].
  - split; repeat constructor. cbn [snd]. rewrite Qred_correct. exact Q.
  - inversion S as [|? ? S1 S2]; inversion P as [|? ? P1 P2]; subst. cbn [fst snd] in *.
    destruct (Z.compare_spec z y) as [->|L|L].
    + split; constructor; try assumption. cbn [snd]. rewrite Qred_correct. lra.
    + split.
      * constructor; [exact S|]. constructor; [exact L|]. eapply Forall_impl; [|exact S2]. intros x H. cbn [fst] in *. lia.
      * constructor; [cbn [snd]; rewrite Qred_correct; exact Q|exact P].
    + destruct (IH S1 P2) as [S3 P3]. split; constructor; try assumption.
      apply Forall_forall. intros x I. cbn [fst]. destruct (add_to_in _ _ _ _ I) as [E|E]; [lia|].
      apply in_map_iff in E. destruct E as [e [E1 E2]]. rewrite Forall_forall in S2. specialize (S2 e E2). cbn [fst] in S2. lia.
Qed.
Lemma collect_fine l : positive l -> fine (collect l).
Proof.
  unfold collect. induction 1 as [|[z q] l Q _ IH]; [split; constructor|]. cbn [fold_right fst snd]. apply add_to_fine; assumption.
Qed.
Lemma positive_draw {A B} (l : law A) (f : A -> law B) : positive l -> (forall a q, In (a, q) l -> positive (f a)) -> positive (draw l f).
Proof.
  intros Hl Hf. unfold positive, draw. apply Forall_flat_map. apply Forall_forall. intros [a q] I.
  apply Forall_map. cbn [fst snd]. pose proof (Hf a q I) as H. unfold positive in H, Hl. rewrite Forall_forall in H, Hl |- *.
  intros [b r] J. cbn [snd]. pose proof (Hl _ I). pose proof (H _ J). cbn [snd] in *.
  apply Qmult_lt_0_compat; assumption.
Qed.
Lemma positive_sure {A} (a : A) : positive (sure a).
Proof. repeat constructor. Qed.
Lemma fine_sure z : fine (sure z).
Proof. split; [repeat constructor|apply positive_sure]. Qed.
Lemma ex_pos {A} (g : A -> Q) (l : law A) a q : positive l -> (forall b, 0 <= g b)%Q -> In (a, q) l -> (0 < g a)%Q -> (0 < ex g l)%Q.
Proof.
  intros P N I G. assert (X : forall m : law A, positive m -> (0 <= ex g m)%Q).
  { induction 1 as [|[b r] m R _ IH]; cbn [ex]; [apply Qle_refl|]. cbn [snd] in R. specialize (N b).
    assert (0 <= r * g b)%Q by (apply Qmult_le_0_compat; lra). lra. }
  induction P as [|[b r] m R P IH]; [destruct I|]. cbn [ex snd] in *. destruct I as [E|I].
  - injection E as -> ->. specialize (X m P). assert (0 < q * g a)%Q by (apply Qmult_lt_0_compat; assumption). lra.
  - specialize (IH I). specialize (N b). assert (0 <= r * g b)%Q by (apply Qmult_le_0_compat; lra). lra.
Qed.
Lemma prob_pos t z q : fine t -> In (z, q) t -> (0 < prob t z)%Q.
Proof.
  intros [_ P] I. rewrite prob_ex. apply (ex_pos _ t z q P); [|exact I|rewrite Z.eqb_refl; reflexivity].
  intro b. destruct (z =? b); cbn [ind]; lra.
Qed.

(** ** Dice that stand for tables *)

Lemma qsum_inject {A} (f : A -> Z) (l : list (A * Z)) : (inject_Z (wsum f l) == qsum (fun a => inject_Z (f a)) l)%Q.
Proof.
  induction l as [|[a w] l IH]; [reflexivity|]. cbn [wsum qsum]. rewrite inject_Z_plus, inject_Z_mult, IH. ring.
Qed.
Lemma qsum_ext {A} (f g : A -> Q) (l : list (A * Z)) : (forall a w, In (a, w) l -> (f a == g a)%Q) -> (qsum f l == qsum g l)%Q.
Proof.
  induction l as [|[a w] l IH]; intro H; [reflexivity|]. cbn [qsum]. rewrite (H a w (or_introl eq_refl)).
  rewrite IH; [reflexivity|]. intros b r I. apply (H b r). right. exact I.
Qed.
Lemma wt_qsum d k : int_vals d -> (inject_Z (wt d (vint k)) == qsum (fun v => ind (k =? toZ v)%Z) d)%Q.
Proof.
  intro I. rewrite (wt_int d k I), qsum_inject. apply qsum_ext. intros v w _. unfold IntFacts.ind.
  rewrite (Z.eqb_sym (toZ v) k). destruct (k =? toZ v); reflexivity.
Qed.

Definition stands (T : Z) (zq : Z * Q) (vw : pval * Z) : Prop :=
  fst vw = vint (fst zq) /\ (inject_Z (snd vw) == inject_Z T * snd zq)%Q.
Record reps (t : table) (d : dist) : Prop := {
  rp_fine : fine t;
  rp_canon : canon d;
  rp_pos : positive_weights d;
  rp_stands : Forall2 (stands (total d)) t d
}.

Lemma stands_int T t d : Forall2 (stands T) t d -> int_vals d.
Proof. induction 1 as [|a b t d [E _] _ IH]; constructor; [rewrite E; reflexivity|exact IH]. Qed.
Lemma reps_int t d : reps t d -> int_vals d.
Proof. intros H. exact (stands_int _ _ _ (rp_stands _ _ H)). Qed.
Lemma reps_nonempty t d : reps t d -> d <> [].
Proof. intros H. exact (proj1 (proj1 (rp_canon _ _ H))). Qed.
Lemma reps_total t d : reps t d -> 0 < total d.
Proof. intros H. exact (positive_total d (reps_nonempty t d H) (rp_pos _ _ H)). Qed.
Lemma reps_nonneg t d : reps t d -> nonneg d.
Proof. intros H. exact (proj2 (proj2 (proj1 (rp_canon _ _ H)))). Qed.
Lemma reps_proper t d : reps t d -> proper d.
Proof. intros H. split; [exact (reps_nonneg t d H)|exact (reps_total t d H)]. Qed.
Lemma reps_strict t d : reps t d -> strict d.
Proof. intros H. exact (proj1 (proj2 (proj1 (rp_canon _ _ H)))). Qed.
Lemma inject_pos z : 0 < z -> (0 < inject_Z z)%Q.
Proof. intro H. unfold Qlt. cbn. lia. Qed.
Lemma inject_pos_inv z : (0 < inject_Z z)%Q -> 0 < z.
Proof. unfold Qlt. cbn. lia. Qed.
Lemma inject_eq a b : (inject_Z a == inject_Z b)%Q -> a = b.
Proof. unfold Qeq. cbn. lia. Qed.

Lemma stands_ex T t d : Forall2 (stands T) t d -> forall g, (qsum (fun v => g (toZ v)) d == inject_Z T * ex g t)%Q.
Proof.
  induction 1 as [|[z q] [v w] t d [E1 E2] _ IH]; intro g; cbn [qsum ex]; [ring|]. cbn [fst snd] in *. subst v.
  rewrite IH, E2. cbn [toZ vint]. ring.
Qed.
Lemma reps_ex t d : reps t d -> forall g, (qsum (fun v => g (toZ v)) d == inject_Z (total d) * ex g t)%Q.
Proof. intros H. exact (stands_ex _ _ _ (rp_stands _ _ H)). Qed.
Lemma reps_Pr t d k : reps t d -> (Pr d (vint k) == prob t k)%Q.
Proof.
  intro H. unfold Pr. rewrite (wt_qsum d k (reps_int t d H)). rewrite (reps_ex t d H (fun z => ind (k =? z))), prob_ex.
  field. pose proof (reps_total t d H). intro E. apply (inject_pos (total d)) in H0. rewrite E in H0. exact (Qlt_irrefl _ H0).
Qed.

(** a table and the entries of a die with the same weights are the same, entry by entry *)
Lemma prob_cons z q t k : (prob ((z, q) :: t) k == (if k =? z then q else 0) + prob t k)%Q.
Proof. unfold prob. cbn [chance]. reflexivity. Qed.
Lemma wt_cons z w d k : wt ((vint z, w) :: d) (vint k) = (if k =? z then w else 0) + wt d (vint k).
Proof. unfold wt. cbn [mass]. unfold veqb. rewrite vcmp_int. unfold Z.eqb. rewrite <- Z.eqb_compare. unfold Z.eqb. reflexivity. Qed.
Lemma prob_above t k : Forall (fun x => k < fst x) t -> (prob t k == 0)%Q.
Proof.
  induction 1 as [|[y r] t L _ IH]; [reflexivity|]. rewrite prob_cons, IH. cbn [fst] in L.
  rewrite (proj2 (Z.eqb_neq k y)) by lia. ring.
Qed.
Lemma wt_above d k : int_vals d -> Forall (fun x => k < toZ (fst x)) d -> wt d (vint k) = 0.
Proof.
  intros I H. induction H as [|[v w] d L _ IH]; [reflexivity|]. inversion I as [|? ? I1 I2]; subst. cbn [fst] in *.
  rewrite (is_int_vint v I1), wt_cons, (IH I2). rewrite (proj2 (Z.eqb_neq k (toZ v))) by lia. reflexivity.
Qed.
Lemma strict_above z w d : int_vals d -> strict ((vint z, w) :: d) -> Forall (fun x => z < toZ (fst x)) d.
Proof.
  intros I S. inversion S as [|? ? _ S2]; subst. unfold int_vals in I. rewrite Forall_forall in *. intros [v u] J.
  specialize (S2 _ J). specialize (I _ J). unfold vlt in S2. cbn [fst] in *. rewrite (is_int_vint v I), vcmp_int in S2. exact S2.
Qed.
Lemma line_up T : 0 < T -> forall t d, fine t -> strict d -> positive_weights d -> int_vals d ->
  (forall k, (inject_Z (wt d (vint k)) == inject_Z T * prob t k)%Q) -> Forall2 (stands T) t d.
Proof.
  intros HT. assert (TQ : (0 < inject_Z T)%Q) by exact (inject_pos T HT).
  induction t as [|[z q] t IH]; intros d [S P] SD PD ID H.
  - destruct d as [|[v w] d]; [constructor|exfalso]. inversion ID as [|? ? I1 I2]; inversion PD as [|? ? P1 P2]; subst.
    cbn [fst snd] in *. specialize (H (toZ v)). rewrite (is_int_vint v I1) in H at 1. rewrite wt_cons, Z.eqb_refl in H.
    rewrite (wt_above d _ I2) in H by (apply (strict_above _ w); [exact I2|rewrite <- (is_int_vint v I1); exact SD]).
    cbn in H. rewrite Qmult_0_r in H. apply inject_eq in H. lia.
  - inversion S as [|? ? S1 S2]; inversion P as [|? ? P1 P2]; subst. cbn [fst snd] in *.
    assert (TZ : (prob ((z, q) :: t) z == q)%Q).
    { rewrite prob_cons, Z.eqb_refl, prob_above by exact S2. ring. }
    destruct d as [|[v w] d].
    { exfalso. specialize (H z). rewrite TZ in H. cbn in H.
      assert (0 < inject_Z T * q)%Q by (apply Qmult_lt_0_compat; assumption). rewrite <- H in H0. exact (Qlt_irrefl _ H0). }
    inversion ID as [|? ? I1 I2]; inversion PD as [|? ? P3 P4]; subst. cbn [fst snd] in *.
    destruct v as [[y|m e]|u]; try discriminate I1. change (VN (NI y)) with (vint y) in *.
    pose proof (strict_above y w d I2 SD) as AB. inversion SD as [|? ? SD1 _]; subst.
    assert (WY : wt ((vint y, w) :: d) (vint y) = w).
    { rewrite wt_cons, Z.eqb_refl, (wt_above d y I2 AB). lia. }
    assert (E : y = z).
    { destruct (Z.lt_trichotomy y z) as [L|[E|L]]; [exfalso|exact E|exfalso].
      - pose proof (H y) as Hy. rewrite WY in Hy. rewrite prob_above in Hy.
        + rewrite Qmult_0_r in Hy. apply (inject_eq w 0) in Hy. lia.
        + constructor; [exact L|]. eapply Forall_impl; [|exact S2]. intros e He. cbn [fst] in *. lia.
      - pose proof (H z) as Hz. rewrite TZ in Hz. rewrite wt_above in Hz.
        + assert (0 < inject_Z T * q)%Q by (apply Qmult_lt_0_compat; assumption). rewrite <- Hz in H0. exact (Qlt_irrefl _ H0).
        + constructor; [reflexivity|exact I2].
        + constructor; [exact L|]. eapply Forall_impl; [|exact AB]. intros e He. cbn beta in *. lia. }
    subst y. constructor.
    + split; [reflexivity|]. cbn [snd]. pose proof (H z) as Hz. rewrite WY, TZ in Hz. exact Hz.
    + apply IH; [split; assumption|assumption|assumption|assumption|]. intro k. pose proof (H k) as Hk.
      rewrite wt_cons, prob_cons in Hk. destruct (Z.eqb_spec k z) as [Ek|N].
      * rewrite Ek. rewrite (wt_above d z I2 AB), (prob_above t z S2), Qmult_0_r. reflexivity.
      * rewrite Z.add_0_l in Hk. rewrite Hk. ring.
Qed.
Lemma reps_intro t d : fine t -> canon d -> positive_weights d -> int_vals d ->
  (forall k, (inject_Z (wt d (vint k)) == inject_Z (total d) * prob t k)%Q) -> reps t d.
Proof.
  intros F C P I H. pose proof (positive_total d (proj1 (proj1 C)) P) as T. constructor; try assumption.
  exact (line_up _ T t d F (proj1 (proj2 (proj1 C))) P I H).
Qed.

(** what is listed has weight *)
Definition live (l : dist) : Prop := forall k, listed (vint k) l = true -> 0 < wt l (vint k).
Lemma normal_reps c l t K : nonneg l -> int_vals l -> l <> [] -> live l -> fine t -> (0 < K)%Q ->
  (forall k, (inject_Z (wt l (vint k)) == K * prob t k)%Q) -> (inject_Z (total l) == K)%Q -> reps t (normal c l).
Proof.
  intros N I NE L F KP H HT.
  assert (TL : 0 < total l). { apply inject_pos_inv. rewrite HT. exact KP. }
  assert (NL : nothing_left c l = false) by exact (proper_something c l N TL).
  destruct (normal_mass c l NL) as [g [G M]].
  pose proof (normal_canon c l N) as C. pose proof (normal_int c l I) as IN.
  apply reps_intro; [exact F|exact C| |exact IN|].
  - unfold positive_weights, probs. apply Forall_map. apply Forall_forall. intros [v w] J. cbn [snd].
    pose proof (int_in _ v w IN J) as IV. pose proof (is_int_vint v IV) as EV.
    assert (LV : listed (vint (toZ v)) (normal c l) = true).
    { rewrite <- EV. apply listed_iff. exists (v, w). split; [exact J|apply veqb_refl]. }
    assert (WP : 0 < wt l (vint (toZ v))).
    { rewrite (normal_listed c l _ N NL) in LV. destruct (cfg_skip0 c); [lia|exact (L _ LV)]. }
    unfold wt in WP. rewrite (M _ (vresp_veqb _)) in WP. fold (wt (normal c l) (vint (toZ v))) in WP.
    rewrite <- EV in WP. pose proof (wt_strict _ _ (proj1 (proj2 (proj1 C))) J) as E. cbn [fst snd] in E. rewrite E in WP. nia.
  - intro k. pose proof (H k) as Hk. unfold wt in Hk |- *. rewrite (M _ (vresp_veqb (vint k))) in Hk.
    unfold total in HT |- *. rewrite (M _ vresp_true) in HT. rewrite inject_Z_mult in Hk, HT. rewrite <- HT in Hk.
    assert (GQ : (0 < inject_Z g)%Q) by exact (inject_pos g G).
    apply (Qmult_inj_l _ _ (inject_Z g)); [intro E; rewrite E in GQ; exact (Qlt_irrefl _ GQ)|]. rewrite Hk. ring.
Qed.

(** ** The common denominator bounds the weights *)
Definition numerator (t : table) (v : pval) : Z :=
  fold_right (fun zq s => (if veqb v (vint (fst zq)) then Qnum (snd zq) * (lcd t / Zpos (Qden (snd zq))) else 0) + s) 0 t.
Lemma lcd_divides t z q : In (z, q) t -> (Zpos (Qden q) | lcd t).
Proof.
  unfold lcd. induction t as [|[y r] t IH]; intros []; cbn [fold_right snd].
  - injection H as -> ->. apply Z.divide_lcm_l.
  - apply (Z.divide_trans _ _ _ (IH H)). apply Z.divide_lcm_r.
Qed.
Lemma lcd_pos t : 0 < lcd t.
Proof.
  unfold lcd. induction t as [|[y r] t IH]; cbn [fold_right snd]; [lia|].
  pose proof (Z.lcm_nonneg (Zpos (Qden r)) (fold_right (fun zq d => Z.lcm (Zpos (Qden (snd zq))) d) 1 t)).
  assert (Z.lcm (Zpos (Qden r)) (fold_right (fun zq d => Z.lcm (Zpos (Qden (snd zq))) d) 1 t) <> 0); [|lia].
  intro E. apply Z.lcm_eq_0 in E. lia.
Qed.
Lemma numerator_part L q : (Zpos (Qden q) | L) -> 0 < L -> (inject_Z (Qnum q * (L / Zpos (Qden q))) == inject_Z L * q)%Q.
Proof.
  intros [m ->] P. rewrite Z.div_mul by discriminate. unfold Qeq, inject_Z, Qmult. cbn [Qnum Qden]. rewrite Pos.mul_1_l. ring.
Qed.
Lemma stands_Pr T t d v : Forall2 (stands T) t d ->
  (inject_Z (wt d v) == inject_Z T * chance (fun z => veqb v (vint z)) t)%Q.
Proof.
  induction 1 as [|[z q] [u w] t d [E1 E2] _ IH]; [unfold wt; cbn; ring|]. cbn [fst snd] in *. subst u.
  unfold wt in *. cbn [mass chance]. rewrite inject_Z_plus, IH. destruct (veqb v (vint z)); [rewrite E2|]; ring.
Qed.
Lemma numerator_chance t v : (inject_Z (numerator t v) == inject_Z (lcd t) * chance (fun z => veqb v (vint z)) t)%Q.
Proof.
  unfold numerator.
  assert (X : forall L (s : table), (forall z q, In (z, q) s -> (Zpos (Qden q) | L)) -> 0 < L ->
    (inject_Z (fold_right (fun zq a => (if veqb v (vint (fst zq)) then Qnum (snd zq) * (L / Zpos (Qden (snd zq))) else 0) + a)%Z 0%Z s)
     == inject_Z L * chance (fun z => veqb v (vint z)) s)%Q).
  { intros L s. induction s as [|[z q] s IH]; intros D P; [cbn; ring|]. cbn [fold_right chance fst snd].
    rewrite inject_Z_plus, IH by (try exact P; intros y r I; exact (D y r (or_intror I))).
    destruct (veqb v (vint z)); [rewrite (numerator_part L q (D z q (or_introl eq_refl)) P)|]; ring. }
  apply X; [exact (lcd_divides t)|exact (lcd_pos t)].
Qed.
Lemma reps_total_le t d : reps t d -> total d <= lcd t.
Proof.
  intro H. pose proof (lcd_pos t) as LP. pose proof (reps_total t d H) as TP.
  apply (canon_total_le d (lcd t) (numerator t)); [exact (rp_canon t d H)|exact (reps_proper t d H)|exact LP|].
  intro v. unfold Pr. rewrite numerator_chance, (stands_Pr _ _ _ v (rp_stands t d H)).
  apply inject_pos in LP, TP. field. split; intro E.
  - rewrite E in LP. exact (Qlt_irrefl _ LP).
  - rewrite E in TP. exact (Qlt_irrefl _ TP).
Qed.
Lemma bound_limit : bound <= SUM_LIMIT.
Proof. unfold bound. vm_compute. discriminate. Qed.
Lemma reps_limit t d : reps t d -> lcd t <= bound -> prob_limit d = Ok d.
Proof. intros H B. apply prob_limit_id. pose proof (reps_total_le t d H). pose proof bound_limit. lia. Qed.
