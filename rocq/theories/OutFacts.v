(** What get_vals_probs reports. *)
From Coq Require Import String List ZArith QArith Qabs Bool Permutation Sorted Lia Lqa.
From Verif Require Import PyBase Num Val Sorting RVModel OutModel Spec CmpFacts SortFacts MassFacts NumFacts RVFacts ConstructFacts ConvFacts IntFacts RoundFacts LimitFacts OpFacts MixFacts.
Import ListNotations.
Open Scope Z_scope.

Section Report.
Variable show : sval -> string.

(** ** Without a cut *)
Definition reports (e : pval * Z) (T : Z) (r : shown * num) : Prop :=
  fst r = show_val show (fst e) /\ is_int (snd r) = false /\
  nearest_double (inject_Z (snd e) / inject_Z T) (numQ (snd r)).

Lemma ratio_ok p T : 0 <= p <= T -> 0 < T ->
  exists q, ntruediv (NI p) (NI T) = Ok q /\ is_int q = false /\ nearest_double (inject_Z p / inject_Z T) (numQ q).
Proof.
  intros Hp HT. unfold ntruediv. cbn [mant]. destruct (Z.eqb_spec T 0); [lia|].
  destruct (fround_ok p T OverflowErr 1) as (r & -> & H1 & H2); [lia|apply one_double| |eauto].
  rewrite Qabs_pos; [|apply le_frac; [lia|]; rewrite Qmult_0_l; change 0%Q with (inject_Z 0); rewrite <- Zle_Qle; lia].
  apply Qle_shift_div_r; [apply inj_pos; lia|]. rewrite Qmult_1_l, <- Zle_Qle. lia.
Qed.

Lemma member_le_total (x : dist) e : nonneg x -> In e x -> snd e <= total x.
Proof.
  intros Hn H. induction Hn as [|[v p] x Hp Hn IH]; [destruct H|]. unfold total in *. cbn [mass snd] in *.
  pose proof (mass_nonneg (fun _ : pval => true) x Hn). destruct H as [<-|H]; [cbn; lia|]. specialize (IH H). lia.
Qed.

Lemma mapM_Forall2 {A B} (f : A -> res B) (R : A -> B -> Prop) l :
  (forall a, In a l -> exists b, f a = Ok b /\ R a b) -> exists l', mapM f l = Ok l' /\ Forall2 R l l'.
Proof.
  induction l as [|a l IH]; intro H; [exists []; split; [reflexivity|constructor]|].
  destruct (H a (or_introl eq_refl)) as (b & Hb & HR). destruct IH as (l' & E & F); [intros; apply H; right; assumption|].
  exists (b :: l'). cbn. rewrite Hb. cbn. rewrite E. split; [reflexivity|constructor; assumption].
Qed.

Lemma reported_ok x : nonneg x -> 0 < total x ->
  exists l, reported show x = Ok l /\ Forall2 (fun e r => reports e (total x) r) x l.
Proof.
  intros Hn HT. unfold reported. rewrite sum_probs_total. apply mapM_Forall2. intros [v p] Hin.
  pose proof (proj1 (Forall_forall _ _) Hn _ Hin) as Hp. cbn in Hp.
  assert (L : p <= total x) by (apply (member_le_total x (v, p)); assumption).
  destruct (ratio_ok p (total x)) as (q & Hq & H1 & H2); [lia|exact HT|]. cbn [fst snd]. rewrite Hq. cbn [bind].
  eexists. split; [reflexivity|]. repeat split; auto; apply H2.
Qed.

Lemma report_all x cut : proper x -> nltb (NI 0) cut = false -> nleb (NI 0) cut = true ->
  exists l, get_vals_probs show x cut = Ok l /\ Forall2 (fun e r => reports e (total x) r) x l.
Proof.
  intros [Hn HT] H0 H1. destruct (reported_ok x Hn HT) as (l & E & F). exists l. split; [|exact F].
  unfold get_vals_probs. rewrite H1. assert (H2 : nltb cut (NI 1) = true).
  { unfold nltb, nleb in *. rewrite !ncmp_Q in *. destruct (numQ (NI 0) ?= numQ cut)%Q eqn:C; try discriminate.
    apply Qeq_alt in C. destruct (numQ cut ?= numQ (NI 1))%Q eqn:D; [|reflexivity|];
      [apply Qeq_alt in D; rewrite <- C in D; discriminate | apply Qgt_alt in D; rewrite <- C in D; discriminate]. }
  rewrite H2. cbn [andb assert_]. rewrite E. cbn [bind]. rewrite H0. reflexivity.
Qed.

(** ** With a cut *)

(** float sum in order *)
Fixpoint fsum (s : num) (l : list (shown * num)) : res num :=
  match l with
  | [] => Ok s
  | y :: l' => s' <- nadd s (snd y) ;; fsum s' l'
  end.

Definition fl (n : num) : Prop := is_double (numQ n) /\ (0 <= numQ n)%Q.

Lemma nadd_fl a b : fl a -> fl b -> is_int b = false -> (numQ a + numQ b <= 4)%Q ->
  exists s, nadd a b = Ok s /\ is_int s = false /\ fl s /\ nearest_double (numQ a + numQ b) (numQ s).
Proof.
  intros [Da Pa] [Db Pb] Ib Hs.
  assert (D4 : is_double 4). { exists 4, 0. split; [reflexivity|]. split; [lia|]. reflexivity. }
  assert (TF : exists a', to_float a = Ok a' /\ (numQ a' == numQ a)%Q).
  { destruct a as [z|m e]; cbn [to_float]; [|eexists; split; reflexivity].
    pose proof (fround_spec z 1 OverflowErr) as S. assert (Z1 : 1 <> 0) by lia. specialize (S Z1).
    assert (E : (inject_Z z / inject_Z 1 == numQ (NI z))%Q) by (cbn; field).
    destruct (fround z 1 OverflowErr) as [r|e].
    - exists r. split; [reflexivity|]. destruct S as [S _]. rewrite (nearest_exact _ _ S); [exact E|].
      apply (is_double_comp _ _ (Qeq_sym _ _ E)), Da.
    - exfalso. destruct S as [_ S]. apply (no_overflow (inject_Z z / inject_Z 1) 4 D4); [|exact S].
      rewrite E, Qabs_pos by exact Pa. lra. }
  destruct TF as (a' & TF & Ea). destruct b as [|mb eb]; [discriminate|].
  assert (FA : match fadd (mant a') (expo a') mb eb with
    | Ok r => nearest_double (numQ a + numQ (NF mb eb)) (numQ r) /\ is_int r = false
    | Err _ => (inject_Z (2 ^ 1024 - 2 ^ 970) <= Qabs (numQ a + numQ (NF mb eb)))%Q end).
  { apply fadd_cases. rewrite <- Ea, (num_val a'), numQ_p2. reflexivity. }
  assert (EN : nadd a (NF mb eb) = fadd (mant a') (expo a') mb eb).
  { unfold nadd, lift2. destruct a; rewrite TF; cbn [bind to_float mant expo]; reflexivity. }
  rewrite EN. destruct (fadd (mant a') (expo a') mb eb) as [r|e].
  - exists r. destruct FA as [N I]. split; [reflexivity|]. split; [exact I|]. split; [|exact N]. split; [apply N|].
    apply (nearest_ge _ _ _ N); [apply zero_double|lra].
  - exfalso. apply (no_overflow (numQ a + numQ (NF mb eb)) 4 D4); [|exact FA]. rewrite Qabs_pos by lra. exact Hs.
Qed.

Lemma nearest_err x r : (0 <= x)%Q -> (x <= 4)%Q -> nearest_double x r -> (Qabs (r - x) <= p2 (-50))%Q.
Proof.
  intros H0 H4 N. destruct (Qlt_le_dec x (p2 (-1022))) as [L|L].
  - destruct N as [_ N]. specialize (N 0%Q zero_double). eapply Qle_trans; [exact N|].
    setoid_replace (0 - x)%Q with (- x)%Q by ring. rewrite Qabs_opp, Qabs_pos by exact H0.
    eapply Qle_trans; [apply Qlt_le_weak, L|]. apply p2_le. lia.
  - eapply Qle_trans; [apply (nearest_rel x r L)|].
    + eapply Qle_trans; [exact H4|]. apply (Qle_trans _ (p2 2)); [rewrite (p2_Z 2) by lia; discriminate|apply p2_le; lia].
    + exact N.
    + assert (K : (p2 (-50) == 8 * p2 (-53))%Q).
      { replace (-50) with (3 + -53) by lia. rewrite p2_add, (p2_Z 3) by lia. reflexivity. }
      rewrite K. pose proof (p2_pos (-53)). nra.
Qed.

Definition UNIT : Q := p2 (-50).

(** the float sum of at most 2^40 reported probabilities is close to the exact
    one *)
Lemma fsum_close l : forall (ex : list Q) s k t,
  Forall2 (fun q r => is_int (snd r) = false /\ nearest_double q (numQ (snd r)) /\ (0 <= q)%Q) ex l ->
  fl s -> (Qabs (numQ s - t) <= inject_Z k * UNIT)%Q -> 0 <= k -> k + 2 * Z.of_nat (length l) <= 2 ^ 41 ->
  (0 <= t)%Q -> (t + fold_right Qplus 0 ex <= 1)%Q ->
  exists s', fsum s l = Ok s' /\ fl s' /\
    (Qabs (numQ s' - (t + fold_right Qplus 0 ex)) <= inject_Z (k + 2 * Z.of_nat (length l)) * UNIT)%Q.
Proof.
  induction l as [|y l IH]; intros ex s k t F Hs Hc Hk Hl Ht H1.
  - inversion F; subst. exists s. split; [reflexivity|]. split; [exact Hs|]. cbn [length fold_right] in *.
    rewrite Z.mul_0_r, Z.add_0_r. rewrite Qplus_0_r. exact Hc.
  - inversion F as [|q ? ex' ? (Iy & Ny & Py) F']; subst. cbn [fold_right length] in *.
    assert (U : (inject_Z (2 ^ 41) * UNIT <= 1 # 100)%Q).
    { unfold UNIT. rewrite <- (p2_Z 41), <- p2_add by lia. replace (41 + -50) with (-(9)) by lia.
      pose proof (p2_opp 9) as O. rewrite (p2_Z 9) in O by lia. change (inject_Z (2 ^ 9)) with 512%Q in O. lra. }
    pose proof (p2_pos (-50)) as UP. fold UNIT in UP.
    assert (KU : (inject_Z k * UNIT <= inject_Z (2 ^ 41) * UNIT)%Q).
    { apply Qmult_le_compat_r; [rewrite <- Zle_Qle; lia|lra]. }
    assert (Pex : (0 <= fold_right Qplus 0 ex')%Q).
    { clear -F'. induction F' as [|q r ex l (_ & _ & P) F IH]; cbn; lra. }
    assert (Q1 : (q <= 1)%Q) by lra.
    assert (D1 := one_double).
    assert (Y1 : (numQ (snd y) <= 1)%Q) by (apply (nearest_le _ _ _ Ny D1 Q1)).
    assert (Fy : fl (snd y)). { split; [apply Ny|]. apply (nearest_ge _ _ _ Ny zero_double Py). }
    apply Qabs_Qle_condition in Hc.
    assert (S4 : (numQ s + numQ (snd y) <= 4)%Q) by lra.
    destruct (nadd_fl s (snd y) Hs Fy Iy S4) as (s' & E & Is & Fs & Ns).
    assert (Ey : (Qabs (numQ (snd y) - q) <= UNIT)%Q) by (apply nearest_err; [exact Py|lra|exact Ny]).
    assert (Es : (Qabs (numQ s' - (numQ s + numQ (snd y))) <= UNIT)%Q).
    { apply nearest_err; [|exact S4|exact Ns]. destruct Hs, Fy. lra. }
    apply Qabs_Qle_condition in Ey. apply Qabs_Qle_condition in Es.
    destruct (IH ex' s' (k + 2) (t + q)%Q F' Fs) as (r & Er & Fr & Cr); try lra; try lia.
    + apply Qabs_Qle_condition. rewrite inject_Z_plus. change (inject_Z 2) with 2%Q. lra.
    + exists r. cbn [fsum]. rewrite E. cbn [bind]. split; [exact Er|]. split; [exact Fr|].
      replace (k + 2 * Z.of_nat (S (length l))) with (k + 2 + 2 * Z.of_nat (length l)) by lia.
      apply Qabs_Qle_condition. apply Qabs_Qle_condition in Cr. lra.
Qed.

Inductive chain : num -> list (shown * num) -> Prop :=
| ch_nil s : fl s -> chain s []
| ch_cons s y l s' : fl s -> nadd s (snd y) = Ok s' -> (numQ s <= numQ s')%Q -> chain s' l -> chain s (y :: l).

Lemma fsum_chain l : forall (ex : list Q) s k t,
  Forall2 (fun q r => is_int (snd r) = false /\ nearest_double q (numQ (snd r)) /\ (0 <= q)%Q) ex l ->
  fl s -> (Qabs (numQ s - t) <= inject_Z k * UNIT)%Q -> 0 <= k -> k + 2 * Z.of_nat (length l) <= 2 ^ 41 ->
  (0 <= t)%Q -> (t + fold_right Qplus 0 ex <= 1)%Q -> chain s l.
Proof.
  induction l as [|y l IH]; intros ex s k t F Hs Hc Hk Hl Ht H1; [constructor; exact Hs|].
  inversion F as [|q ? ex' ? (Iy & Ny & Py) F']; subst. cbn [fold_right length] in *.
  assert (Pex : (0 <= fold_right Qplus 0 ex')%Q).
  { clear -F'. induction F' as [|q r ex l (_ & _ & P) F IH]; cbn; lra. }
  destruct (fsum_close [y] [q] s k t) as (s' & E & Fs & Cs); auto.
  { cbn [length]. lia. } { cbn [fold_right]. lra. }
  cbn [fsum] in E. destruct (nadd s (snd y)) as [s0|] eqn:A; cbn [bind] in E; [|discriminate]. inversion E; subst s0.
  assert (Fy : fl (snd y)). { split; [apply Ny|]. apply (nearest_ge _ _ _ Ny zero_double Py). }
  assert (U : (inject_Z (2 ^ 41) * UNIT <= 1 # 100)%Q).
  { unfold UNIT. rewrite <- (p2_Z 41), <- p2_add by lia. replace (41 + -50) with (-(9)) by lia.
    pose proof (p2_opp 9) as O. rewrite (p2_Z 9) in O by lia. change (inject_Z (2 ^ 9)) with 512%Q in O. lra. }
  pose proof (p2_pos (-50)) as UP. fold UNIT in UP.
  assert (KU : (inject_Z k * UNIT <= inject_Z (2 ^ 41) * UNIT)%Q).
  { apply Qmult_le_compat_r; [rewrite <- Zle_Qle; lia|lra]. }
  assert (Y1 : (numQ (snd y) <= 1)%Q) by (apply (nearest_le _ _ _ Ny one_double); lra).
  apply Qabs_Qle_condition in Hc.
  destruct (nadd_fl s (snd y) Hs Fy Iy) as (s1 & E1 & _ & _ & Ns); [lra|]. rewrite A in E1. inversion E1; subst s1.
  apply (ch_cons s y l s'); auto.
  - apply (nearest_ge _ _ _ Ns); [apply Hs|]. destruct Fy. lra.
  - apply (IH ex' s' (k + 2) (t + q)%Q F' Fs); try lia; try lra.
    cbn [fold_right length] in Cs. replace (k + 2) with (k + 2 * Z.of_nat 1) by lia.
    apply Qabs_Qle_condition. apply Qabs_Qle_condition in Cs. lra.
Qed.

Definition below (cut : num) (a : shown * num) : bool := nltb (snd a) cut.

Lemma nltb_Q a b : nltb a b = true <-> (numQ a < numQ b)%Q.
Proof. unfold nltb. rewrite ncmp_Q, Qlt_alt. destruct (numQ a ?= numQ b)%Q; split; congruence. Qed.

Lemma nleb_Q a b : nleb a b = true <-> (numQ a <= numQ b)%Q.
Proof. unfold nleb. rewrite ncmp_Q, Qle_alt. destruct (numQ a ?= numQ b)%Q; split; congruence. Qed.

Lemma accum_above cut sl : forall v s, chain s sl -> (numQ cut <= numQ s)%Q ->
  exists r, accum (v, s) sl = Ok r /\ filter (below cut) r = [].
Proof.
  induction sl as [|y sl IH]; intros v s C H.
  - eexists. split; [reflexivity|]. cbn. unfold below. cbn. destruct (nltb s cut) eqn:E; [|reflexivity].
    apply nltb_Q in E. lra.
  - inversion C as [|? ? ? s' Fs A M C']; subst. cbn [accum snd fst]. rewrite A. cbn [bind].
    destruct (IH (fst y) s' C') as (r & -> & Hr); [lra|]. cbn [bind]. eexists. split; [reflexivity|].
    cbn [filter]. unfold below at 1. cbn [snd]. destruct (nltb s cut) eqn:E; [apply nltb_Q in E; lra|exact Hr].
Qed.

Lemma accum_split cut sl : forall v s, chain s sl -> (numQ s < numQ cut)%Q ->
  exists r pre suf, accum (v, s) sl = Ok r /\ sl = pre ++ suf /\
    map fst (filter (below cut) r) = v :: map fst pre /\
    (exists s', fsum s pre = Ok s' /\ (numQ s' < numQ cut)%Q) /\
    (forall y suf', suf = y :: suf' -> exists s', fsum s (pre ++ [y]) = Ok s' /\ (numQ cut <= numQ s')%Q).
Proof.
  induction sl as [|y sl IH]; intros v s C H.
  - eexists. exists [], []. split; [reflexivity|]. split; [reflexivity|]. split.
    + cbn. unfold below. cbn. apply nltb_Q in H. rewrite H. reflexivity.
    + split; [exists s; split; [reflexivity|exact H]|discriminate].
  - inversion C as [|? ? ? s' Fs A M C']; subst. cbn [accum snd fst]. rewrite A. cbn [bind].
    destruct (Qlt_le_dec (numQ s') (numQ cut)) as [L|L].
    + destruct (IH (fst y) s' C' L) as (r & pre & suf & -> & -> & F & (s1 & E1 & L1) & N). cbn [bind].
      eexists. exists (y :: pre), suf. split; [reflexivity|]. split; [reflexivity|]. split; [|split].
      * cbn [filter]. unfold below at 1. cbn [snd]. pose proof (proj2 (nltb_Q _ _) H) as K. rewrite K. cbn [map fst]. rewrite F. reflexivity.
      * exists s1. cbn [fsum]. rewrite A. cbn [bind]. split; assumption.
      * intros z suf' Ez. destruct (N z suf' Ez) as (s2 & E2 & L2). exists s2. cbn [app fsum]. rewrite A. cbn [bind]. split; assumption.
    + destruct (accum_above cut sl (fst y) s' C' L) as (r & -> & F). cbn [bind].
      eexists. exists [], (y :: sl). split; [reflexivity|]. split; [reflexivity|]. split; [|split].
      * cbn [filter]. unfold below at 1. cbn [snd]. pose proof (proj2 (nltb_Q _ _) H) as K. rewrite K. cbn [map fst]. rewrite F. reflexivity.
      * exists s. split; [reflexivity|exact H].
      * intros z suf' Ez. inversion Ez; subst. exists s'. cbn [app fsum]. rewrite A. split; [reflexivity|exact L].
Qed.

Lemma Forall2_len {A B} (R : A -> B -> Prop) l m : Forall2 R l m -> length l = length m.
Proof. induction 1; cbn; congruence. Qed.

Lemma Forall2_perm {A B} (R : A -> B -> Prop) (l l' : list B) : Permutation l l' -> forall m, Forall2 R m l ->
  exists m', Permutation m m' /\ Forall2 R m' l'.
Proof.
  induction 1; intros m F.
  - inversion F; subst. exists []. split; [constructor|constructor].
  - inversion F as [|a ? m0 ? Ha F']; subst. destruct (IHPermutation m0 F') as (m' & P & F2).
    exists (a :: m'). split; [constructor; exact P|constructor; assumption].
  - inversion F as [|a ? m0 ? Ha F']; subst. inversion F' as [|b ? m1 ? Hb F2]; subst.
    exists (b :: a :: m1). split; [constructor|repeat constructor; assumption].
  - destruct (IHPermutation1 m F) as (m1 & P1 & F1). destruct (IHPermutation2 m1 F1) as (m2 & P2 & F2).
    exists m2. split; [eapply Permutation_trans; eassumption|exact F2].
Qed.

Definition distinct_text (x : dist) : Prop :=
  forall s t, In (VS s) (vals x) -> In (VS t) (vals x) -> show s = show t -> veqb (VS s) (VS t) = true.

Lemma shown_inj x a b : distinct_text x -> In a (vals x) -> In b (vals x) ->
  shown_eqb (show_val show a) (show_val show b) = true -> veqb a b = true.
Proof.
  intros D Ha Hb H. destruct a as [n|s], b as [m|t]; cbn in H; try discriminate.
  - unfold veqb, vcmp. unfold neqb in H. exact H.
  - apply D; try assumption. apply String.eqb_eq, H.
Qed.

Lemma shown_refl v : shown_eqb v v = true.
Proof. destruct v; cbn; [unfold neqb; rewrite (lw_refl _ ncmp_lawful); reflexivity|apply String.eqb_refl]. Qed.

Lemma shown_zero v : shown_eqb (show_val show v) (ShN (NI 0)) = veqb v (vint 0).
Proof. destruct v as [n|s]; reflexivity. Qed.

Lemma filter_Forall2 {A B} (R : A -> B -> Prop) (f : A -> bool) (g : B -> bool) l m :
  Forall2 R l m -> (forall a b, In a l -> R a b -> f a = g b) -> Forall2 R (filter f l) (filter g m).
Proof.
  induction 1 as [|a b l m H F IH]; intro E; cbn; [constructor|]. rewrite (E a b (or_introl eq_refl) H).
  destruct (g b); [constructor; [exact H|]|]; apply IH; intros; apply E; auto; right; assumption.
Qed.

Lemma strict_member_eq (x : dist) a b : strict x -> In a x -> In b x -> veqb (fst a) (fst b) = true -> a = b.
Proof.
  intros Hs Ha Hb E. induction Hs as [|e x Hs IH F]; [destruct Ha|]. rewrite Forall_forall in F.
  destruct Ha as [->|Ha], Hb as [->|Hb]; auto.
  - specialize (F _ Hb). unfold vlt in F. apply veqb_cmp in E. congruence.
  - specialize (F _ Ha). unfold vlt in F. rewrite veqb_sym in E. apply veqb_cmp in E. congruence.
Qed.

Lemma strict_NoDup (x : dist) : strict x -> NoDup x.
Proof.
  induction 1 as [|e x Hs IH F]; constructor; [|exact IH]. intro H. rewrite Forall_forall in F. specialize (F _ H).
  unfold vlt in F. rewrite (lw_refl _ vcmp_lawful) in F. discriminate.
Qed.

Definition share (T : Z) (e : pval * Z) : Q := (inject_Z (snd e) / inject_Z T)%Q.

Lemma share_sum T (l : dist) : 0 < T -> (fold_right Qplus 0 (map (share T) l) == inject_Z (total l) / inject_Z T)%Q.
Proof.
  intro HT. induction l as [|[v p] l IH]; cbn [map fold_right]; [unfold total; cbn; field; apply inject_Z_nonzero; lia|].
  rewrite IH. unfold share, total. cbn [mass snd]. rewrite inject_Z_plus. field. apply inject_Z_nonzero; lia.
Qed.

Definition SLACK (x : dist) : Q := (inject_Z (2 * Z.of_nat (length x) + 2) * p2 (-50))%Q.

Lemma sorted_app_le {A} (R : A -> A -> Prop) l1 l2 a b : StronglySorted R (l1 ++ l2) -> In a l1 -> In b l2 -> R a b.
Proof.
  induction l1 as [|x l1 IH]; intros H Ha Hb; [destruct Ha|]. cbn in H. inversion H as [|? ? H1 H2]; subst.
  destruct Ha as [->|Ha]; [|apply IH; assumption]. rewrite Forall_forall in H2. apply H2, in_or_app. right. exact Hb.
Qed.

Lemma report_cut x cut : wf x -> 0 < total x -> distinct_text x ->
  (0 < numQ cut < 1)%Q -> Z.of_nat (length x) < 2 ^ 40 ->
  exists out gone,
    get_vals_probs show x cut = Ok out /\
    Forall2 (fun e r => reports e (total x) r) (filter (fun e => negb (gone (fst e) || veqb (fst e) (vint 0))) x) out /\
    (PrP gone x < numQ cut + SLACK x)%Q /\
    (forall e, In e x -> gone (fst e) = false -> (numQ cut - SLACK x <= PrP gone x + share (total x) e)%Q) /\
    (forall e e', In e x -> In e' x -> gone (fst e) = true -> gone (fst e') = false ->
       (share (total x) e <= share (total x) e' + 2 * p2 (-50))%Q).
Proof.
  intros (Hne & Hs & Hn) HT HD [C0 C1] HL. set (T := total x) in *.
  destruct (reported_ok x Hn HT) as (l & E & F). fold T in F.
  set (sl := isort prob_leb l).
  assert (PL : Permutation l sl) by (apply isort_perm).
  assert (SS : StronglySorted (fun a b => prob_leb a b = true) sl).
  { apply isort_sorted.
    - intros a b. unfold prob_leb. rewrite !nleb_Q. destruct (Qlt_le_dec (numQ (snd a)) (numQ (snd b))); [left|right]; lra.
    - intros a b c. unfold prob_leb. rewrite !nleb_Q. lra. }
  destruct (Forall2_perm _ _ _ PL _ F) as (ex & PX & FX).
  assert (NX : nonneg ex) by (eapply nonneg_perm; eassumption).
  assert (TX : total ex = T) by (symmetry; apply mass_perm, PX).
  assert (LX : length ex = length x) by (symmetry; apply Permutation_length, PX).
  assert (LS : length sl = length x) by (rewrite <- LX; symmetry; eapply Forall2_len, FX).
  assert (share_nonneg : forall e, In e ex -> (0 <= share T e)%Q).
  { intros e He. unfold share. apply le_frac; [exact HT|]. rewrite Qmult_0_l. change 0%Q with (inject_Z 0).
    rewrite <- Zle_Qle. exact (proj1 (Forall_forall _ _) NX _ He). }
  assert (conv : forall exl sll, Forall2 (fun e r => reports e T r) exl sll -> (forall e, In e exl -> In e ex) ->
    Forall2 (fun q r => is_int (snd r) = false /\ nearest_double q (numQ (snd r)) /\ (0 <= q)%Q) (map (share T) exl) sll).
  { intros exl sll FF. induction FF as [|e r exl sll (_ & I & N) FF IH]; intro Sub; cbn; constructor.
    - split; [exact I|]. split; [exact N|]. apply share_nonneg, Sub. left. reflexivity.
    - apply IH. intros; apply Sub; right; assumption. }
  assert (F0 : fl (NI 0)) by (split; [apply zero_double|apply Qle_refl]).
  assert (Z0 : (Qabs (numQ (NI 0) - 0) <= inject_Z 0 * UNIT)%Q) by (cbn; rewrite Qmult_0_l; discriminate).
  assert (sumle : forall exl exr, Permutation (exl ++ exr) ex -> (0 + fold_right Qplus 0 (map (share T) exl) <= 1)%Q).
  { intros exl exr P. rewrite Qplus_0_l, share_sum by exact HT. apply Qle_shift_div_r; [apply inj_pos, HT|].
    rewrite Qmult_1_l, <- Zle_Qle. assert (K : total (exl ++ exr) = T) by (rewrite <- TX; apply mass_perm, P).
    rewrite total_app in K. assert (0 <= total exr); [|lia].
    apply mass_nonneg. assert (NN : nonneg (exl ++ exr)) by (eapply nonneg_perm; [apply Permutation_sym, P|exact NX]).
    apply Forall_app in NN. apply NN. }
  assert (CH : chain (NI 0) sl).
  { apply (fsum_chain sl (map (share T) ex) (NI 0) 0 0); try assumption; try lia; try lra.
    - apply conv; [exact FX|auto].
    - apply (sumle ex []). rewrite app_nil_r. apply Permutation_refl. }
  destruct (accum_split cut sl (ShN (NI 0)) (NI 0) CH C0) as (r & pre & suf & EA & ES & EF & (s1 & E1 & L1) & NX1).
  rewrite ES in FX. apply Forall2_app_inv_r in FX as (exp & exs & FP & FS & EX). subst ex.
  set (gone := fun v => existsb (fun e => veqb v (fst e)) exp).
  exists (filter (fun a => negb (existsb (shown_eqb (fst a)) (ShN (NI 0) :: map fst pre))) l), gone.
  assert (members : forall e, In e x <-> In e exp \/ In e exs).
  { intro e. rewrite <- in_app_iff. split; apply Permutation_in; [exact PX|apply Permutation_sym, PX]. }
  assert (ND : NoDup (exp ++ exs)) by (eapply Permutation_NoDup; [exact PX|apply strict_NoDup, Hs]).
  assert (gone_exp : forall e, In e exp -> gone (fst e) = true).
  { intros e He. apply existsb_exists. exists e. split; [exact He|apply veqb_refl]. }
  assert (gone_exs : forall e, In e exs -> gone (fst e) = false).
  { intros e He. destruct (gone (fst e)) eqn:G; [|reflexivity]. exfalso. apply existsb_exists in G as (e' & He' & Q).
    assert (e = e') by (apply (strict_member_eq x); auto; apply members; auto). subst e'.
    clear -ND He He'. induction exp as [|a exp IH]; [destruct He'|]. cbn in ND. inversion ND; subst.
    destruct He' as [->|He']; [apply H1, in_or_app; right; exact He|]. apply IH; assumption. }
  assert (gone_mass : mass gone x = total exp).
  { rewrite (mass_perm gone _ _ PX), mass_app. rewrite (mass_false gone exs); [|intros a w Ha; apply (gone_exs (a, w) Ha)].
    rewrite Z.add_0_r. unfold total. apply mass_ext. intros a w Ha. apply (gone_exp (a, w) Ha). }
  assert (PG : (PrP gone x == fold_right Qplus 0 (map (share T) exp))%Q).
  { rewrite share_sum by exact HT. unfold PrP. rewrite gone_mass. reflexivity. }
  assert (Lpre : (length pre <= length x)%nat) by (rewrite <- LS, ES, app_length; lia).
  pose proof (p2_pos (-50)) as UP.
  assert (report_of : forall exl sll e, Forall2 (fun e r => reports e T r) exl sll -> In e exl ->
            exists r, In r sll /\ reports e T r).
  { intros exl sll e FF H. induction FF as [|a b exl sll H0 FF IH]; [destruct H|]. destruct H as [->|H].
    - exists b. split; [left; reflexivity|exact H0].
    - destruct (IH H) as (r1 & ? & ?). exists r1. split; [right|]; assumption. }
  assert (order_close : forall e e' r1 r2, In e x -> In e' x -> reports e T r1 -> reports e' T r2 -> prob_leb r1 r2 = true ->
            (share T e <= share T e' + 2 * p2 (-50))%Q).
  { intros e e' r1 r2 He He' (_ & _ & N1) (_ & _ & N2) O. unfold prob_leb in O. apply nleb_Q in O.
    assert (B : forall e, In e x -> (0 <= share T e)%Q /\ (share T e <= 1)%Q).
    { intros a Ha. assert (Ha' : In a (exp ++ exs)) by (eapply Permutation_in; eassumption). split; [apply share_nonneg, Ha'|].
      unfold share. apply Qle_shift_div_r; [apply inj_pos, HT|]. rewrite Qmult_1_l, <- Zle_Qle. apply member_le_total; assumption. }
    destruct (B e He), (B e' He').
    assert (A1 : (Qabs (numQ (snd r1) - share T e) <= p2 (-50))%Q) by (apply nearest_err; [assumption|lra|exact N1]).
    assert (A2 : (Qabs (numQ (snd r2) - share T e') <= p2 (-50))%Q) by (apply nearest_err; [assumption|lra|exact N2]).
    apply Qabs_Qle_condition in A1. apply Qabs_Qle_condition in A2. lra. }
  split; [|split; [|split; [|split]]].
  - unfold get_vals_probs. replace (nleb (NI 0) cut && nltb cut (NI 1)) with true.
    + cbn [assert_]. rewrite E. cbn [bind]. replace (nltb (NI 0) cut) with true by (symmetry; apply nltb_Q; exact C0).
      fold sl. rewrite EA. cbn [bind]. change (fun a => nltb (snd a) cut) with (below cut).
      change (fun a : shown * num => nltb (snd a) cut) with (below cut). rewrite EF. reflexivity.
    + symmetry. apply andb_true_iff. rewrite nleb_Q, nltb_Q. cbn [numQ]. change (inject_Z 0) with 0%Q. change (inject_Z 1) with 1%Q. split; lra.
  - apply (filter_Forall2 _ _ _ _ _ F). intros e r0 He (HR & _). f_equal. rewrite HR.
    cbn [existsb]. rewrite shown_zero. rewrite (orb_comm (gone _)). f_equal.
    apply eq_true_iff_eq. unfold gone. rewrite !existsb_exists. split.
    + intros (e' & He' & Q). assert (K : exists r1, In r1 pre /\ reports e' T r1).
      { clear -FP He'. induction FP as [|a b exp pre H FP IH]; [destruct He'|]. destruct He' as [->|He'].
        - exists b. split; [left; reflexivity|exact H].
        - destruct (IH He') as (r1 & ? & ?). exists r1. split; [right|]; assumption. }
      destruct K as (r1 & H1 & (H2 & _)). exists (fst r1). split; [apply in_map, H1|]. rewrite H2.
      assert (e = e') by (apply (strict_member_eq x); auto; apply members; auto). subst e'. apply shown_refl.
    + intros (sh & Hsh & Q). apply in_map_iff in Hsh as (r1 & <- & H1).
      assert (K : exists e1, In e1 exp /\ reports e1 T r1).
      { clear -FP H1. induction FP as [|a b exp pre H FP IH]; [destruct H1|]. destruct H1 as [->|H1].
        - exists a. split; [left; reflexivity|exact H].
        - destruct (IH H1) as (e1 & ? & ?). exists e1. split; [right|]; assumption. }
      destruct K as (e1 & H2 & (H3 & _)). exists e1. split; [exact H2|]. rewrite H3 in Q.
      apply (shown_inj x); auto; unfold vals; apply in_map; [exact He|apply members; auto].
  - rewrite PG. destruct (fsum_close pre (map (share T) exp) (NI 0) 0 0) as (s' & Es & _ & Cl); try assumption; try lia; try lra.
    + apply conv; [exact FP|intros; apply in_or_app; auto].
    + apply (sumle exp exs), Permutation_refl.
    + rewrite E1 in Es. inversion Es; subst s'. apply Qabs_Qle_condition in Cl. rewrite Z.add_0_l, Qplus_0_l in Cl.
      assert (K : (inject_Z (2 * Z.of_nat (length pre)) * UNIT <= SLACK x)%Q).
      { unfold SLACK. apply Qmult_le_compat_r; [rewrite <- Zle_Qle; lia|lra]. }
      lra.
  - intros e He Ge. assert (Hes : In e exs). { apply members in He as [He|He]; [rewrite (gone_exp e He) in Ge; discriminate|exact He]. }
    destruct suf as [|y suf']; [inversion FS; subst; destruct Hes|].
    destruct (NX1 y suf' eq_refl) as (s2 & E2 & L2).
    inversion FS as [|e0 ? exs' ? R0 FS']; subst.
    assert (FP2 : Forall2 (fun e r => reports e T r) (exp ++ [e0]) (pre ++ [y])) by (apply Forall2_app; [exact FP|constructor; [exact R0|constructor]]).
    assert (PE : Permutation ((exp ++ [e0]) ++ exs') (exp ++ e0 :: exs')) by (rewrite <- app_assoc; apply Permutation_refl).
    destruct (fsum_close (pre ++ [y]) (map (share T) (exp ++ [e0])) (NI 0) 0 0) as (s' & Es & _ & Cl); try assumption; try lia; try lra.
    + apply conv; [exact FP2|]. intros a Ha. eapply Permutation_in; [exact PE|]. apply in_or_app. left. exact Ha.
    + rewrite <- (Forall2_len _ _ _ FP2). assert ((length (exp ++ [e0]) <= length x)%nat); [|lia].
      rewrite <- LX, <- (Permutation_length PE), (app_length (exp ++ [e0]) exs'). lia.
    + apply (sumle _ _ PE).
    + rewrite E2 in Es. inversion Es; subst s'. apply Qabs_Qle_condition in Cl. rewrite Z.add_0_l, Qplus_0_l in Cl.
      assert (SE : (fold_right Qplus 0 (map (share T) (exp ++ [e0])) == PrP gone x + share T e0)%Q).
      { rewrite PG. rewrite !share_sum by exact HT. rewrite total_app. unfold share, total. destruct e0 as [v0 p0]. cbn [mass snd].
        rewrite !inject_Z_plus. field. apply inject_Z_nonzero; lia. }
      rewrite SE in Cl.
      assert (K : (inject_Z (2 * Z.of_nat (length (pre ++ [y]))) * UNIT <= inject_Z (2 * Z.of_nat (length x)) * p2 (-50))%Q).
      { apply Qmult_le_compat_r; [|lra]. rewrite <- Zle_Qle. rewrite <- (Forall2_len _ _ _ FP2).
        assert ((length (exp ++ [e0]) <= length x)%nat); [|lia]. rewrite <- LX, <- (Permutation_length PE), (app_length (exp ++ [e0]) exs'). lia. }
      assert (KS : (SLACK x == inject_Z (2 * Z.of_nat (length x)) * p2 (-50) + 2 * p2 (-50))%Q).
      { unfold SLACK. rewrite inject_Z_plus. change (inject_Z 2) with 2%Q. ring. }
      assert (O : (share T e0 <= share T e + 2 * p2 (-50))%Q).
      { destruct Hes as [->|Hes]; [lra|]. destruct (report_of _ _ _ FS' Hes) as (r1 & H1 & H2). apply (order_close e0 e y r1); auto.
        - apply members. right. left. reflexivity.
        - rewrite ES in SS. clear -SS H1. apply (sorted_app_le (fun a b => prob_leb a b = true) (pre ++ [y]) suf'); [rewrite <- app_assoc; exact SS|apply in_or_app; right; left; reflexivity|exact H1]. }
      lra.
  - intros e e' He He' Ge Ge'.
    assert (H1 : In e exp). { apply members in He as [He|He]; [exact He|rewrite (gone_exs e He) in Ge; discriminate]. }
    assert (H2 : In e' exs). { apply members in He' as [He'|He']; [rewrite (gone_exp e' He') in Ge'; discriminate|exact He']. }
    destruct (report_of _ _ _ FP H1) as (r1 & K1 & K2). destruct (report_of _ _ _ FS H2) as (r2 & K3 & K4).
    apply (order_close e e' r1 r2); auto.
    rewrite ES in SS. exact (sorted_app_le _ _ _ _ _ SS K1 K3).
Qed.
End Report.

Lemma shares_add_up (x : dist) : 0 < total x ->
  (fold_right Qplus 0 (map (fun e => inject_Z (snd e) / inject_Z (total x)) x) == 1)%Q.
Proof. intro H. rewrite (share_sum (total x) x H). field. apply inject_Z_nonzero. lia. Qed.
