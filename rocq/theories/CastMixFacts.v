(** A decorated function that gives dice: the law of total probability for one
    random argument, and the size of canonical weights. *)
From Coq Require Import String List ZArith QArith Qabs Bool Permutation Sorted Lia Lqa.
From Verif Require Import PyBase Num Val Sorting RVModel Obj RollModel RollSpec AtModel CastModel Spec SeqSpec LibSpec CmpFacts SortFacts MassFacts RVFacts ConstructFacts IntFacts LimitFacts OpFacts ConvFacts UnaryFacts MixFacts RollFacts RollErrFacts OrderFacts CastSpec CastFacts.
Import ListNotations.
Open Scope Z_scope.

(** *** Canonical weights are the smallest ones *)
Lemma canon_total_divides q T (W : pval -> Z) : canon q -> proper q -> T <> 0 ->
  (forall v, (Pr q v == inject_Z (W v) / inject_Z T)%Q) -> (total q | T).
Proof.
  intros [[_ [S _]] G] [N P] HT E.
  assert (G1 : gcd_list (probs q) = 1).
  { destruct G as [G|G]; [exact G|]. apply gcd_zero in G. exfalso.
    assert (Z0 : total q = 0); [|lia]. unfold total. clear -G. induction q as [|[v p] q IH]; [reflexivity|].
    inversion G; subst. cbn [mass snd] in *. rewrite IH by assumption. cbn in *. lia. }
  assert (D : forall p, In p (map (Z.mul (Z.abs T)) (probs q)) -> (total q | p)).
  { intros p I. apply in_map_iff in I. destruct I as [w [<- I]]. unfold probs in I. apply in_map_iff in I. destruct I as [[v w'] [E' I]]. cbn in E'. subst w'.
    specialize (E v). unfold Pr in E. apply frac_eq_inv in E; [|lia|exact HT]. pose proof (wt_strict q (v, w) S I) as WS. cbn [fst snd] in WS. rewrite WS in E.
    assert (DV : (total q | w * T)) by (exists (W v); exact E). apply Z.divide_abs_r in DV. rewrite Z.abs_mul in DV.
    assert (0 <= w). { pose proof (proj1 (Forall_forall _ _) N (v, w) I) as X. cbn in X. exact X. }
    rewrite (Z.abs_eq w) in DV by assumption. rewrite Z.mul_comm. exact DV. }
  apply gcd_list_greatest in D. rewrite gcd_list_scale, G1, Z.mul_1_r in D by lia. apply Z.divide_abs_r. exact D.
Qed.
Lemma canon_total_le q T (W : pval -> Z) : canon q -> proper q -> 0 < T ->
  (forall v, (Pr q v == inject_Z (W v) / inject_Z T)%Q) -> total q <= T.
Proof. intros C P HT E. apply Z.divide_pos_le; [exact HT|]. exact (canon_total_divides q T W C P ltac:(lia) E). Qed.

(** *** One random argument *)
(** arguments that reach the function as they are *)
Definition kept (s : sig) (ko : key * obj) : Prop :=
  match annotation s (fst ko), snd ko with
  | None, _ => True
  | Some AN, OV (VN _) => True
  | Some AD, ORV _ => True
  | _, _ => False
  end.
Lemma kept_passed s ko : kept s ko -> passed (annotation s (fst ko)) (snd ko) (snd ko).
Proof.
  unfold kept. destruct (annotation s (fst ko)) as [[]|], (snd ko) as [[]| | | | | | |]; intros K; try destruct K; try constructor.
Qed.
Lemma kept_receives s ko kr : kept s ko -> receives s ko kr -> kr = (fst ko, inl (snd ko)).
Proof.
  unfold kept. destruct ko as [k o], kr as [k' r]. intros K [R1 R2]. cbn [fst snd] in *. subst k'. f_equal.
  destruct (annotation s k) as [[]|], o as [[]| | | | | | |]; try destruct K; inversion R2 as [o' P|L P]; subst; inversion P; subst; reflexivity.
Qed.
Lemma kept_scenarios s rest K : Forall (kept s) rest -> Forall2 (receives s) rest K -> scenarios K = [(rest, 1)].
Proof.
  intros F R. induction R as [|ko kr rest K R1 R2 IH]; [reflexivity|]. inversion F as [|? ? F1 F2]; subst.
  rewrite (kept_receives s ko kr F1 R1). cbn [scenarios]. rewrite (IH F2). destruct ko. reflexivity.
Qed.

Section Mix.
  Variables (c : cfg) (s : sig) (f : args -> res obj) (k0 : key) (x : rv) (rest : args) (h : pval -> obj) (D : pval -> dist).
  Hypothesis T : cfg_trunc c = false.
  Hypothesis ND : NoDup (k0 :: map fst rest).
  Hypothesis A0 : annotation s k0 = Some AN.
  Hypothesis PX : proper (rv_dist x).
  Hypothesis KR : Forall (kept s) rest.
  Hypothesis HF : forall v, In v (vals (rv_dist x)) -> f ((k0, OV v) :: rest) = Ok (h v) /\ usable (h v) /\ result_law (h v) = Some (D v).
  Let cs := map (fun vw => (snd vw, D (fst vw))) (rv_dist x).

  Lemma mix_outcomes : outcomes f (map (fun vw => ((k0, OV (fst vw)) :: rest, snd vw)) (rv_dist x)) = cs.
  Proof.
    unfold cs. clear PX. induction (rv_dist x) as [|[v w] l IH]; [reflexivity|]. cbn [map outcomes fst snd].
    destruct (HF v) as (H1 & _ & H3); [left; reflexivity|]. rewrite H1, H3. f_equal. apply IH. intros u I. apply HF. right. exact I.
  Qed.
  Lemma mix_wtotal : wtotal cs = total (rv_dist x).
  Proof. unfold cs, wtotal, total. rewrite map_map. cbn [fst]. clear. induction (rv_dist x) as [|[v w] l IH]; [reflexivity|]. cbn [map mass snd]. unfold sumZ in *. cbn [fold_right]. rewrite IH. reflexivity. Qed.
  Lemma mix_average v : (mixture v cs == average (fun u => Pr (D u) v) (rv_dist x))%Q.
  Proof.
    unfold mixture, average. rewrite mix_wtotal. apply Qdiv_comp; [|reflexivity]. unfold cs. clear. induction (rv_dist x) as [|[u w] l IH]; [reflexivity|].
    cbn [map mix_num qsum fst snd]. rewrite IH. reflexivity.
  Qed.

  Lemma casting_mix : zprod (map (fun v => total (D v)) (vals (rv_dist x))) * total (rv_dist x) <= SUM_LIMIT ->
    exists q, casting c s f ((k0, ORV x) :: rest) = Ok (ORV q) /\ rv_roll q = 1 /\ rv_src q = None /\ canon (rv_dist q) /\ proper (rv_dist q) /\
      forall v, (Pr (rv_dist q) v == average (fun u => Pr (D u) v) (rv_dist x))%Q.
  Proof.
    intros L. destruct (casting_law c s f ((k0, ORV x) :: rest)) as (K & R & H); auto.
    - constructor; cbn [fst snd]; [rewrite A0; apply PX|]. eapply Forall_impl; [|exact KR]. intros ko K.
      unfold kept in K. unfold nonneg_die. destruct (annotation s (fst ko)) as [[]|], (snd ko); try exact Logic.I; destruct K.
    - constructor.
      + exists (inr (image OV (rv_dist x))). cbn [fst snd]. rewrite A0. apply received_random. constructor.
      + clear -KR. eapply Forall_impl; [|exact KR]. intros ko K. exists (inl (snd ko)). apply received_value. apply kept_passed. exact K.
    - inversion R as [|? K1 ? K' R1 R2]; subst. apply (receives_N _ _ _ _ A0) in R1. subst K1.
      assert (SC : scenarios ((k0, inr (image OV (rv_dist x))) :: K') = map (fun vw => ((k0, OV (fst vw)) :: rest, snd vw)) (rv_dist x)).
      { cbn [scenarios]. rewrite (kept_scenarios s rest K' KR R2). clear. unfold indep, image. induction (rv_dist x) as [|[v w] l IH]; [reflexivity|].
        cbn [map flat_map app fst snd] in *. rewrite IH, Z.mul_1_r. reflexivity. }
      rewrite SC in H. destruct (H eq_refl) as (_ & H2 & _).
      + intros a' w I. apply in_map_iff in I. destruct I as [[v p] [E I]]. injection E as <- <-. apply (in_map fst) in I. cbn [fst] in *.
        destruct (HF v I) as (H1 & H3 & _). exists (h v). auto.
      + cbv zeta in H2. rewrite mix_outcomes in H2. destruct H2 as (q & Q1 & Q2 & Q3 & Q4 & Q5 & Q6).
        * rewrite mix_wtotal. apply PX.
        * rewrite mix_wtotal. eapply Z.le_trans; [|exact L]. apply Z.eq_le_incl. f_equal. unfold denominators, cs, vals. rewrite !map_map. reflexivity.
        * exists q. repeat split; auto; try apply Q4; try apply Q5. intro v. rewrite Q6. apply mix_average.
  Qed.
  Lemma casting_mix_ints : (forall v, In v (vals (rv_dist x)) -> int_vals (D v)) ->
    forall q, casting c s f ((k0, ORV x) :: rest) = Ok (ORV q) -> int_vals (rv_dist q).
  Proof.
    intros HI. destruct (casting_ints c s f ((k0, ORV x) :: rest)) as (K & R & H); auto.
    - constructor; cbn [fst snd]; [rewrite A0; apply PX|]. eapply Forall_impl; [|exact KR]. intros ko K.
      unfold kept in K. unfold nonneg_die. destruct (annotation s (fst ko)) as [[]|], (snd ko); try exact Logic.I; destruct K.
    - constructor.
      + exists (inr (image OV (rv_dist x))). cbn [fst snd]. rewrite A0. apply received_random. constructor.
      + clear -KR. eapply Forall_impl; [|exact KR]. intros ko K. exists (inl (snd ko)). apply received_value. apply kept_passed. exact K.
    - inversion R as [|? K1 ? K' R1 R2]; subst. apply (receives_N _ _ _ _ A0) in R1. subst K1.
      assert (SC : scenarios ((k0, inr (image OV (rv_dist x))) :: K') = map (fun vw => ((k0, OV (fst vw)) :: rest, snd vw)) (rv_dist x)).
      { cbn [scenarios]. rewrite (kept_scenarios s rest K' KR R2). clear. unfold indep, image. induction (rv_dist x) as [|[v w] l IH]; [reflexivity|].
        cbn [map flat_map app fst snd] in *. rewrite IH, Z.mul_1_r. reflexivity. }
      rewrite SC in H. apply (H eq_refl); clear H.
      + intros a' w I. apply in_map_iff in I. destruct I as [[v p] [E I]]. injection E as <- <-. apply (in_map fst) in I. cbn [fst] in *.
        destruct (HF v I) as (H1 & H3 & _). exists (h v). auto.
      + rewrite mix_outcomes. unfold cs. apply Forall_map, Forall_forall. intros vw I. cbn [snd]. apply HI. apply (in_map fst) in I. exact I.
  Qed.
End Mix.

Lemma zprod_le (l : list Z) B : Forall (fun z => 0 <= z <= B) l -> zprod l <= B ^ Z.of_nat (length l) /\ 0 <= zprod l.
Proof.
  unfold zprod. induction 1 as [|z l [H1 H2] F [IH1 IH2]]; [cbn; lia|]. cbn [fold_right length]. rewrite Nat2Z.inj_succ, Z.pow_succ_r by lia. nia.
Qed.
