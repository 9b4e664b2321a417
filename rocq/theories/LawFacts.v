(** The law of a decorated function whose arguments follow given laws. *)
From Coq Require Import String List ZArith QArith Qabs Bool Permutation Sorted Lia.
From Verif Require Import PyBase Num Val Sorting RVModel Obj RollModel RollSpec AtModel CastModel Spec SeqSpec LibSpec CmpFacts SortFacts MassFacts RVFacts ConstructFacts IntFacts LimitFacts OpFacts ConvFacts UnaryFacts MixFacts RollFacts OrderFacts ExpandFacts SelectFacts CastSpec CastFacts.
Import ListNotations.
Open Scope Z_scope.

(** what an argument supplies to a parameter *)
Inductive supplies : ann -> obj -> list (obj * Z) -> Prop :=
| supplies_N o D : num_law o D -> supplies AN o (image OV D)
| supplies_S o D : seq_law o D -> supplies AS o (image OSeq D).

(** the kind of value a parameter receives *)
Definition fits (e : ann) (v : obj) : Prop :=
  match e with
  | AN => exists n, v = OV (VN n)
  | AS => exists l, v = OSeq l /\ numbers l
  | _ => False
  end.

(** all combinations, independently *)
Fixpoint combos (Ls : list (list (obj * Z))) : list (list obj * Z) :=
  match Ls with
  | [] => [([], 1)]
  | L :: Ls' => map (fun xy => (fst (fst xy) :: snd (fst xy), snd xy)) (indep L (combos Ls'))
  end.

Lemma mass_map_fst {A B} (f : A -> B) Q (l : list (A * Z)) : mass Q (map (fun xy => (f (fst xy), snd xy)) l) = mass (fun a => Q (f a)) l.
Proof. exact (mass_image f Q l). Qed.

Lemma mass_indep_swap {A B} P (a : list (A * Z)) (b : list (B * Z)) :
  mass P (indep a b) = wsum (fun y => mass (fun x => P (x, y)) a) b.
Proof.
  induction a as [|[x p] a IH].
  - cbn. induction b as [|[y q] b IH]; [reflexivity|]. cbn. exact IH.
  - change (indep ((x, p) :: a) b) with (map (fun y => ((x, fst y), p * snd y)) b ++ indep a b). rewrite mass_app, IH. clear IH.
    rewrite (mass_map_const P (fun y => (x, y)) p). induction b as [|[y q] b IH]; [cbn; lia|]. cbn [mass wsum fst snd].
    cbn [mass] in IH. destruct (P (x, y)); lia.
Qed.
Lemma mass_indep_l {A B} (a a' : list (A * Z)) (b : list (B * Z)) : (forall P, mass P a = mass P a') ->
  forall P, mass P (indep a b) = mass P (indep a' b).
Proof.
  intros H P. rewrite !mass_indep_swap. induction b as [|[y q] b IH]; [reflexivity|]. cbn [wsum]. rewrite H, IH. reflexivity.
Qed.

Definition spec_arg : Type := (key * (ann * (obj * list (obj * Z))))%type.
Definition sa_key (x : spec_arg) : key := fst x.
Definition sa_ann (x : spec_arg) : ann := fst (snd x).
Definition sa_obj (x : spec_arg) : obj := fst (snd (snd x)).
Definition sa_law (x : spec_arg) : list (obj * Z) := snd (snd (snd x)).

Definition well_spec (s : sig) (x : spec_arg) : Prop :=
  annotation s (sa_key x) = Some (sa_ann x) /\ supplies (sa_ann x) (sa_obj x) (sa_law x).
Definition as_arg (x : spec_arg) : key * obj := (sa_key x, sa_obj x).

(** the enumeration the decorator makes carries the law of the argument *)
Definition carries (x : spec_arg) (kr : key * (obj + list (obj * Z))) : Prop :=
  fst kr = sa_key x /\ is_random kr = is_die (sa_obj x) /\
  match snd kr with
  | inl o => sa_law x = [(o, 1)] /\ fits (sa_ann x) o
  | inr L => (forall Q, mass Q L = mass Q (sa_law x)) /\ Forall (fun ow => fits (sa_ann x) (fst ow)) L
  end.

Lemma numbers_in l v : numbers l -> In v l -> exists n, v = VN n.
Proof. intros H I. pose proof (proj1 (Forall_forall _ _) H v I) as X. cbn in X. destruct v as [n|t]; [exists n; reflexivity|discriminate]. Qed.

Lemma supplies_carries s x kr : well_spec s x -> receives s (as_arg x) kr -> carries x kr.
Proof.
  destruct x as [k [e [o L]]]. intros [A S] [R1 R2]. unfold as_arg, sa_key, sa_ann, sa_obj, sa_law in *. cbn [fst snd] in *.
  destruct kr as [k' r]. cbn [fst snd] in *. subst k'. rewrite A in R2. unfold carries, is_random, sa_key, sa_ann, sa_obj, sa_law. cbn [fst snd].
  inversion S as [o0 D NL|o0 D SL]; subst.
  - inversion NL as [n|y P N]; subst.
    + inversion R2 as [o' P0 E|L0 P0 E]; subst; inversion P0; subst. repeat split; auto. exists n. reflexivity.
    + inversion R2 as [o' P0 E|L0 P0 E]; subst; inversion P0; subst. repeat split; auto. apply Forall_forall. intros [v w] I.
      apply in_image in I. destruct I as (u & I & ->). apply (in_map fst) in I. destruct (numbers_in _ _ N I) as [n E]. cbn in E. subst u. exists n. reflexivity.
  - inversion SL as [l N|z|y P ST N RO]; subst.
    + inversion R2 as [o' P0 E|L0 P0 E]; subst; inversion P0; subst. repeat split; auto. exists l. auto.
    + inversion R2 as [o' P0 E|L0 P0 E]; subst; inversion P0; subst. repeat split; auto. exists [vint z]. split; [reflexivity|]. repeat constructor.
    + inversion R2 as [o' P0 E|L0 P0 E]; subst; [inversion P0|]. inversion P0 as [|x' L2 NU' S' RO' SR X1 X2 X3]; subst. repeat split.
      * intros Q. rewrite !mass_image. exact (sorted_rolls_mass _ _ L2 (fun t => Q (OSeq t)) ST SR).
      * apply Forall_forall. intros [v w] I. apply in_image in I. destruct I as (t & I & ->). apply (in_map fst) in I. cbn [fst] in *.
        apply (proj1 (proj2 SR)) in I. destruct I as (_ & F & _). exists t. split; [reflexivity|]. apply Forall_forall. intros v I.
        pose proof (proj1 (Forall_forall _ _) F v I) as IV. cbn in IV. exact (proj1 (Forall_forall _ _) N v IV).
Qed.

Lemma carries_scenarios sp K : Forall2 carries sp K ->
  (forall Q, mass Q (scenarios K) = mass (fun vs => Q (combine (map sa_key sp) vs)) (combos (map sa_law sp))) /\
  (forall a w, In (a, w) (scenarios K) -> exists vs, a = combine (map sa_key sp) vs /\ Forall2 fits (map sa_ann sp) vs) /\
  existsb is_random K = existsb (fun x => is_die (sa_obj x)) sp.
Proof.
  induction 1 as [|x kr sp K C F IH].
  - repeat split.
    intros a w [E|[]]. injection E as <- <-. exists []. split; [reflexivity|constructor].
  - destruct IH as (IM & IS & IR). destruct C as (C1 & C2 & C3). split; [|split].
    + intros Q. destruct kr as [k r]. cbn [fst snd] in *. subst k. cbn [map combos].
      rewrite (mass_map_fst (fun xy : obj * list obj => fst xy :: snd xy) (fun vs => Q (combine (sa_key x :: map sa_key sp) vs))). cbn [combine].
      destruct r as [o|L]; cbn [snd] in *.
      * destruct C3 as [-> _]. cbn [scenarios].
        rewrite (mass_map_fst (fun a => (sa_key x, o) :: a) Q). rewrite IM. unfold indep. cbn [flat_map]. rewrite app_nil_r. cbn [fst snd].
        rewrite (mass_map_const _ (fun y => (o, y)) 1). cbn [fst snd]. lia.
      * destruct C3 as [CM _]. rewrite scenarios_random_mass.
        rewrite (mass_indep_l L (sa_law x) _ CM).
        transitivity (mass (fun xa : obj * args => Q ((sa_key x, fst xa) :: snd xa)) (indep (sa_law x) (image (combine (map sa_key sp)) (combos (map sa_law sp))))).
        -- apply mass_indep_r. intros P. rewrite IM, mass_image. reflexivity.
        -- rewrite !mass_indep_swap. unfold image. clear IM. induction (combos (map sa_law sp)) as [|[vs w] l IHl]; [reflexivity|].
           cbn [map wsum fst snd] in *. f_equal. exact IHl.
    + intros a w I. destruct kr as [k r]. cbn [fst snd] in *. subst k. destruct r as [o|L]; cbn [snd scenarios] in *.
      * destruct C3 as [_ CF]. apply in_map_iff in I. destruct I as [[a0 w0] [E I]]. injection E as <- <-. destruct (IS _ _ I) as (vs & -> & FV).
        exists (o :: vs). split; [reflexivity|]. constructor; assumption.
      * destruct C3 as [_ CF]. apply in_map_iff in I. destruct I as [[[o a0] w0] [E I]]. injection E as <- <-. apply in_indep in I.
        destruct I as (p & q & I1 & I2 & _). destruct (IS _ _ I2) as (vs & -> & FV). exists (o :: vs). split; [reflexivity|].
        constructor; [|exact FV]. exact (proj1 (Forall_forall _ _) CF _ I1).
    + cbn [existsb]. rewrite C2, IR. reflexivity.
Qed.

Lemma well_spec_acceptable s x : well_spec s x -> acceptable s (as_arg x).
Proof.
  intros [A S]. unfold acceptable, as_arg. cbn [fst snd]. rewrite A. destruct x as [k [e [o L]]].
  unfold sa_ann, sa_obj, sa_law in *. cbn [fst snd] in *. inversion S as [o0 D NL|o0 D SL]; subst.
  - inversion NL; subst; eexists; [apply received_value|apply received_random]; constructor.
  - inversion SL as [l N|z|y P ST N RO]; subst.
    + eexists. apply received_value. constructor.
    + eexists. apply received_value. apply passed_S_int.
    + destruct (roll_seqs_numbers y N ST RO) as (L0 & _ & SR). exists (inr (image OSeq L0)). apply received_random. constructor; assumption.
Qed.

Lemma well_spec_nonneg s x : well_spec s x -> nonneg_die (annotation s (fst (as_arg x))) (snd (as_arg x)).
Proof.
  intros [A S]. unfold as_arg. cbn [fst snd]. rewrite A. destruct x as [k [e [o L]]].
  unfold sa_ann, sa_obj, sa_law in *. cbn [fst snd] in *. inversion S as [o0 D NL|o0 D SL]; subst.
  - inversion NL as [n|y P N]; subst; [exact Logic.I|]. apply P.
  - inversion SL as [l N|z|y P ST N RO]; subst; [exact Logic.I|exact Logic.I|]. apply P.
Qed.

(** the general law: a function of independent arguments *)
Theorem casting_supplied c s f sp g : cfg_trunc c = false -> NoDup (map sa_key sp) -> Forall (well_spec s) sp ->
  existsb (fun x => is_die (sa_obj x)) sp = true ->
  (forall vs, Forall2 fits (map sa_ann sp) vs -> f (combine (map sa_key sp) vs) = Ok (OV (g vs))) ->
  0 < total (combos (map sa_law sp)) <= SUM_LIMIT ->
  exists q, casting c s f (map as_arg sp) = Ok (ORV q) /\ rv_roll q = 1 /\ rv_src q = None /\ canon (rv_dist q) /\ proper (rv_dist q) /\
    same_law (rv_dist q) (image g (combos (map sa_law sp))).
Proof.
  intros T ND W R HF [L1 L2].
  destruct (casting_values c s f (map as_arg sp)) as (K & FK & H); auto.
  - rewrite map_map. cbn [fst as_arg]. exact ND.
  - apply Forall_forall. intros ko I. apply in_map_iff in I. destruct I as [x [<- I]]. apply well_spec_nonneg. exact (proj1 (Forall_forall _ _) W x I).
  - apply Forall_forall. intros ko I. apply in_map_iff in I. destruct I as [x [<- I]]. apply well_spec_acceptable. exact (proj1 (Forall_forall _ _) W x I).
  - assert (CA : Forall2 carries sp K).
    { clear -W FK. revert K FK. induction sp as [|x sp IH]; intros K FK; inversion FK; subst; constructor.
      - apply (supplies_carries s); [inversion W; assumption|assumption].
      - apply IH; [inversion W; assumption|assumption]. }
    destruct (carries_scenarios _ _ CA) as (MS & IS & RK).
    assert (TK : total (scenarios K) = total (combos (map sa_law sp))) by (unfold total; apply MS).
    destruct (H (eq_trans RK R) (fun a => g (map snd a))) as (q & Q1 & Q2 & Q3 & Q4 & Q5 & Q6).
    + intros a' w I. destruct (IS _ _ I) as (vs & -> & FV).
      assert (E : map snd (combine (map sa_key sp) vs) = vs).
      { clear -FV. revert vs FV. induction sp as [|x sp IH]; intros vs FV; inversion FV; subst; [reflexivity|]. cbn. f_equal. apply IH. assumption. }
      rewrite E. apply HF. exact FV.
    + lia.
    + lia.
    + exists q. repeat split; auto; try apply Q4; try apply Q5. eapply same_law_trans; [exact Q6|].
      apply same_law_masses. intros Q. rewrite !mass_image, MS.
      assert (EM : forall vs w, In (vs, w) (combos (map sa_law sp)) -> length vs = length sp).
      { clear. induction sp as [|x sp IH]; intros vs w I.
        - destruct I as [E|[]]. injection E as <- <-. reflexivity.
        - cbn [map combos] in I. apply in_map_iff in I. destruct I as [[[o v] w0] [E I]]. injection E as <- <-. apply in_indep in I.
          destruct I as (p & q & _ & I & _). cbn. f_equal. exact (IH _ _ I). }
      apply mass_ext. intros vs w I. f_equal. f_equal.
      specialize (EM _ _ I). clear -EM. revert vs EM. induction sp as [|x sp IH]; intros [|v vs] E; try discriminate; [reflexivity|].
      cbn. f_equal. apply IH. cbn in E. lia.
Qed.

(** *** One and two arguments *)
Definition unV (o : obj) : pval := match o with OV v => v | _ => vint 0 end.
Definition unS (o : obj) : list pval := match o with OSeq l => l | _ => [] end.

Section Args.
  Variables (c : cfg) (s : sig) (f : args -> res obj).
  Hypothesis T : cfg_trunc c = false.

  Lemma one_arg {A} e o (i : A -> obj) (un : obj -> A) (D : list (A * Z)) (g : A -> pval) :
    (forall x, un (i x) = x) -> (forall v, fits e v -> v = i (un v)) ->
    annotation s (KPos 0) = Some e -> supplies e o (image i D) -> is_die o = true ->
    (forall x, fits e (i x) -> f (positional [i x]) = Ok (OV (g x))) ->
    0 < total D <= SUM_LIMIT ->
    exists q, casting c s f (positional [o]) = Ok (ORV q) /\ rv_roll q = 1 /\ rv_src q = None /\ canon (rv_dist q) /\ proper (rv_dist q) /\
      same_law (rv_dist q) (image g D).
  Proof.
    intros U1 U2 A1 S R HF L.
    assert (MC : forall Q, mass Q (combos [image i D]) = mass (fun x => Q [i x]) D).
    { intros Q. cbn [combos]. rewrite (mass_map_fst (fun xy : obj * list obj => fst xy :: snd xy) Q), mass_indep_one, mass_image. reflexivity. }
    destruct (casting_supplied c s f [(KPos 0, (e, (o, image i D)))] (fun vs => match vs with [v] => g (un v) | _ => vint 0 end)) as (q & Q1 & Q2 & Q3 & Q4 & Q5 & Q6); auto.
    - repeat constructor. intros [].
    - constructor; [|constructor]. split; assumption.
    - cbn. rewrite R. reflexivity.
    - intros vs F. inversion F as [|? v ? ? F1 F2]; subst. inversion F2; subst. cbn [map combine sa_key fst].
      change (sa_ann (KPos 0, (e, (o, image i D)))) with e in F1. rewrite (U2 v F1) at 1. apply HF. rewrite <- (U2 v F1). exact F1.
    - change (map sa_law [(KPos 0, (e, (o, image i D)))]) with [image i D]. unfold total at 1 2. rewrite MC. exact L.
    - exists q. repeat split; auto; try apply Q4; try apply Q5. eapply same_law_trans; [exact Q6|].
      change (map sa_law [(KPos 0, (e, (o, image i D)))]) with [image i D]. apply same_law_masses. intros Q. rewrite !mass_image, MC.
      apply mass_ext. intros x w _. rewrite U1. reflexivity.
  Qed.

  Lemma two_args {A B} e1 e2 o1 o2 (i : A -> obj) (j : B -> obj) (un : obj -> A) (un' : obj -> B) (D : list (A * Z)) (D' : list (B * Z)) (g : A -> B -> pval) :
    (forall x, un (i x) = x) -> (forall v, fits e1 v -> v = i (un v)) ->
    (forall x, un' (j x) = x) -> (forall v, fits e2 v -> v = j (un' v)) ->
    annotation s (KPos 0) = Some e1 -> annotation s (KPos 1) = Some e2 ->
    supplies e1 o1 (image i D) -> supplies e2 o2 (image j D') -> is_die o1 || is_die o2 = true ->
    (forall x y, fits e1 (i x) -> fits e2 (j y) -> f (positional [i x; j y]) = Ok (OV (g x y))) ->
    0 < total D -> 0 < total D' -> total D * total D' <= SUM_LIMIT ->
    exists q, casting c s f (positional [o1; o2]) = Ok (ORV q) /\ rv_roll q = 1 /\ rv_src q = None /\ canon (rv_dist q) /\ proper (rv_dist q) /\
      same_law (rv_dist q) (image (fun xy => g (fst xy) (snd xy)) (indep D D')).
  Proof.
    intros U1 U2 U1' U2' A1 A2 S1 S2 R HF P P' L.
    assert (MC : forall Q, mass Q (combos [image i D; image j D']) = mass (fun xy => Q [i (fst xy); j (snd xy)]) (indep D D')).
    { intros Q. change (combos [image i D; image j D']) with (map (fun xy : obj * list obj * Z => (fst (fst xy) :: snd (fst xy), snd xy)) (indep (image i D) (combos [image j D']))).
      rewrite (mass_map_fst (fun xy : obj * list obj => fst xy :: snd xy) Q).
      transitivity (mass (fun a : obj * list obj => Q (fst a :: snd a)) (indep (image i D) (image (fun y => [j y]) D'))).
      - apply mass_indep_r. intros Q'. cbn [combos]. rewrite (mass_map_fst (fun xy : obj * list obj => fst xy :: snd xy) Q'), mass_indep_one, !mass_image. reflexivity.
      - rewrite mass_indep_image. reflexivity. }
    set (sp := [(KPos 0, (e1, (o1, image i D))); (KPos 1, (e2, (o2, image j D')))] : list spec_arg).
    assert (MT : total (combos (map sa_law sp)) = total D * total D').
    { change (map sa_law sp) with [image i D; image j D']. unfold total at 1. rewrite MC. apply total_indep. }
    destruct (casting_supplied c s f sp (fun vs => match vs with [v; w] => g (un v) (un' w) | _ => vint 0 end)) as (q & Q1 & Q2 & Q3 & Q4 & Q5 & Q6); auto.
    - repeat constructor; cbn; intuition discriminate.
    - constructor; [|constructor; [|constructor]]; split; assumption.
    - cbn. rewrite orb_false_r. exact R.
    - intros vs F. inversion F as [|? v ? ? F1 F2]; subst. inversion F2 as [|? w ? ? F3 F4]; subst. inversion F4; subst.
      change (sa_ann (KPos 0, (e1, (o1, image i D)))) with e1 in F1. change (sa_ann (KPos 1, (e2, (o2, image j D')))) with e2 in F3.
      cbn [map combine sa_key fst sp]. rewrite (U2 v F1) at 1. rewrite (U2' w F3) at 1. apply HF; [rewrite <- (U2 v F1); exact F1|rewrite <- (U2' w F3); exact F3].
    - rewrite MT. nia.
    - exists q. repeat split; auto; try apply Q4; try apply Q5. eapply same_law_trans; [exact Q6|].
      change (map sa_law sp) with [image i D; image j D']. apply same_law_masses. intros Q. rewrite !mass_image, MC.
      apply mass_ext. intros x w _. rewrite U1, U1'. reflexivity.
  Qed.
End Args.

Lemma unV_fits v : fits AN v -> v = OV (unV v). Proof. intros [n ->]. reflexivity. Qed.
Lemma unS_fits v : fits AS v -> v = OSeq (unS v). Proof. intros [l [-> _]]. reflexivity. Qed.
Lemma num_law_total o D : num_law o D -> 0 < total D.
Proof. intros []; [cbn; lia|]. match goal with H : proper _ |- _ => apply H end. Qed.
Lemma seq_law_total o D : seq_law o D -> 0 < total D.
Proof.
  intros [l N|z|x P S N R]; [reflexivity|reflexivity|]. rewrite total_image, total_tuples. apply Z.pow_pos_nonneg; [apply P|lia].
Qed.
