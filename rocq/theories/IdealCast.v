(** Calls in the ideal runtime and in the library: the arguments. *)
From Coq Require Import String Ascii List ZArith QArith Qreduction Qabs Bool Permutation Sorted Lia Lqa.
From Verif Require Import PyBase Num Val Sorting RVModel UtilModel Obj RollModel AtModel DispModel CastModel Spec SeqSpec CmpFacts SortFacts
  MassFacts NumFacts RVFacts ConstructFacts ConvFacts IntFacts RoundFacts LimitFacts OpFacts UnaryFacts MixFacts RollFacts RollSpec
  RollObjFacts OrderFacts ExpandFacts SelectFacts CastMixFacts DispFacts CastSpec CastFacts.
From Verif Require Import LexModel ParseModel SynSpec Runtime RunModel.
From Verif Require Import IdealSpec IdealFacts IdealOps IdealPick IdealVals.
Import ListNotations.
Open Scope Z_scope.
Open Scope list_scope.

(** ** The kinds of parameters *)

Lemma made_up_length i : String.length (made_up i) = i.
Proof. induction i as [|i IH]; [reflexivity|]. cbn [made_up String.length]. now rewrite IH. Qed.
Lemma made_up_inj i j : made_up i = made_up j -> i = j.
Proof. intro H. rewrite <- (made_up_length i), <- (made_up_length j), H. reflexivity. Qed.
Lemma made_up_eqb i j : String.eqb (made_up i) (made_up j) = Nat.eqb i j.
Proof.
  destruct (Nat.eqb i j) eqn:E.
  - apply Nat.eqb_eq in E. subst j. apply String.eqb_refl.
  - apply String.eqb_neq. intro H. apply made_up_inj in H. apply Nat.eqb_neq in E. contradiction.
Qed.
Lemma anns_below ks : forall i j, (j < i)%nat -> CastModel.lookup (made_up j) (anns_from i ks) = None.
Proof.
  induction ks as [|[k|] ks IH]; intros i j L; [reflexivity| |].
  - cbn [anns_from CastModel.lookup]. rewrite made_up_eqb. destruct (Nat.eqb i j) eqn:E; [apply Nat.eqb_eq in E; lia|]. apply IH. lia.
  - apply IH. lia.
Qed.
Lemma anns_at ks : forall i j, CastModel.lookup (made_up (i + j)) (anns_from i ks) =
  match nth_error ks j with Some (Some k) => Some (ann_of k) | _ => None end.
Proof.
  induction ks as [|[k|] ks IH]; intros i j; [destruct j; reflexivity| |].
  - cbn [anns_from CastModel.lookup]. rewrite made_up_eqb. destruct j as [|j].
    + rewrite Nat.add_0_r, Nat.eqb_refl. reflexivity.
    + destruct (Nat.eqb i (i + S j)) eqn:E; [apply Nat.eqb_eq in E; lia|]. cbn [nth_error].
      replace (i + S j)%nat with (S i + j)%nat by lia. apply IH.
  - cbn [anns_from]. destruct j as [|j].
    + rewrite Nat.add_0_r. cbn [nth_error]. apply anns_below. lia.
    + cbn [nth_error]. replace (i + S j)%nat with (S i + j)%nat by lia. apply IH.
Qed.
Lemma kind_annotation ks j : (j < length ks)%nat ->
  annotation (sig_of_kinds ks) (KPos j) = match nth_error ks j with Some (Some k) => Some (ann_of k) | _ => None end.
Proof.
  intro L. unfold annotation, sig_of_kinds. cbn [sg_names sg_anns]. rewrite nth_error_map.
  rewrite (nth_error_nth' (seq 0 (length ks)) O) by (rewrite seq_length; exact L). rewrite seq_nth by exact L. cbn [option_map].
  change (0 + j)%nat with (0 + j)%nat. rewrite anns_at. destruct (nth_error ks j) as [[[]|]|]; reflexivity.
Qed.

(** the annotations of parameters found by position *)
Definition annotated (s : sig) (ks : list (option kind)) : Prop :=
  forall j, (j < length ks)%nat -> annotation s (KPos j) = match nth_error ks j with Some (Some k) => Some (ann_of k) | _ => None end.
Lemma kinds_annotated ks : annotated (sig_of_kinds ks) ks.
Proof. intros j. apply kind_annotation. Qed.

(** ** One argument *)

Definition weighs (C : Q) (vq : ival * Q) (ow : obj * Z) : Prop :=
  is_val (fst vq) (fst ow) /\ (inject_Z (snd ow) == C * snd vq)%Q /\ 0 < snd ow.
(** what the decorator makes of an argument, and what the ideal runtime does *)
Definition takes (g : given) (r : obj + list (obj * Z)) : Prop :=
  match g, r with
  | Fixed v, inl o => is_val v o
  | Random l, inr L => exists C, (0 < C)%Q /\ Forall2 (weighs C) l L
  | _, _ => False
  end.

Section cast.
Variable c : cfg.
Hypothesis TR : cfg_trunc c = false.

Lemma reps_weighs t d : reps t d ->
  Forall2 (weighs (inject_Z (total d))) (map (fun zq => (INum (fst zq), snd zq)) t) (map (fun vp => (OV (fst vp), snd vp)) d).
Proof.
  intro R. pose proof (rp_stands _ _ R) as S. pose proof (rp_pos _ _ R) as P. unfold positive_weights in P.
  set (T := total d) in *. clearbody T. clear R. revert P. induction S as [|[z q] [v w] t d [E W] _ IH]; intro P; [constructor|].
  inversion P as [|? ? P1 P2]; subst. cbn [map fst snd] in *. constructor; [|exact (IH P2)]. split; [|split; [exact W|exact P1]].
  cbn [fst]. subst v. constructor.
Qed.
Lemma const_die_of z : exists x, from_const c (vint z) = Ok (rv_of x) /\ reps (sure z) x.
Proof.
  exists (normal c (RollSpec.fair (map vint [z]))). split.
  - change (from_const c (vint z)) with (from_seq c (map vint [z])). apply (from_seq_normal c _ TR). discriminate.
  - change (sure z) with (IdealSpec.fair [z]). apply fair_reps. discriminate.
Qed.

Lemma cast1_given k v v' g : is_val v v' -> give_kind (Some k) v = Ok g ->
  (g = Lost /\ cast1 c (ann_of k) v' = Ok CAbort) \/
  (exists o', takes g (inl o') /\ (cast1 c (ann_of k) v' = Ok (CNew o') \/ cast1 c (ann_of k) v' = Ok CKeep /\ o' = v')) \/
  (exists x L, takes g (inr L) /\ cast1 c (ann_of k) v' = Ok (CHard x) /\ hard_values (ann_of k, x) = Ok L).
Proof.
  intros H E. destruct H as [z|s|l|l l' _|t q x [R P]|b|]; destruct k; cbn [give_kind] in E; try discriminate; cbn [ann_of cast1 spread bind].
  - injection E as <-. right. left. exists (oint z). split; [constructor|]. right. split; reflexivity.
  - injection E as <-. right. left. exists (OSeq (map vint [z])). split; [apply (is_seq [z])|]. left. reflexivity.
  - injection E as <-. right. left. destruct (const_die_of z) as [x [Ex Rx]]. exists (ORV (rv_of x)). split; [now apply die_new|].
    left. transitivity (x <- from_const c (vint z) ;; Ok (CNew (ORV x))); [reflexivity|]. rewrite Ex. reflexivity.
  - injection E as <-. right. left. exists (oint (IdealSpec.sum l)). split; [constructor|]. left. cbn [meta_sum]. rewrite seq_sum_of. reflexivity.
  - injection E as <-. right. left. exists (OSeq (map vint l)). split; [constructor|]. right. split; reflexivity.
  - destruct l as [|z l]; [discriminate|]. injection E as <-. right. left.
    exists (ORV (rv_of (normal c (RollSpec.fair (map vint (z :: l)))))). split; [apply die_new, fair_reps; discriminate|]. left.
    transitivity (x <- from_seq c (map vint (z :: l)) ;; Ok (CNew (ORV x))); [reflexivity|].
    rewrite (from_seq_normal c (map vint (z :: l)) TR) by discriminate. reflexivity.
  - injection E as <-. right. right. exists x, (map (fun vp => (OV (fst vp), snd vp)) (rv_dist x)). split; [|split; reflexivity].
    exists (inject_Z (total (rv_dist x))). split; [apply inject_pos, (reps_total _ _ R)|apply reps_weighs, R].
  - destruct q as [[n s]|]; [|discriminate]. injection E as <-. right. right. destruct P as [_ [Rn Rs]].
    destruct (shown_rolls x s n Rs Rn) as [L [EL F]]. exists x, L. split; [|split; [reflexivity|exact EL]].
    exists (inject_Z (total (rv_die x) ^ Z.of_nat n)). split.
    + apply inject_pos. pose proof (reps_total _ _ Rs). apply Z.pow_pos_nonneg; lia.
    + clear EL. induction F as [|[a q] [o w] A B [Ho [Hq Hw]] _ IH]; [constructor|]. cbn [map fst snd] in *. constructor; [|exact IH].
      split; [|split; [exact Hq|exact Hw]]. cbn [fst]. subst o. constructor.
  - injection E as <-. right. left. exists (ORV x). split; [constructor; now split|]. right. split; reflexivity.
  - injection E as <-. left. split; reflexivity.
  - injection E as <-. left. split; reflexivity.
  - injection E as <-. right. left. exists (OBlank b). split; [constructor|]. right. split; reflexivity.
Qed.

(** ** All arguments *)

Lemma positional_keys l : forall i, map fst (positional_from i l) = map KPos (seq i (length l)).
Proof. induction l as [|o l IH]; intro i; [reflexivity|]. cbn [positional_from map length seq fst]. now rewrite IH. Qed.
Lemma positional_values l : forall i, map snd (positional_from i l) = l.
Proof. induction l as [|o l IH]; intro i; [reflexivity|]. cbn [positional_from map snd]. now rewrite IH. Qed.
Lemma positional_nodup l i : NoDup (map fst (positional_from i l)).
Proof.
  rewrite positional_keys. generalize (seq_NoDup (length l) i). generalize (seq i (length l)). intro s. induction 1 as [|j s N _ IH]; [constructor|].
  cbn [map]. constructor; [|exact IH]. intro H. apply in_map_iff in H as [j' [E I]]. injection E as ->. contradiction.
Qed.

(** the arguments of a call and what their parameters get *)
Definition given_args (s : sig) (a : args) (gs : list given) : Prop :=
  Forall2 (fun ko g =>
    match annotation s (fst ko) with
    | None => takes g (inl (snd ko))
    | Some e =>
        (g = Lost /\ cast1 c e (snd ko) = Ok CAbort) \/
        (exists o', takes g (inl o') /\ (cast1 c e (snd ko) = Ok (CNew o') \/ cast1 c e (snd ko) = Ok CKeep /\ o' = snd ko)) \/
        (exists x L, takes g (inr L) /\ cast1 c e (snd ko) = Ok (CHard x) /\ hard_values (e, x) = Ok L)
    end) a gs.

Lemma kinds_given sg ks0 : annotated sg ks0 -> forall ks pre vs os gs, ks0 = pre ++ ks -> Forall2 is_val vs os -> give_kinds ks vs = Ok gs ->
  given_args sg (positional_from (length pre) os) gs.
Proof.
  intro AN. induction ks as [|k ks IH]; intros pre vs os gs E0 R E.
  - destruct vs; [|discriminate]. inversion R; subst. injection E as <-. constructor.
  - destruct vs as [|v vs]; [discriminate|]. inversion R as [|? o ? os' Rv R']; subst. cbn [give_kinds] in E.
    destruct (give_kind k v) as [g|] eqn:Eg; [|discriminate]. cbn [bind] in E. destruct (give_kinds ks vs) as [gs'|] eqn:Egs; [|discriminate].
    injection E as <-. cbn [positional_from]. constructor.
    + cbn [fst snd]. rewrite AN by (rewrite app_length; cbn [length]; lia).
      rewrite nth_error_app2 by lia. rewrite Nat.sub_diag. cbn [nth_error]. destruct k as [k|].
      * exact (cast1_given k v o g Rv Eg).
      * injection Eg as <-. exact Rv.
    + replace (S (length pre)) with (length (pre ++ [k])) by (rewrite app_length; cbn [length]; lia).
      apply (IH (pre ++ [k]) vs os' gs'); [rewrite <- app_assoc; reflexivity|exact R'|exact Egs].
Qed.

Lemma cast_all_lost s todo : forall gs a h, given_args s todo gs -> existsb is_lost gs = true -> cast_all c s todo a h = Ok None.
Proof.
  induction todo as [|[k o] todo IH]; intros gs a h G L; inversion G as [|? g ? gs' Hg G']; subst; [discriminate|].
  cbn [existsb] in L. cbn [fst snd] in Hg. cbn [cast_all]. destruct (annotation s k) as [e|].
  - destruct Hg as [[-> E]|[[o' [T E]]|[x [Lx [T [E _]]]]]].
    + rewrite E. reflexivity.
    + assert (L' : existsb is_lost gs' = true) by (destruct g; [exact L|exact L|contradiction]).
      destruct E as [E|[E _]]; rewrite E; cbn [bind]; now apply (IH gs').
    + assert (L' : existsb is_lost gs' = true) by (destruct g; [exact L|exact L|contradiction]).
      rewrite E. cbn [bind]. now apply (IH gs').
  - assert (L' : existsb is_lost gs' = true) by (destruct g; [exact L|exact L|contradiction]). now apply (IH gs').
Qed.
Definition taken (kr : key * (obj + list (obj * Z))) (g : given) : Prop := takes g (snd kr).

Lemma cast_all_given s : forall todo gs done h,
  NoDup (map fst (done ++ todo)) -> given_args s todo gs -> existsb is_lost gs = false ->
  exists K b hs Ls,
    Forall2 taken K gs /\ map fst K = map fst todo /\ map fst b = map fst todo /\ incl (map fst hs) (map fst todo) /\
    cast_all c s todo (done ++ todo) h = Ok (Some (done ++ b, h ++ hs)) /\
    mapM hard_values (map snd hs) = Ok Ls /\
    map (fun vw => (fill b (map fst hs) (fst vw), snd vw)) (product Ls) = CastSpec.scenarios K /\
    (hs = [] <-> existsb CastSpec.is_random K = false).
Proof.
  induction todo as [|[k o] todo IH]; intros gs done h ND HA NL; inversion HA as [|? g ? gs' Hg G']; subst.
  - exists [], [], [], []. cbn. rewrite !app_nil_r. repeat split; auto using incl_nil_l.
  - cbn [fst snd] in Hg. cbn [existsb] in NL. apply orb_false_iff in NL as [NG NL].
    assert (NDtail : ~ In k (map fst todo)).
    { rewrite map_app in ND. cbn in ND. intros X. apply (NoDup_remove_2 _ _ _ ND). apply in_or_app. auto. }
    assert (FIX : forall o' h', takes g (inl o') ->
      exists K b hs Ls,
        Forall2 taken K (g :: gs') /\ map fst K = map fst ((k, o) :: todo) /\ map fst b = map fst ((k, o) :: todo) /\ incl (map fst hs) (map fst ((k, o) :: todo)) /\
        cast_all c s todo (done ++ (k, o') :: todo) h' = Ok (Some (done ++ b, h' ++ hs)) /\
        mapM hard_values (map snd hs) = Ok Ls /\
        map (fun vw => (fill b (map fst hs) (fst vw), snd vw)) (product Ls) = CastSpec.scenarios K /\
        (hs = [] <-> existsb CastSpec.is_random K = false)).
    { intros o' h' Ho'. destruct (IH gs' (done ++ [(k, o')]) h') as (K & b & hs & Ls & K1 & K0 & K2 & K3 & K4 & K5 & K6 & K7).
      - rewrite <- app_assoc. cbn. rewrite map_app in *. cbn in *. exact ND.
      - exact G'.
      - exact NL.
      - exists ((k, inl o') :: K), ((k, o') :: b), hs, Ls. rewrite <- !app_assoc in K4. cbn in K4.
        split; [constructor; [exact Ho'|exact K1]|]. split; [cbn; now rewrite K0|]. split; [cbn; now rewrite K2|].
        split; [intros x X; right; exact (K3 x X)|]. split; [exact K4|]. split; [exact K5|]. split; [|exact K7].
        cbn [CastSpec.scenarios]. rewrite <- K6, map_map. apply map_ext. intros [vs w]. cbn [fst snd].
        rewrite fill_prefix; [reflexivity|]. intros X. exact (NDtail (K3 _ X)). }
    cbn [cast_all]. destruct (annotation s k) as [e|] eqn:Ea; [|exact (FIX o h Hg)].
    destruct Hg as [[-> _]|[[o' [T E]]|[x [L' [T [E V]]]]]]; [discriminate NG| |].
    + destruct E as [E|[E ->]]; rewrite E; cbn [bind].
      * rewrite set_arg_here by exact ND. exact (FIX o' h T).
      * exact (FIX o h T).
    + rewrite E. cbn [bind].
      destruct (IH gs' (done ++ [(k, o)]) (h ++ [(k, (e, x))])) as (K & b & hs & Ls & K1 & K0 & K2 & K3 & K4 & K5 & K6 & K7).
      * rewrite <- app_assoc. exact ND.
      * exact G'.
      * exact NL.
      * exists ((k, inr L') :: K), ((k, o) :: b), ((k, (e, x)) :: hs), (L' :: Ls).
        rewrite <- !app_assoc in K4. cbn [app] in K4.
        split; [constructor; [exact T|exact K1]|]. split; [cbn; now rewrite K0|].
        split; [cbn; now rewrite K2|]. split.
        { intros y [<-|Y]; [left; reflexivity|right; exact (K3 y Y)]. }
        split; [exact K4|]. split; [cbn [map snd mapM]; rewrite V; cbn [bind]; rewrite K5; reflexivity|].
        split; [|cbn; split; intros X; discriminate X].
        cbn [CastSpec.scenarios product]. unfold indep. rewrite <- K6. rewrite !flat_map_concat_map, !concat_map, !map_map. f_equal.
        apply map_ext. intros [v p]. rewrite !map_map. apply map_ext. intros [vs w]. cbn [fst snd map].
        f_equal. unfold fill at 1. cbn [combine fold_left fst snd]. rewrite set_arg_cons, key_eqb_refl.
        rewrite set_arg_other by (rewrite K2; exact NDtail).
        change (fill ((k, v) :: b) (map fst hs) vs = (k, v) :: fill b (map fst hs) vs).
        apply fill_prefix. intros X. exact (NDtail (K3 _ X)).
Qed.
Lemma taken_random K gs : Forall2 taken K gs -> existsb CastSpec.is_random K = existsb IdealSpec.is_random gs.
Proof.
  induction 1 as [|[k r] g K gs T _ IH]; [reflexivity|]. cbn [existsb]. rewrite IH. f_equal.
  unfold taken in T. cbn [snd] in T. destruct r, g; try contradiction; reflexivity.
Qed.

Definition weighs_all (C : Q) (vq : list ival * Q) (aw : args * Z) : Prop :=
  Forall2 is_val (fst vq) (map snd (fst aw)) /\ (inject_Z (snd aw) == C * snd vq)%Q /\ 0 < snd aw.

Lemma Forall2_flat {A B A' B'} (R : A -> A' -> Prop) (S : B -> B' -> Prop) f g l l' :
  Forall2 R l l' -> (forall a a', R a a' -> Forall2 S (f a) (g a')) -> Forall2 S (flat_map f l) (flat_map g l').
Proof.
  intros H HF. induction H as [|a a' l l' Ra _ IH]; [constructor|]. cbn [flat_map]. apply Forall2_app; [exact (HF _ _ Ra)|exact IH].
Qed.
Lemma Forall2_map {A B A' B'} (R : A -> A' -> Prop) (S : B -> B' -> Prop) f g l l' :
  Forall2 R l l' -> (forall a a', R a a' -> S (f a) (g a')) -> Forall2 S (map f l) (map g l').
Proof. intros H HF. induction H as [|a a' l l' Ra _ IH]; constructor; [exact (HF _ _ Ra)|exact IH]. Qed.
Lemma flat_map_single {A B} (f : A -> B) l : flat_map (fun a => [f a]) l = map f l.
Proof. induction l as [|a l IH]; [reflexivity|]. cbn [flat_map map app]. now rewrite IH. Qed.

Lemma taken_scenarios K gs : Forall2 taken K gs -> exists C, (0 < C)%Q /\ Forall2 (weighs_all C) (IdealSpec.scenarios gs) (CastSpec.scenarios K).
Proof.
  induction 1 as [|[k r] g K gs T _ [C [CP IH]]].
  - exists 1%Q. split; [reflexivity|]. constructor; [|constructor]. split; [constructor|]. split; reflexivity.
  - unfold taken in T. cbn [snd] in T. destruct r as [o|L], g as [v|l|]; try contradiction.
    + exists C. split; [exact CP|]. cbn [IdealSpec.scenarios CastSpec.scenarios]. unfold draw, sure. cbn [map fst snd].
      rewrite flat_map_single. apply (Forall2_map (weighs_all C)); [exact IH|]. intros [vs q] [a w] [Rv [W P]]. cbn [fst snd] in *.
      split; [cbn [fst map snd]; constructor; [exact T|exact Rv]|]. split; [|exact P]. cbn [snd]. rewrite W. ring.
    + destruct T as [D [DP F]]. exists (D * C)%Q. split; [apply Qmult_lt_0_compat; assumption|].
      cbn [IdealSpec.scenarios CastSpec.scenarios]. unfold draw at 1. unfold indep. rewrite flat_map_concat_map with (l := L).
      rewrite concat_map, map_map, <- flat_map_concat_map. apply (Forall2_flat (weighs D)); [exact F|].
      intros [v q] [o w] [Rv [W P]]. cbn [fst snd] in *. rewrite map_map. unfold draw, sure. cbn [map fst snd]. rewrite flat_map_single.
      rewrite map_map. apply (Forall2_map (weighs_all C)); [exact IH|]. intros [vs q'] [a w'] [Rv' [W' P']]. cbn [fst snd] in *.
      split; [cbn [fst map snd]; constructor; [exact Rv|exact Rv']|]. cbn [snd]. split; [|nia]. rewrite inject_Z_mult, W, W'. ring.
Qed.
Lemma taken_fixed K gs : Forall2 taken K gs -> existsb CastSpec.is_random K = false ->
  Forall2 is_val (map (fun g => match g with Fixed v => v | _ => INone end) gs) (map snd (map settled_value K)).
Proof.
  induction 1 as [|[k r] g K gs T _ IH]; intro N; [constructor|]. cbn [existsb] in N. apply orb_false_iff in N as [N1 N2].
  unfold taken in T. cbn [snd] in T. destruct r as [o|L]; [|discriminate N1]. destruct g as [v|l|]; try contradiction.
  cbn [map settled_value fst snd]. constructor; [exact T|exact (IH N2)].
Qed.

Lemma scenario_keys K : Forall (fun aw => map fst (fst aw) = map fst K) (CastSpec.scenarios K).
Proof.
  induction K as [|[k r] K IH]; [repeat constructor|]. rewrite Forall_forall in IH. apply Forall_forall. intros [a w] Ha. cbn [fst].
  cbn [CastSpec.scenarios] in Ha. destruct r as [o|L].
  - apply in_map_iff in Ha as [[a' w'] [E Ha]]. injection E as <- <-. cbn [map fst]. f_equal. exact (IH _ Ha).
  - apply in_map_iff in Ha as [[[o a'] w'] [E Ha]]. cbn [fst snd] in E. injection E as <- <-. cbn [map fst]. f_equal.
    unfold indep in Ha. apply in_flat_map in Ha as [[o1 w1] [_ Ha]]. apply in_map_iff in Ha as [[a1 w2] [E Ha]]. injection E as _ <- _.
    exact (IH _ Ha).
Qed.
Lemma positional_of a : forall i, map fst a = map KPos (seq i (length a)) -> a = positional_from i (map snd a).
Proof.
  induction a as [|[k o] a IH]; intros i E; [reflexivity|]. cbn [map fst length seq] in E. injection E as -> E.
  cbn [map snd positional_from]. f_equal. exact (IH _ E).
Qed.
Lemma keys_positional a os : map fst a = map fst (positional os) -> a = positional (map snd a).
Proof.
  intro E. apply positional_of. unfold positional in E. rewrite positional_keys in E. rewrite E. f_equal. f_equal.
  rewrite <- (map_length fst), E, map_length, seq_length. reflexivity.
Qed.

(** The plan of a call. *)
Lemma plan_given sg ks vs os gs : annotated sg ks -> Forall2 is_val vs os -> give_kinds ks vs = Ok gs ->
  exists p, make_plan c sg (positional os) = Ok p /\
  match p with
  | PAbort => existsb is_lost gs = true
  | PDirect a => existsb is_lost gs = false /\ existsb IdealSpec.is_random gs = false /\
      Forall2 is_val (map (fun g => match g with Fixed v => v | _ => INone end) gs) (map snd a) /\ a = positional (map snd a)
  | PProduct calls => existsb is_lost gs = false /\ existsb IdealSpec.is_random gs = true /\
      (exists C, (0 < C)%Q /\ Forall2 (weighs_all C) (IdealSpec.scenarios gs) calls) /\
      Forall (fun aw => fst aw = positional (map snd (fst aw))) calls
  end.
Proof.
  intros AN R E. pose proof (kinds_given sg ks AN ks [] vs os gs eq_refl R E) as G.
  change (positional_from (length (@nil (option kind))) os) with (positional os) in G.
  unfold make_plan. destruct (existsb is_lost gs) eqn:NL.
  - exists PAbort. rewrite (cast_all_lost _ _ gs _ _ G NL). split; reflexivity.
  - destruct (cast_all_given sg (positional os) gs [] [] (positional_nodup os 0) G NL) as (K & b & hs & Ls & K1 & K0 & K2 & K3 & K4 & K5 & K6 & K7).
    cbn [app] in K4. rewrite K4. cbn [bind]. pose proof (taken_random K gs K1) as TRD. destruct hs as [|h hs].
    + exists (PDirect b). split; [reflexivity|]. assert (NR : existsb CastSpec.is_random K = false) by (apply K7; reflexivity).
      split; [reflexivity|]. split; [rewrite <- TRD; exact NR|]. split; [|exact (keys_positional b os K2)].
      rewrite (scenarios_fixed K NR) in K6. cbn in K5. injection K5 as <-.
      cbn in K6. injection K6 as ->. exact (taken_fixed K gs K1 NR).
    + rewrite K5. cbn [bind]. eexists. split; [reflexivity|]. cbv beta iota. split; [reflexivity|]. split; [|split].
      * destruct (existsb CastSpec.is_random K) eqn:X; [rewrite <- TRD; reflexivity|]. discriminate (proj2 K7 eq_refl).
      * cbn [map] in K6 |- *. rewrite K6. exact (taken_scenarios K gs K1).
      * cbn [map] in K6 |- *. rewrite K6. apply (Forall_impl _ (P := fun aw => map fst (fst aw) = map fst K)); [|apply scenario_keys].
        intros aw Ea. apply (keys_positional (fst aw) os). rewrite Ea. exact K0.
Qed.
End cast.

(** ** The results *)

Definition comes (r : option table) (o : obj) : Prop :=
  exists m, to_mixin o = Ok m /\ match r, mx_law m with Some t, Some d => reps t d | None, None => True | _, _ => False end.

Lemma single_comes v v' r : is_val v v' -> outcome v = Ok r -> exists o, single v' = Ok o /\ comes r o.
Proof.
  intros H E. destruct H as [z|s|l|l l' _|t q x [R _]|b|]; cbn [outcome] in E; try discriminate; injection E as <-.
  - exists (oint z). split; [reflexivity|]. exists (MxVal (vint z)). split; [reflexivity|]. apply sure_reps.
  - exists (oint (IdealSpec.sum l)). split; [cbn [single meta_sum]; rewrite seq_sum_of; reflexivity|].
    exists (MxVal (vint (IdealSpec.sum l))). split; [reflexivity|]. apply sure_reps.
  - exists (ORV x). split; [reflexivity|]. exists (MxRV x). split; [reflexivity|]. exact R.
  - exists (OBlank b). split; [reflexivity|]. exists MxBlank. split; [reflexivity|exact Logic.I].
  - exists ONone. split; [reflexivity|]. exists MxBlank. split; [reflexivity|exact Logic.I].
Qed.
Lemma comes_parts C ts os : Forall2 comes ts os -> forall qs ws, Forall2 (fun q w => (inject_Z w == C * q)%Q /\ 0 < w) qs ws ->
  length qs = length ts ->
  exists ms, mapM to_mixin os = Ok ms /\ length ms = length ws /\ Forall2 (part C) (that_count (combine ts qs)) (components ms ws).
Proof.
  induction 1 as [|r o ts os [m [Em Rm]] _ IH]; intros qs ws W L.
  - destruct qs; [|discriminate]. inversion W; subst. exists []. split; [reflexivity|]. split; [reflexivity|constructor].
  - destruct qs as [|q qs]; [discriminate|]. injection L as L. inversion W as [|? w ? ws' [Wq Wp] W']; subst.
    destruct (IH qs ws' W' L) as [ms [Ems [Lms F]]]. exists (m :: ms). split; [cbn [mapM]; rewrite Em; cbn [bind]; rewrite Ems; reflexivity|].
    split; [cbn [length]; now rewrite Lms|]. cbn [combine that_count components]. destruct r as [t|], (mx_law m) as [d|]; try contradiction.
    + constructor; [|exact F]. split; [exact Rm|]. split; [exact Wq|exact Wp].
    + exact F.
Qed.
Lemma chance_nonneg_pos {A} (L : law A) : L <> [] -> positive L -> (0 < chance (fun _ => true) L)%Q.
Proof.
  intros N P. destruct L as [|[a q] L]; [contradiction|]. rewrite chance_ex.
  apply (ex_pos _ _ a q P); [intro; discriminate|left; reflexivity|reflexivity].
Qed.
Lemma parts_positive C L cs : (0 < C)%Q -> Forall2 (part C) L cs -> positive L.
Proof.
  intros CP. induction 1 as [|[t q] [w d] L cs [_ [W P]] _ IH]; [constructor|]. constructor; [|exact IH]. cbn [fst snd] in *.
  apply inject_pos in P. rewrite W in P. destruct (Qlt_le_dec 0 q) as [H|H]; [exact H|]. exfalso.
  apply (Qlt_not_le _ _ P). rewrite <- (Qmult_0_r C). apply Qmult_le_l; assumption.
Qed.
Lemma parts_fine C L cs : Forall2 (part C) L cs -> Forall (fun tq => fine (fst tq)) L.
Proof. induction 1 as [|[t q] [w d] L cs [R _] _ IH]; [constructor|]. constructor; [exact (rp_fine _ _ R)|exact IH]. Qed.

Lemma merge_meets c C ts os qs ws : cfg_trunc c = false -> (0 < C)%Q ->
  Forall2 comes ts os -> Forall2 (fun q w => (inject_Z w == C * q)%Q /\ 0 < w) qs ws -> length qs = length ts ->
  meets (mixed (combine ts qs)) (merge c os ws).
Proof.
  intros TR CP HO HW HL. destruct (comes_parts C ts os HO qs ws HW HL) as [ms [Em [Lm F]]]. unfold merge. rewrite Em. cbn [bind].
  unfold mixed. destruct (that_count (combine ts qs)) as [|tq L] eqn:EL.
  - assert (EC : [] = components ms ws) by (inversion F; reflexivity). assert (B : from_rvs c ms ws = Ok None).
    { destruct (from_rvs_blank c ms ws Lm) as [H1 H2]. apply H2, H1. symmetry. exact EC. }
    rewrite B. apply meets_ok. constructor.
  - rewrite <- EL in F |- *. assert (LN : that_count (combine ts qs) <> []) by (rewrite EL; discriminate).
    set (M := that_count (combine ts qs)) in *. clearbody M. clear EL. apply meets_die. intro B.
    set (all := chance (fun _ => true) M) in *.
    pose proof (parts_positive C M _ CP F) as MP. pose proof (chance_nonneg_pos M LN MP) as AP. fold all in AP.
    set (t := collect (draw (map (fun tq => (fst tq, (snd tq / all)%Q)) M) (fun t => t))) in *.
    assert (FT : fine t).
    { apply collect_fine, positive_draw.
      - unfold positive in *. rewrite Forall_map. apply (Forall_impl _ (P := fun aq => (0 < snd aq)%Q)); [|exact MP].
        intros [s q] Hq. cbn [snd] in *. apply Qlt_shift_div_l; [exact AP|]. rewrite Qmult_0_l. exact Hq.
      - intros s q Hs. apply in_map_iff in Hs as [[s' q'] [Es Hs]]. injection Es as <- <-. cbn [fst].
        pose proof (parts_fine C M _ F) as FF. rewrite Forall_forall in FF. exact (proj2 (FF _ Hs)). }
    assert (PT : forall k, (all * prob t k == ex (fun s => prob s k) M)%Q).
    { intro k. rewrite prob_ex. unfold t. rewrite ex_collect, ex_draw.
      transitivity (all * ((1 / all) * ex (fun s => prob s k) M))%Q; [|field; intro Z; rewrite Z in AP; discriminate].
      apply Qmult_comp; [reflexivity|]. rewrite <- (ex_scale (fun s => prob s k) (1 / all) M).
      clearbody all. clear. induction M as [|[s q] M IH]; [reflexivity|]. cbn [map ex fst snd]. rewrite IH, prob_ex. unfold Qdiv. ring. }
    destruct (from_rvs_reps c ms ws C M t TR Lm CP F LN FT PT B) as [d [Ed Rd]]. exists d. split; [|exact Rd]. rewrite Ed. reflexivity.
Qed.

(** A decorated function of the library. *)
Lemma casting_meets c sg ks body body' vs os : cfg_trunc c = false -> annotated sg ks -> Forall2 is_val vs os ->
  (forall vs' os', Forall2 is_val vs' os' -> meets (body vs') (body' (positional os'))) ->
  meets (over ks body vs) (casting c sg body' (positional os)).
Proof.
  intros TR AN R H. unfold over. destruct (give_kinds ks vs) as [gs|e] eqn:EG; [|apply meets_err]. cbn [bind].
  destruct (plan_given c TR sg ks vs os gs AN R EG) as [p [Ep P]]. unfold casting, casting_in. rewrite Ep. cbn [bind]. destruct p as [|a|calls].
  - rewrite P. apply meets_ok. constructor.
  - destruct P as [H1 [H2 [H3 H4]]]. rewrite H1, H2, H4. exact (H _ _ H3).
  - destruct P as [H1 [H2 [[C [CP H3]] H4]]]. rewrite H1, H2. set (sc := IdealSpec.scenarios gs) in *. clearbody sc. cbv zeta.
    destruct (mapM (fun vq => v <- body (fst vq);; outcome v) sc) as [ts|e] eqn:ET; [|apply meets_err]. cbn [bind].
    assert (W : Forall2 (fun q w => (inject_Z w == C * q)%Q /\ 0 < w) (map snd sc) (map snd calls)).
    { clear -H3. induction H3 as [|[vs' q] [a w] sc calls [_ H] _ IH]; constructor; [exact H|exact IH]. }
    assert (X : exists os', mapF (F := res) (fun A r => r) (@bind) (fun aw => o <- body' (fst aw) ;; single o) calls = Ok os' /\ Forall2 comes ts os').
    { clear -H H3 H4 ET. revert ts ET. induction H3 as [|[vs' q] [a w] sc calls [Ha _] _ IH]; intros ts ET.
      - injection ET as <-. exists []. split; [reflexivity|constructor].
      - inversion H4 as [|? ? E1 E2]; subst. cbn [fst snd] in *. cbn [mapM fst] in ET. cbn [mapF fst].
        destruct (body vs') as [v|e] eqn:Ev; [|discriminate]. cbn [bind] in ET. destruct (outcome v) as [r|] eqn:Er; [|discriminate]. cbn [bind] in ET.
        destruct (mapM (fun vq => v <- body (fst vq);; outcome v) sc) as [rs|e] eqn:Ers; [|discriminate]. injection ET as <-.
        destruct (H vs' (map snd a) Ha v Ev) as [v' [Ev' Rv]]. rewrite <- E1 in Ev'. rewrite Ev'. cbn [bind].
        destruct (single_comes v v' r Rv Er) as [o [Eo Ro]]. rewrite Eo. cbn [bind].
        destruct (IH E2 rs eq_refl) as [os' [Eos Ros]]. rewrite Eos. exists (o :: os'). split; [reflexivity|constructor; assumption]. }
    destruct X as [os' [Eos Ros]]. cbv beta in Eos |- *. rewrite Eos. cbn [bind].
    apply (merge_meets c C); try assumption. clear -ET. revert ts ET. induction sc as [|x sc IH]; intros ts E.
    + injection E as <-. reflexivity.
    + cbn [mapM] in E. destruct (v <- body (fst x);; outcome v) as [r|]; [|discriminate]. cbn [bind] in E.
      destruct (mapM (fun vq => v <- body (fst vq);; outcome v) sc) as [rs|]; [|discriminate]. injection E as <-.
      cbn [map length]. f_equal. exact (IH rs eq_refl).
Qed.
