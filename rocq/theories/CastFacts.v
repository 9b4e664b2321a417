(** The casting decorator: casting table, enumeration, law of total probability. *)
From Coq Require Import String List ZArith QArith Qabs Bool Permutation Sorted Lia.
From Verif Require Import PyBase Num Val Sorting RVModel Obj RollModel RollSpec AtModel CastModel Spec CmpFacts SortFacts MassFacts RVFacts ConstructFacts IntFacts LimitFacts OpFacts ConvFacts UnaryFacts MixFacts RollFacts RollObjFacts OrderFacts ExpandFacts SelectFacts CastSpec.
Import ListNotations.
Open Scope Z_scope.

Lemma key_eqb_eq a b : key_eqb a b = true <-> a = b.
Proof.
  destruct a as [i|s], b as [j|t]; cbn; split; intro H; try discriminate.
  - apply Nat.eqb_eq in H. congruence.
  - injection H as <-. apply Nat.eqb_refl.
  - apply String.eqb_eq in H. congruence.
  - injection H as <-. apply String.eqb_refl.
Qed.
Lemma key_eqb_refl k : key_eqb k k = true.
Proof. apply key_eqb_eq. reflexivity. Qed.
Lemma key_eqb_neq a b : a <> b -> key_eqb a b = false.
Proof. intros N. destruct (key_eqb a b) eqn:E; [|reflexivity]. apply key_eqb_eq in E. congruence. Qed.

(** ** One argument *)

Lemma from_seq_fair c l : cfg_trunc c = false -> exists x, from_seq c l = Ok x /\ fair_die l x.
Proof.
  intros T. destruct l as [|v l].
  - exists (rv_of [(vint 0, 1)]). split.
    + cbn [from_seq]. change (mk_rv c [vint 0] [1] = Ok (rv_of [(vint 0, 1)])).
      exact (from_const_int c 0 T).
    + repeat split; try reflexivity; try congruence.
      * discriminate.
      * repeat constructor.
      * repeat constructor. cbn. lia.
      * left. reflexivity.
  - exists (rv_of (normal c (fair (v :: l)))). split; [apply from_seq_normal; [exact T|discriminate]|].
    assert (P : proper (fair (v :: l))) by (apply fair_proper; discriminate).
    split; [reflexivity|]. split; [reflexivity|]. split; [apply normal_canon, (proj1 P)|]. split.
    + intros _. apply normal_same_law, P.
    + discriminate.
Qed.

Lemma from_const_fair c n : cfg_trunc c = false -> exists x, from_const c (VN n) = Ok x /\ fair_die [VN n] x.
Proof. intros T. exact (from_seq_fair c [VN n] T). Qed.

Lemma seq_sum_ints l : Forall (fun v => v_is_int v = true) l -> seq_sum l = Ok (vsumZ l).
Proof. intros H. unfold seq_sum, vsumZ. exact (fold_add_ints l H 0). Qed.

Lemma get_seq_shape l s : get_seq l = Ok s -> (exists t, s = OSeq t) \/ (exists t, s = OSSeq t).
Proof.
  unfold get_seq. cbv zeta. match goal with |- context[existsb ?f ?r] => destruct (existsb f r) end.
  - destruct (all_some _); [|discriminate]. intros E. injection E as <-. right. eauto.
  - unfold assert_. destruct (forallb _ _); [|discriminate]. destruct (all_some _); [|discriminate].
    intros E. injection E as <-. left. eauto.
Qed.

(** a cast argument that is not enumerated: kept or replaced *)
Definition settled_as (k : cast) (o o' : obj) : Prop := (k = CKeep /\ o' = o) \/ k = CNew o'.

Lemma cast1_passed c e o o' : cfg_trunc c = false -> passed (Some e) o o' ->
  exists k o'', cast1 c e o = Ok k /\ settled_as k o o'' /\ passed (Some e) o o''.
Proof.
  intros T H. remember (Some e) as se eqn:Ese. revert e Ese.
  induction H as [o|n|l HI|z|l|n x F|l x F|x|l t S|m k|l|l x F|e0 v|e0|b|e0 l s o G H IH]; intros e Ese;
    try discriminate Ese; injection Ese as Ese; first [subst e0 | subst e].
  - exists CKeep. exists (OV (VN n)). repeat split; [left; auto|constructor].
  - exists (CNew (OV (vsumZ l))). eexists. cbn. rewrite (seq_sum_ints l HI). cbn. repeat split; [right; reflexivity|constructor; exact HI].
  - exists (CNew (OSeq [vint z])). eexists. repeat split; [right; reflexivity|constructor].
  - exists CKeep. eexists. repeat split; [left; auto|constructor].
  - destruct (from_const_fair c n T) as [y [E Y]]. exists (CNew (ORV y)). eexists.
    cbn. destruct n as [z|m k]; cbn [get_rv]; rewrite E; cbn; (repeat split; [right; reflexivity|constructor; exact Y]).
  - destruct (from_seq_fair c l T) as [y [E Y]]. exists (CNew (ORV y)). eexists.
    cbn. rewrite E. cbn. repeat split; [right; reflexivity|constructor; exact Y].
  - exists CKeep. eexists. repeat split; [left; auto|constructor].
  - exists (CNew (OV t)). eexists. cbn. unfold seq_sum. rewrite S. cbn. repeat split; [right; reflexivity|apply passed_N_seq_float; exact S].
  - exists CKeep. eexists. repeat split; [left; auto|constructor].
  - exists CKeep. eexists. repeat split; [left; auto|constructor].
  - destruct (from_seq_fair c l T) as [y [E Y]]. exists (CNew (ORV y)). eexists.
    cbn. rewrite E. cbn. repeat split; [right; reflexivity|apply passed_D_labels; exact Y].
  - exists CKeep. eexists. destruct e; repeat split; try (left; auto; fail); constructor.
  - exists CKeep. eexists. destruct e; repeat split; try (left; auto; fail); constructor.
  - exists CKeep. eexists. repeat split; [left; auto|constructor].
  - destruct (IH e eq_refl) as (k & o'' & E & S & P).
    assert (X : exists o3, cast1 c e (OIter l) = Ok (CNew o3) /\ passed (Some e) s o3).
    { unfold cast1. cbn [spread]. rewrite G. cbn [bind].
      destruct (get_seq_shape l s G) as [[t ->]|[t ->]].
      - destruct e; cbn in E |- *.
        + destruct (seq_sum t) as [u|]; [|discriminate]. cbn in *. injection E as <-. destruct S as [[S _]|S]; [discriminate|].
          injection S as ->. eauto.
        + injection E as <-. destruct S as [[_ ->]|S]; [|discriminate]. eauto.
        + destruct (from_seq c t) as [u|]; [|discriminate]. cbn in *. injection E as <-. destruct S as [[S _]|S]; [discriminate|].
          injection S as <-. eauto.
        + injection E as <-. destruct S as [[_ ->]|S]; [|discriminate]. eauto.
      - destruct e; cbn in E |- *.
        + discriminate.
        + injection E as <-. destruct S as [[_ ->]|S]; [|discriminate]. eauto.
        + destruct (from_seq c t) as [u|]; [|discriminate]. cbn in *. injection E as <-. destruct S as [[S _]|S]; [discriminate|].
          injection S as <-. eauto.
        + injection E as <-. destruct S as [[_ ->]|S]; [|discriminate]. eauto. }
    destruct X as (o3 & X1 & X2). exists (CNew o3), o3. repeat split; [exact X1|right; reflexivity|].
    exact (passed_iterable e l s o3 G X2).
Qed.

(** ** Dice that are enumerated *)

Lemma image_fst {A B} (f : A -> B) l : map fst (image f l) = map f (map fst l).
Proof. unfold image. rewrite !map_map. reflexivity. Qed.

Lemma roll_seqs_numbers x : Forall (fun v => is_number v = true) (vals (rv_die x)) -> strict (rv_die x) -> 0 <= rv_roll x ->
  exists L, roll_seqs x = Ok (image OSeq L) /\ sorted_rolls (Z.to_nat (rv_roll x)) (rv_die x) L.
Proof.
  intros N S R. destruct (expanded_spec x (rv_die x) eq_refl S R) as (L & E & D & I & W & _). exists L. split; [|repeat split; auto; apply I; auto].
  unfold roll_seqs. rewrite E. cbn [bind].
  assert (G : forall l : list (list pval * Z), (forall t w, In (t, w) l -> length t = Z.to_nat (rv_roll x) /\ Forall (fun a => In a (vals (rv_die x))) t) ->
    mapM (fun rp : list pval * Z => s <- (if rv_roll x =? 1 then get_seq (map OV (fst rp)) else Ok (OSeq (fst rp))) ;; Ok (s, snd rp)) l = Ok (image OSeq l)).
  { induction l as [|[t w] l IH]; intro H; [reflexivity|]. cbn [mapM fst snd].
    assert (E1 : (if rv_roll x =? 1 then get_seq (map OV t) else Ok (OSeq t)) = Ok (OSeq t)).
    { destruct (Z.eqb_spec (rv_roll x) 1) as [E1|]; [|reflexivity].
      destruct (H t w (or_introl eq_refl)) as [Lt F]. rewrite E1 in Lt.
      destruct t as [|v [|? ?]]; try discriminate Lt. inversion F as [|? ? A B]; subst.
      pose proof (proj1 (Forall_forall _ _) N v A) as X. destruct v as [n|]; [|discriminate]. reflexivity. }
    rewrite E1. cbn [bind]. rewrite IH; [reflexivity|]. intros s u Hs. apply (H s u). right. exact Hs. }
  apply G. intros t w H. apply (in_map fst) in H. cbn in H. apply I in H. destruct H as (H1 & H2 & _). auto.
Qed.

Lemma cast1_enumerated c e o L : enumerated (Some e) o L ->
  exists x L', cast1 c e o = Ok (CHard x) /\ hard_values (e, x) = Ok L' /\ enumerated (Some e) o L'.
Proof.
  intros H. inversion H as [x E1 E2 E3|x L0 N S R Q E1 E2 E3]; subst.
  - exists x. eexists. split; [reflexivity|]. split; [|exact (enumerated_N x)]. reflexivity.
  - destruct (roll_seqs_numbers x N S R) as (L' & E & Q'). exists x, (image OSeq L'). split; [reflexivity|].
    split; [exact E|]. apply enumerated_S; assumption.
Qed.

(** ** Filling in arguments *)

Lemma set_arg_other k o a : ~ In k (map fst a) -> set_arg k o a = a.
Proof.
  intros H. unfold set_arg. induction a as [|[k' o'] a IH]; [reflexivity|]. cbn [map fst].
  rewrite key_eqb_neq; [|intros ->; apply H; left; reflexivity].
  rewrite IH; [reflexivity|]. intros X. apply H. right. exact X.
Qed.
Lemma set_arg_app k o a b : set_arg k o (a ++ b) = set_arg k o a ++ set_arg k o b.
Proof. apply map_app. Qed.
Lemma set_arg_cons k o k' o' a : set_arg k o ((k', o') :: a) = (k', if key_eqb k k' then o else o') :: set_arg k o a.
Proof. unfold set_arg. cbn [map fst]. destruct (key_eqb k k'); reflexivity. Qed.
Lemma set_arg_keys k o a : map fst (set_arg k o a) = map fst a.
Proof. unfold set_arg. rewrite map_map. apply map_ext. intros [k' o']. cbn. destruct (key_eqb k k'); reflexivity. Qed.
Lemma set_arg_here k o o' pre post : NoDup (map fst (pre ++ (k, o') :: post)) ->
  set_arg k o (pre ++ (k, o') :: post) = pre ++ (k, o) :: post.
Proof.
  intros H. rewrite map_app in H. cbn in H. pose proof (NoDup_remove_2 _ _ _ H) as N.
  rewrite set_arg_app, set_arg_cons, key_eqb_refl.
  rewrite !set_arg_other; [reflexivity| |]; intros X; apply N; apply in_or_app; auto.
Qed.

Lemma fill_prefix k o a ks : ~ In k ks -> forall vs, fill ((k, o) :: a) ks vs = (k, o) :: fill a ks vs.
Proof.
  unfold fill. revert a. induction ks as [|k' ks IH]; intros a N vs; [reflexivity|]. destruct vs as [|v vs]; [reflexivity|].
  cbn [combine fold_left fst snd]. rewrite set_arg_cons, key_eqb_neq; [|intros ->; apply N; left; reflexivity].
  apply IH. intros X. apply N. right. exact X.
Qed.

(** ** All arguments *)

Definition acceptable (s : sig) (ko : key * obj) : Prop := exists r, received (annotation s (fst ko)) (snd ko) r.

Lemma cast_all_spec c s : cfg_trunc c = false -> forall todo done h,
  NoDup (map fst (done ++ todo)) -> Forall (acceptable s) todo ->
  exists K b hs Ls,
    Forall2 (receives s) todo K /\ map fst b = map fst todo /\ incl (map fst hs) (map fst todo) /\
    cast_all c s todo (done ++ todo) h = Ok (Some (done ++ b, h ++ hs)) /\
    mapM hard_values (map snd hs) = Ok Ls /\
    map (fun vw => (fill b (map fst hs) (fst vw), snd vw)) (product Ls) = scenarios K /\
    (hs = [] <-> existsb is_random K = false).
Proof.
  intros T. induction todo as [|[k o] todo IH]; intros done h ND HA.
  - exists [], [], [], []. cbn. rewrite !app_nil_r. repeat split; auto using incl_nil_l.
  - inversion HA as [|? ? [r0 R0] HA']; subst. cbn [fst snd] in R0.
    assert (NDtail : ~ In k (map fst todo)).
    { rewrite map_app in ND. cbn in ND. intros X. apply (NoDup_remove_2 _ _ _ ND). apply in_or_app. auto. }
    assert (FIX : forall o' h', received (annotation s k) o (inl o') ->
      exists K b hs Ls,
        Forall2 (receives s) ((k, o) :: todo) K /\ map fst b = map fst ((k, o) :: todo) /\ incl (map fst hs) (map fst ((k, o) :: todo)) /\
        cast_all c s todo (done ++ (k, o') :: todo) h' = Ok (Some (done ++ b, h' ++ hs)) /\
        mapM hard_values (map snd hs) = Ok Ls /\
        map (fun vw => (fill b (map fst hs) (fst vw), snd vw)) (product Ls) = scenarios K /\
        (hs = [] <-> existsb is_random K = false)).
    { intros o' h' Ho'. destruct (IH (done ++ [(k, o')]) h') as (K & b & hs & Ls & K1 & K2 & K3 & K4 & K5 & K6 & K7).
      - rewrite <- app_assoc. cbn. rewrite map_app in *. cbn in *. exact ND.
      - exact HA'.
      - exists ((k, inl o') :: K), ((k, o') :: b), hs, Ls. rewrite <- !app_assoc in K4. cbn in K4.
        split; [constructor; [split; [reflexivity|exact Ho']|exact K1]|]. split; [cbn; now rewrite K2|].
        split; [intros x X; right; exact (K3 x X)|]. split; [exact K4|]. split; [exact K5|]. split; [|exact K7].
        cbn [scenarios]. rewrite <- K6, map_map. apply map_ext. intros [vs w]. cbn [fst snd].
        rewrite fill_prefix; [reflexivity|]. intros X. exact (NDtail (K3 _ X)). }
    cbn [cast_all]. destruct (annotation s k) as [e|] eqn:Ea.
    + destruct R0 as [o' P|L P].
      * destruct (cast1_passed c e o o' T P) as (kk & o'' & E & S & P'). rewrite E. cbn [bind].
        destruct S as [[-> ->]| ->].
        -- apply FIX. constructor. exact P'.
        -- rewrite set_arg_here by exact ND. apply FIX. constructor. exact P'.
      * destruct (cast1_enumerated c e o L P) as (x & L' & E & V & P'). rewrite E. cbn [bind].
        destruct (IH (done ++ [(k, o)]) (h ++ [(k, (e, x))])) as (K & b & hs & Ls & K1 & K2 & K3 & K4 & K5 & K6 & K7).
        -- rewrite <- app_assoc. exact ND.
        -- exact HA'.
        -- exists ((k, inr L') :: K), ((k, o) :: b), ((k, (e, x)) :: hs), (L' :: Ls).
           rewrite <- !app_assoc in K4. cbn [app] in K4.
           split; [constructor; [split; [reflexivity|cbn; rewrite Ea; constructor; exact P']|exact K1]|].
           split; [cbn; now rewrite K2|]. split.
           { intros y [<-|Y]; [left; reflexivity|right; exact (K3 y Y)]. }
           split; [exact K4|]. split; [cbn [map snd mapM]; rewrite V; cbn [bind]; rewrite K5; reflexivity|].
           split; [|cbn; split; intros X; discriminate X].
           cbn [scenarios product]. unfold indep. rewrite <- K6. rewrite !flat_map_concat_map, !concat_map, !map_map. f_equal.
           apply map_ext. intros [v p]. rewrite !map_map. apply map_ext. intros [vs w]. cbn [fst snd map].
           f_equal. unfold fill at 1. cbn [combine fold_left fst snd]. rewrite set_arg_cons, key_eqb_refl.
           rewrite set_arg_other by (rewrite K2; exact NDtail).
           change (fill ((k, v) :: b) (map fst hs) vs = (k, v) :: fill b (map fst hs) vs).
           apply fill_prefix. intros X. exact (NDtail (K3 _ X)).
    + destruct R0 as [o' P|L P]; [|inversion P].
      apply FIX. constructor. constructor.
Qed.

(** without dice to enumerate there is exactly one scenario *)
Definition settled_value (kr : key * (obj + list (obj * Z))) : key * obj :=
  (fst kr, match snd kr with inl o => o | inr _ => ONone end).

Lemma scenarios_fixed K : existsb is_random K = false -> scenarios K = [(map settled_value K, 1)].
Proof.
  induction K as [|[k [o|L]] K IH]; intros H; [reflexivity| |discriminate]. cbn in H |- *. rewrite (IH H). reflexivity.
Qed.

Lemma plan_spec c s a : cfg_trunc c = false -> NoDup (map fst a) -> Forall (acceptable s) a ->
  exists K, Forall2 (receives s) a K /\
    make_plan c s a = Ok (if existsb is_random K then PProduct (scenarios K) else PDirect (map settled_value K)).
Proof.
  intros T ND HA. destruct (cast_all_spec c s T a [] [] ND HA) as (K & b & hs & Ls & K1 & K2 & K3 & K4 & K5 & K6 & K7).
  exists K. split; [exact K1|]. unfold make_plan. cbn [app] in K4. rewrite K4. cbn [bind].
  destruct hs as [|h hs].
  - rewrite (proj1 K7 eq_refl). rewrite scenarios_fixed in K6 by (apply K7; reflexivity).
    cbn in K5. injection K5 as <-. cbn in K6. injection K6 as ->. reflexivity.
  - destruct (existsb is_random K); [|discriminate (proj2 K7 eq_refl)]. rewrite K5. cbn [bind]. rewrite K6. reflexivity.
Qed.

(** *** C39: no dice to enumerate, so the function is called once *)
Lemma casting_table c s f a : cfg_trunc c = false -> NoDup (map fst a) ->
  Forall (fun ko => exists o', passed (annotation s (fst ko)) (snd ko) o') a ->
  exists a', Forall2 (fun ko ko' => fst ko' = fst ko /\ passed (annotation s (fst ko)) (snd ko) (snd ko')) a a' /\
    casting c s f a = f a'.
Proof.
  intros T ND HA. destruct (plan_spec c s a T ND) as (K & R & E).
  { eapply Forall_impl; [|exact HA]. intros ko [o' P]. exists (inl o'). constructor. exact P. }
  assert (F : existsb is_random K = false /\
    Forall2 (fun ko ko' => fst ko' = fst ko /\ passed (annotation s (fst ko)) (snd ko) (snd ko')) a (map settled_value K)).
  { clear E ND. revert HA. induction R as [|[k o] [k' r] a K [R1 R2] R IH]; intros HA; [split; [reflexivity|constructor]|].
    cbn [fst snd] in *. subst k'. inversion HA as [|? ? [o' P] HA']; subst. destruct (IH HA') as [I1 I2]. cbn [fst snd] in P.
    inversion R2 as [o2 P2 E2|L P2 E2]; subst.
    - split; [cbn; exact I1|]. constructor; [split; [reflexivity|exact P2]|exact I2].
    - exfalso. destruct P2; inversion P. }
  destruct F as [F1 F2]. exists (map settled_value K). split; [exact F2|].
  unfold casting, casting_in. rewrite E. cbn [bind]. rewrite F1. reflexivity.
Qed.

(** *** C37 and C38 *)

Lemma results_components c f (sc : list (args * Z)) :
  (forall a w, In (a, w) sc -> exists o, f a = Ok o /\ usable o) ->
  exists os ms, mapF (F := res) (fun A r => r) (@bind) (fun aw => o <- f (fst aw) ;; single o) sc = Ok os /\
    mapM to_mixin os = Ok ms /\ length ms = length sc /\ components ms (map snd sc) = outcomes f sc /\
    merge c os (map snd sc) = (r <- from_rvs c ms (map snd sc) ;; Ok (match r with Some x => ORV x | None => OBlank false end)).
Proof.
  intros H.
  assert (G : exists os ms, mapF (F := res) (fun A r => r) (@bind) (fun aw => o <- f (fst aw) ;; single o) sc = Ok os /\
    mapM to_mixin os = Ok ms /\ length ms = length sc /\ components ms (map snd sc) = outcomes f sc).
  { induction sc as [|[a w] sc IH]; [exists [], []; repeat split|].
    destruct IH as (os & ms & I1 & I2 & I3 & I4); [intros a' w' I; apply (H a' w'); right; exact I|].
    destruct (H a w (or_introl eq_refl)) as (o & E & U).
    assert (S : exists o1 m, single o = Ok o1 /\ to_mixin o1 = Ok m /\ mx_law m = result_law o).
    { destruct o as [v|s|l|l|l|x|b|]; cbn in U; try contradiction; cbn [single spread].
      - exists (OV v), (MxVal v). repeat split.
      - exists (OV (vsumZ l)), (MxVal (vsumZ l)). cbn [meta_sum]. rewrite (seq_sum_ints l U). repeat split.
      - exists (ORV x), (MxRV x). repeat split.
      - exists (OBlank b), MxBlank. repeat split.
      - exists ONone, MxBlank. repeat split. }
    destruct S as (o1 & m & S1 & S2 & S3). exists (o1 :: os), (m :: ms). cbn [mapF fst]. rewrite E. cbn [bind]. rewrite S1. cbn [bind].
    rewrite I1. cbn [bind]. split; [reflexivity|]. split; [cbn [mapM]; rewrite S2; cbn [bind]; rewrite I2; reflexivity|].
    split; [cbn; now rewrite I3|]. cbn [map snd components outcomes]. rewrite E, S3, I4. reflexivity. }
  destruct G as (os & ms & G1 & G2 & G3 & G4). exists os, ms. repeat split; auto. unfold merge. rewrite G2. reflexivity.
Qed.

Lemma outcomes_good f sc : nonneg sc -> (forall a w, In (a, w) sc -> exists o, f a = Ok o /\ usable o) -> Forall good (outcomes f sc).
Proof.
  intros N. induction sc as [|[a w] sc IH]; intros H; [constructor|]. inversion N as [|? ? Hw N']; subst. cbn in Hw.
  assert (IH' : Forall good (outcomes f sc)) by (apply IH; [exact N'|intros a' w' I; apply (H a' w'); right; exact I]).
  destruct (H a w (or_introl eq_refl)) as (o & E & U). cbn [outcomes]. rewrite E.
  destruct o as [v|s|l|l|l|x|b|]; cbn in U |- *; try contradiction; try exact IH'; constructor; try exact IH'; split; cbn; try exact Hw; auto.
  - split; [repeat constructor; cbn; lia|reflexivity].
  - split; [repeat constructor; cbn; lia|reflexivity].
Qed.

Lemma nonneg_image {A B} (f : A -> B) l : nonneg l -> nonneg (image f l).
Proof. unfold nonneg, image. intros H. apply Forall_map. eapply Forall_impl; [|exact H]. auto. Qed.

Lemma enumerated_nonneg e o L : enumerated e o L -> nonneg_die e o -> nonneg L.
Proof.
  intros H N. destruct H as [x|x L0 Hn Hs Hr [Q1 [Q2 Q3]]].
  - apply nonneg_image. exact N.
  - apply nonneg_image. apply Forall_forall. intros [t w] I. cbn. rewrite (Q3 t w I).
    apply mass_nonneg. apply nonneg_tuples. exact N.
Qed.

Lemma scenarios_nonneg s a K : dice_nonneg s a -> Forall2 (receives s) a K -> nonneg (scenarios K).
Proof.
  intros D R. induction R as [|[k o] [k' r] a K [R1 R2] R IH]; [repeat constructor; cbn; lia|].
  inversion D as [|? ? D1 D2]; subst. specialize (IH D2). cbn [fst snd] in *. destruct R2 as [o' P|L P]; cbn [scenarios].
  - unfold nonneg in *. apply Forall_map. eapply Forall_impl; [|exact IH]. auto.
  - pose proof (enumerated_nonneg _ _ _ P D1) as NL.
    unfold nonneg, indep in *. apply Forall_map. apply Forall_flat_map. eapply Forall_impl; [|exact NL].
    intros [v p] Hp. apply Forall_map. eapply Forall_impl; [|exact IH]. intros [a' w'] Hw. cbn in *. lia.
Qed.

Section Law.
  Variables (c : cfg) (s : sig) (f : args -> res obj) (a : args).
  Hypothesis T : cfg_trunc c = false.
  Hypothesis ND : NoDup (map fst a).
  Hypothesis DN : dice_nonneg s a.
  Hypothesis HA : Forall (acceptable s) a.

  Lemma casting_law : exists K, Forall2 (receives s) a K /\
    (existsb is_random K = true -> (forall a' w, In (a', w) (scenarios K) -> exists o, f a' = Ok o /\ usable o) ->
     let cs := outcomes f (scenarios K) in
     (cs = [] -> casting c s f a = Ok (OBlank false)) /\
     (0 < wtotal cs -> denominators cs * wtotal cs <= SUM_LIMIT ->
        exists q, casting c s f a = Ok (ORV q) /\ rv_roll q = 1 /\ rv_src q = None /\ canon (rv_dist q) /\ proper (rv_dist q) /\
          forall v, (Pr (rv_dist q) v == mixture v cs)%Q) /\
     (forall q, 0 < wtotal cs -> Z.of_nat (length (mix_list cs)) <= 10 ^ 10 -> casting c s f a = Ok (ORV q) ->
        forall v, (Qabs (Pr (rv_dist q) v - mixture v cs) <= 1 # 1000000000)%Q) /\
     (0 < wtotal cs -> denominators cs * wtotal cs < 2 ^ 1024 - 2 ^ 970 -> exists q, casting c s f a = Ok (ORV q))).
  Proof.
    destruct (plan_spec c s a T ND HA) as (K & R & E). exists K. split; [exact R|]. intros HR HF cs.
    destruct (results_components c f (scenarios K) HF) as (os & ms & C1 & C2 & C3 & C4 & C5).
    pose proof (outcomes_good f (scenarios K) (scenarios_nonneg s a K DN R) HF) as G.
    assert (EC : casting c s f a = (r <- from_rvs c ms (map snd (scenarios K)) ;; Ok (match r with Some x => ORV x | None => OBlank false end))).
    { unfold casting, casting_in. rewrite E. cbn [bind]. rewrite HR, C1. cbn [bind]. exact C5. }
    assert (LN : length ms = length (map snd (scenarios K))) by (rewrite map_length; exact C3).
    unfold cs. rewrite <- C4 in *. clear C1 C2 C5 HF. split; [|split; [|split]].
    - intros X. rewrite EC. destruct (from_rvs_blank c ms (map snd (scenarios K)) LN) as [B1 B2].
      rewrite B2; [reflexivity|]. apply B1. exact X.
    - intros W LIM.
      destruct (from_rvs_succeeds c ms (map snd (scenarios K)) T LN G) as [r X].
      { eapply Z.le_lt_trans; [exact LIM|]. reflexivity. }
      destruct (from_rvs_below c ms (map snd (scenarios K)) r T LN G W LIM X) as (q & -> & Q). exists q. rewrite EC, X. tauto.
    - intros q W LEN X. rewrite EC in X. destruct (from_rvs c ms (map snd (scenarios K))) as [[y|]|] eqn:Y; try discriminate X.
      cbn in X. injection X as ->. exact (from_rvs_close c ms (map snd (scenarios K)) q T LN G W LEN Y).
    - intros W LIM. destruct (from_rvs_succeeds c ms (map snd (scenarios K)) T LN G LIM) as [r X].
      destruct (from_rvs_law c ms (map snd (scenarios K)) r T LN G W X) as (q & -> & _). exists q. rewrite EC, X. reflexivity.
  Qed.

  Lemma prob_limit_ints d d' : prob_limit d = Ok d' -> int_vals d -> int_vals d'.
  Proof.
    unfold prob_limit. destruct (sum_probs d <=? SUM_LIMIT); [intros X; injection X as <-; auto|].
    destruct (limit_const (sum_probs d)) as [k|]; cbn [bind]; [|discriminate]. destruct (k =? 0); [discriminate|].
    intros X; injection X as <-. intro H. unfold int_vals in *. apply Forall_map. eapply Forall_impl; [|exact H]. auto.
  Qed.

  Lemma casting_ints : exists K, Forall2 (receives s) a K /\
    (existsb is_random K = true -> (forall a' w, In (a', w) (scenarios K) -> exists o, f a' = Ok o /\ usable o) ->
     Forall (fun wd => int_vals (snd wd)) (outcomes f (scenarios K)) -> forall q, casting c s f a = Ok (ORV q) -> int_vals (rv_dist q)).
  Proof.
    destruct (plan_spec c s a T ND HA) as (K & R & E). exists K. split; [exact R|]. intros HR HF HI q HQ.
    destruct (results_components c f (scenarios K) HF) as (os & ms & C1 & C2 & C3 & C4 & C5).
    pose proof (outcomes_good f (scenarios K) (scenarios_nonneg s a K DN R) HF) as G.
    assert (EC : casting c s f a = (r <- from_rvs c ms (map snd (scenarios K)) ;; Ok (match r with Some x => ORV x | None => OBlank false end))).
    { unfold casting, casting_in. rewrite E. cbn [bind]. rewrite HR, C1. cbn [bind]. exact C5. }
    assert (LN : length ms = length (map snd (scenarios K))) by (rewrite map_length; exact C3).
    rewrite EC, from_rvs_is in HQ by (try assumption; rewrite C4; exact G). rewrite C4 in HQ.
    destruct (outcomes f (scenarios K)) as [|c0 cs]; [discriminate HQ|].
    destruct (prob_limit (normal c (mix_list (c0 :: cs)))) as [d|] eqn:PL; cbn [bind] in HQ; [|discriminate].
    injection HQ as <-. cbn [rv_of rv_dist]. apply (prob_limit_ints _ _ PL). apply normal_int.
    unfold int_vals, mix_list, scaled. apply Forall_concat. apply Forall_map. eapply Forall_impl; [|exact HI].
    intros wd H. apply Forall_map. eapply Forall_impl; [|exact H]. auto.
  Qed.
End Law.

(** ** Functions whose results are numbers *)

Lemma outcomes_values f g sc : (forall a w, In (a, w) sc -> f a = Ok (OV (g a))) ->
  outcomes f sc = map (fun aw => (snd aw, [(g (fst aw), 1)])) sc.
Proof.
  induction sc as [|[a w] sc IH]; intros H; [reflexivity|]. cbn [outcomes map fst snd].
  rewrite (H a w (or_introl eq_refl)). cbn [result_law]. rewrite IH; [reflexivity|]. intros a' w' I. apply (H a' w'). right. exact I.
Qed.

Lemma values_cs {A} (g : A -> pval) (sc : list (A * Z)) :
  map (fun aw => (snd aw, [(g (fst aw), 1)])) sc =
  components (map MxVal (map fst (image g sc))) (map snd (image g sc)).
Proof. rewrite (vals_components (image g sc)). unfold image. rewrite map_map. reflexivity. Qed.

Lemma total_image {A B} (g : A -> B) (l : list (A * Z)) : total (image g l) = total l.
Proof. unfold total, image. induction l as [|[a w] l IH]; [reflexivity|]. cbn in *. rewrite IH. reflexivity. Qed.

Lemma casting_values c s f a : cfg_trunc c = false -> NoDup (map fst a) -> dice_nonneg s a -> Forall (acceptable s) a ->
  exists K, Forall2 (receives s) a K /\
    (existsb is_random K = true -> forall g, (forall a' w, In (a', w) (scenarios K) -> f a' = Ok (OV (g a'))) ->
     0 < total (scenarios K) -> total (scenarios K) <= SUM_LIMIT ->
     exists q, casting c s f a = Ok (ORV q) /\ rv_roll q = 1 /\ rv_src q = None /\ canon (rv_dist q) /\ proper (rv_dist q) /\
       same_law (rv_dist q) (image g (scenarios K))).
Proof.
  intros T ND DN HA. destruct (casting_law c s f a T ND DN HA) as (K & R & H). exists K. split; [exact R|].
  intros HR g HF P L. destruct (H HR) as (_ & H2 & _).
  { intros a' w I. exists (OV (g a')). split; [apply (HF a' w I)|exact Logic.I]. }
  rewrite (outcomes_values f g _ HF), values_cs in H2.
  destruct H2 as (q & Q1 & Q2 & Q3 & Q4 & Q5 & Q6).
  - rewrite (vals_wtotal (image g (scenarios K))), total_image. exact P.
  - rewrite (vals_wtotal (image g (scenarios K))), (vals_denominators (image g (scenarios K))), total_image. lia.
  - exists q. repeat split; auto; try apply Q4; try apply Q5. intros v. rewrite Q6. apply vals_mixture.
Qed.

(** ** Sorted rolls are determined by their description *)

Lemma sorted_rolls_perm n d L L' : sorted_rolls n d L -> sorted_rolls n d L' -> Permutation L L'.
Proof.
  intros (A1 & A2 & A3) (B1 & B2 & B3). apply NoDup_Permutation.
  - exact (NoDup_map_inv fst L A1).
  - exact (NoDup_map_inv fst L' B1).
  - assert (G : forall M M' : list (list pval * Z), (forall t, In t (map fst M) -> In t (map fst M')) ->
      (forall t w, In (t, w) M -> w = mass (fun u => list_eqb veqb (descending u) t) (tuples n d)) ->
      (forall t w, In (t, w) M' -> w = mass (fun u => list_eqb veqb (descending u) t) (tuples n d)) ->
      forall x, In x M -> In x M').
    { intros M M' H1 H2 H3 [t w] I. pose proof (in_map fst _ _ I) as J. cbn in J. apply H1 in J. apply in_map_iff in J.
      destruct J as [[t' w'] [E J]]. cbn in E. subst t'. rewrite (H2 t w I). rewrite (H3 t w' J) in J. exact J. }
    intros x. split; [apply (G L L'); auto; intros t I; apply B2, A2, I|apply (G L' L); auto; intros t I; apply A2, B2, I].
Qed.

Lemma sorted_rolls_mass n d L (P : list pval -> bool) : strict d -> sorted_rolls n d L ->
  mass P L = mass (fun u => P (descending u)) (tuples n d).
Proof.
  intros S H. set (y := mkRV d (Z.of_nat n) (Some d)).
  destruct (expanded_spec y d) as (L0 & E0 & D0 & I0 & W0 & T0 & M0); [reflexivity|exact S|cbn; lia|].
  cbn [rv_roll y] in *. rewrite Nat2Z.id in *.
  rewrite <- M0. apply mass_perm. apply (sorted_rolls_perm n d); [exact H|]. split; [exact D0|]. split; [exact I0|exact W0].
Qed.

(** ** Blank arguments *)

Lemma casting_blank c s f a : cfg_trunc c = false -> NoDup (map fst a) ->
  Forall (fun ko => acceptable s ko \/ exists b, snd ko = OBlank b) a ->
  (exists k b e, In (k, OBlank b) a /\ annotation s k = Some e /\ (e = AN \/ e = AS)) ->
  casting c s f a = Ok (OBlank true).
Proof.
  intros T ND HA HB. unfold casting, casting_in, make_plan.
  assert (G : forall todo a' h, Forall (fun ko => acceptable s ko \/ exists b, snd ko = OBlank b) todo ->
    (exists k b e, In (k, OBlank b) todo /\ annotation s k = Some e /\ (e = AN \/ e = AS)) ->
    cast_all c s todo a' h = Ok None).
  { induction todo as [|[k o] todo IH]; intros a' h H (k0 & b0 & e0 & I0 & E0 & A0); [destruct I0|].
    inversion H as [|? ? H1 H2]; subst. cbn [cast_all].
    destruct I0 as [X|X].
    - injection X as -> ->. rewrite E0. destruct A0 as [-> | ->]; reflexivity.
    - assert (IH' : forall a' h, cast_all c s todo a' h = Ok None) by (intros; apply IH; [exact H2|exists k0, b0, e0; auto]).
      destruct (annotation s k) as [e|] eqn:Ea; [|apply IH'].
      destruct H1 as [[r R]|[b E]]; cbn [fst snd] in *.
      + rewrite Ea in R. destruct R as [o' P|L P].
        * destruct (cast1_passed c e o o' T P) as (kk & o'' & E & S & P'). rewrite E. cbn [bind].
          destruct S as [[-> ->]| ->]; apply IH'.
        * destruct (cast1_enumerated c e o L P) as (x & L' & E & _). rewrite E. cbn [bind]. apply IH'.
      + subst o. cbn [cast1 bind]. destruct e; try reflexivity; apply IH'. }
  rewrite (G a a [] HA HB). reflexivity.
Qed.

(** ** A body without side effects, under the depth limiter *)

Definition returns {A} (m : M A) (r : res A) : Prop := forall w, exists w', m w = Some (r, w').

Lemma returns_bind {A B} (m : M A) r (f : A -> M B) g : returns m r -> (forall a, returns (f a) (g a)) -> returns (mbind m f) (bind r g).
Proof.
  intros Hm Hf w. unfold mbind. destruct (Hm w) as [w1 E]. rewrite E. destruct r as [a|e]; [apply Hf|exists w1; reflexivity].
Qed.
Lemma returns_ret {A} (r : res A) : returns (mret r) r.
Proof. intros w. exists w. reflexivity. Qed.

Lemma returns_map {A B} (f : A -> M B) g l : (forall a, returns (f a) (g a)) ->
  returns (mapF (@mret) (@mbind) f l) (mapF (F := res) (fun A r => r) (@bind) g l).
Proof.
  intros H. induction l as [|x l IH]; [apply returns_ret|]. apply returns_bind; [apply H|]. intros y.
  apply returns_bind; [exact IH|]. intros ys. apply returns_ret.
Qed.

Lemma casting_pure c s f g a : (forall a, returns (f a) (g a)) ->
  returns (casting_in (@mret) (@mbind) c s f a) (casting c s g a).
Proof.
  intros H. apply returns_bind; [apply returns_ret|]. intros [|a'|calls]; [apply returns_ret|apply H|].
  apply returns_bind; [|intros os; apply returns_ret]. apply returns_map. intros x.
  apply returns_bind; [apply H|]. intros o. apply returns_ret.
Qed.

(** calling a decorated function that calls no other one, below the limit *)
Lemma call_simple c P i g a w n :
  (forall a', fd_body (P i) a' = match g a' with Ok o => Ret o | Err e => Raise e end) -> w_depth w < w_max w ->
  exists w', call_fn (S n) c P i a w =
    Some (match casting c (fd_sig (P i)) g a with Ok ONone => Ok (OBlank false) | r => r end, w').
Proof.
  intros H L. cbn [call_fn]. unfold limited. rewrite (proj2 (Z.leb_gt _ _) L).
  match goal with |- context[casting_in _ _ c _ ?F a] => assert (R : returns (casting_in (@mret) (@mbind) c (fd_sig (P i)) F a) (casting c (fd_sig (P i)) g a)) end.
  { apply casting_pure. intros a' w1. rewrite H. unfold observed. destruct (g a'); cbn; eexists; reflexivity. }
  destruct (R (add_depth 1 w)) as [w1 E]. rewrite E. destruct (casting c (fd_sig (P i)) g a) as [[]|e]; eexists; reflexivity.
Qed.

(** ** Readable special cases *)

Lemma mass_image {A B} (g : A -> B) P (l : list (A * Z)) : mass P (image g l) = mass (fun a => P (g a)) l.
Proof. unfold image. induction l as [|[a w] l IH]; [reflexivity|]. cbn. rewrite IH. reflexivity. Qed.

Lemma scenarios_random_mass k (L : list (obj * Z)) K (P : args -> bool) :
  mass P (scenarios ((k, inr L) :: K)) = mass (fun xa => P ((k, fst xa) :: snd xa)) (indep L (scenarios K)).
Proof.
  cbn [scenarios]. induction (indep L (scenarios K)) as [|[[x a] w] l IH]; [reflexivity|]. cbn [map mass fst snd]. rewrite IH. reflexivity.
Qed.

Lemma mass_map_const {A B} (P : B -> bool) (f : A -> B) p (l : list (A * Z)) :
  mass P (map (fun y => (f (fst y), p * snd y)) l) = p * mass (fun a => P (f a)) l.
Proof. induction l as [|[a w] l IH]; [cbn; lia|]. cbn [map mass fst snd]. rewrite IH. destruct (P (f a)); lia. Qed.

Lemma mass_indep_image {A B C D} (f : A -> C) (g : B -> D) P (a : list (A * Z)) (b : list (B * Z)) :
  mass P (indep (image f a) (image g b)) = mass (fun xy => P (f (fst xy), g (snd xy))) (indep a b).
Proof.
  induction a as [|[x p] a IH]; [reflexivity|].
  change (mass P (map (fun y => ((f x, fst y), p * snd y)) (image g b) ++ indep (image f a) (image g b)) =
          mass (fun xy => P (f (fst xy), g (snd xy))) (map (fun y => ((x, fst y), p * snd y)) b ++ indep a b)).
  rewrite !mass_app, IH. f_equal.
  rewrite (mass_map_const P (fun y => (f x, y)) p (image g b)), mass_image.
  rewrite (mass_map_const (fun xy => P (f (fst xy), g (snd xy))) (fun y => (x, y)) p b). reflexivity.
Qed.

Lemma mass_indep_r {A B} (a : list (A * Z)) (b b' : list (B * Z)) : (forall P, mass P b = mass P b') ->
  forall P, mass P (indep a b) = mass P (indep a b').
Proof.
  intros H P. induction a as [|[x p] a IH]; [reflexivity|].
  change (mass P (map (fun y => ((x, fst y), p * snd y)) b ++ indep a b) = mass P (map (fun y => ((x, fst y), p * snd y)) b' ++ indep a b')).
  rewrite !mass_app, IH, !(mass_map_const P (fun y => (x, y)) p), H. reflexivity.
Qed.

Lemma mass_indep_one {A B} (b : B) P (a : list (A * Z)) : mass P (indep a [(b, 1)]) = mass (fun x => P (x, b)) a.
Proof.
  induction a as [|[x p] a IH]; [reflexivity|].
  change ((if P (x, b) then p * 1 else 0) + mass P (indep a [(b, 1)]) = (if P (x, b) then p else 0) + mass (fun x => P (x, b)) a).
  rewrite IH, Z.mul_1_r. reflexivity.
Qed.

Lemma same_law_masses (a : dist) (b : dist) : (forall P, mass P a = mass P b) -> same_law a b.
Proof. intros H v. unfold Pr, wt, total. rewrite !H. reflexivity. Qed.
Lemma same_law_trans a b c : same_law a b -> same_law b c -> same_law a c.
Proof. intros H K v. rewrite (H v). apply K. Qed.

Lemma receives_N s k x K : annotation s k = Some AN -> receives s (k, ORV x) K -> K = (k, inr (image OV (rv_dist x))).
Proof.
  intros A [R1 R2]. destruct K as [k' r]. cbn in *. subst k'. rewrite A in R2.
  inversion R2 as [o' P E|L P E]; subst; inversion P; subst; reflexivity.
Qed.

Lemma casting_one_die c s f x g : cfg_trunc c = false -> annotation s (KPos 0) = Some AN ->
  proper (rv_dist x) -> total (rv_dist x) <= SUM_LIMIT ->
  (forall v, In v (vals (rv_dist x)) -> f (positional [OV v]) = Ok (OV (g v))) ->
  exists q, casting c s f (positional [ORV x]) = Ok (ORV q) /\ canon (rv_dist q) /\ proper (rv_dist q) /\
    same_law (rv_dist q) (image g (rv_dist x)).
Proof.
  intros T A [N P] L HF.
  destruct (casting_values c s f (positional [ORV x])) as (K & R & H); auto.
  - repeat constructor. intros [].
  - constructor; [|constructor]. cbn [fst snd]. rewrite A. exact N.
  - repeat constructor. exists (inr (image OV (rv_dist x))). cbn. rewrite A. constructor. constructor.
  - inversion R as [|? K1 ? ? R1 R2]; subst. inversion R2; subst. apply (receives_N _ _ _ _ A) in R1. subst K1.
    assert (MS : forall Q, mass Q (scenarios [(KPos 0, inr (image OV (rv_dist x)))]) = mass (fun v => Q [(KPos 0, OV v)]) (rv_dist x)).
    { intros Q. rewrite scenarios_random_mass. cbn [scenarios]. rewrite mass_indep_one. cbn [fst snd]. rewrite mass_image. reflexivity. }
    destruct (H eq_refl (fun a => match a with [(_, OV v)] => g v | _ => vint 0 end)) as (q & Q1 & Q2 & Q3 & Q4 & Q5 & Q6).
    + intros a' w I. cbn [scenarios] in I. unfold indep, image in I. rewrite flat_map_concat_map, map_map in I. cbn [map concat] in I.
      apply in_map_iff in I. destruct I as [y [E I]]. injection E as <- <-.
      apply in_concat in I. destruct I as [l0 [I1 I2]]. apply in_map_iff in I1. destruct I1 as [[v p] [<- I1]].
      destruct I2 as [<-|[]]. cbn [fst snd]. apply HF. exact (in_map fst _ _ I1).
    + unfold total. rewrite MS. exact P.
    + unfold total. rewrite MS. exact L.
    + exists q. repeat split; auto; try apply Q4; try apply Q5. eapply same_law_trans; [exact Q6|].
      apply same_law_masses. intros Q. rewrite !mass_image, MS. reflexivity.
Qed.

Lemma in_image {A B} (g : A -> B) (l : list (A * Z)) b w : In (b, w) (image g l) -> exists a, In (a, w) l /\ b = g a.
Proof. unfold image. intros H. apply in_map_iff in H. destruct H as [[a p] [E I]]. injection E as <- <-. exists a. auto. Qed.
Lemma in_indep {A B} (a : list (A * Z)) (b : list (B * Z)) x y w : In ((x, y), w) (indep a b) ->
  exists p q, In (x, p) a /\ In (y, q) b /\ w = p * q.
Proof.
  unfold indep. intros H. apply in_flat_map in H. destruct H as [[x' p] [I H]]. apply in_map_iff in H.
  destruct H as [[y' q] [E J]]. injection E as <- <- <-. exists p, q. auto.
Qed.

Lemma casting_two_dice c s f x y g : cfg_trunc c = false -> annotation s (KPos 0) = Some AN -> annotation s (KPos 1) = Some AN ->
  proper (rv_dist x) -> proper (rv_dist y) ->
  total (rv_dist x) * total (rv_dist y) <= SUM_LIMIT ->
  (forall u v, In u (vals (rv_dist x)) -> In v (vals (rv_dist y)) -> f (positional [OV u; OV v]) = Ok (OV (g u v))) ->
  exists q, casting c s f (positional [ORV x; ORV y]) = Ok (ORV q) /\ canon (rv_dist q) /\ proper (rv_dist q) /\
    same_law (rv_dist q) (image (fun uv => g (fst uv) (snd uv)) (indep (rv_dist x) (rv_dist y))).
Proof.
  intros T A B [N P] [N' P'] L HF.
  destruct (casting_values c s f (positional [ORV x; ORV y])) as (K & R & H); auto.
  - repeat constructor; cbn; intuition discriminate.
  - constructor; [|constructor; [|constructor]]; cbn [fst snd]; [rewrite A; exact N|rewrite B; exact N'].
  - repeat constructor; cbn [fst snd].
    + exists (inr (image OV (rv_dist x))). cbn. rewrite A. constructor. constructor.
    + exists (inr (image OV (rv_dist y))). cbn. rewrite B. constructor. constructor.
  - inversion R as [|? K1 ? ? R1 R2]; subst. inversion R2 as [|? K2 ? ? R3 R4]; subst. inversion R4; subst.
    apply (receives_N _ _ _ _ A) in R1. apply (receives_N _ _ _ _ B) in R3. subst K1 K2.
    set (K := [(KPos 0, inr (image OV (rv_dist x))); (KPos 1, inr (image OV (rv_dist y)))] : list (key * (obj + list (obj * Z)))) in *.
    assert (MS : forall Q, mass Q (scenarios K) = mass (fun uv => Q [(KPos 0, OV (fst uv)); (KPos 1, OV (snd uv))]) (indep (rv_dist x) (rv_dist y))).
    { intros Q. unfold K. rewrite scenarios_random_mass.
      assert (E : forall P, mass P (scenarios [(KPos 1, inr (image OV (rv_dist y)))]) = mass P (image (fun v => [(KPos 1, OV v)]) (rv_dist y))).
      { intros P0. rewrite scenarios_random_mass. cbn [scenarios]. rewrite mass_indep_one. cbn [fst snd]. rewrite !mass_image. reflexivity. }
      transitivity (mass (fun xa : obj * args => Q ((KPos 0, fst xa) :: snd xa)) (indep (image OV (rv_dist x)) (image (fun v => [(KPos 1, OV v)]) (rv_dist y)))).
      - apply mass_indep_r. exact E.
      - rewrite mass_indep_image. reflexivity. }
    assert (TS : total (scenarios K) = total (rv_dist x) * total (rv_dist y)).
    { unfold total at 1. rewrite MS. apply total_indep. }
    destruct (H eq_refl (fun a => match a with [(_, OV u); (_, OV v)] => g u v | _ => vint 0 end)) as (q & Q1 & Q2 & Q3 & Q4 & Q5 & Q6).
    + intros a' w I. cbn [scenarios K] in I. apply in_map_iff in I. destruct I as [[[o1 a1] w1] [E I]]. injection E as <- <-.
      apply in_indep in I. destruct I as (p & q & I1 & I2 & _). apply in_image in I1. destruct I1 as (u & I1 & ->).
      apply in_map_iff in I2. destruct I2 as [[[o2 a2] w2] [E I2]]. injection E as <- <-.
      apply in_indep in I2. destruct I2 as (p' & q' & I2 & I3 & _). apply in_image in I2. destruct I2 as (v & I2 & ->).
      destruct I3 as [E|[]]. injection E as <- <-. cbn [fst snd].
      apply (HF u v); [exact (in_map fst _ _ I1)|exact (in_map fst _ _ I2)].
    + rewrite TS. apply Z.mul_pos_pos; assumption.
    + rewrite TS. exact L.
    + exists q. repeat split; auto; try apply Q4; try apply Q5. eapply same_law_trans; [exact Q6|].
      apply same_law_masses. intros Q. rewrite !mass_image, MS. reflexivity.
Qed.

Lemma casting_dice_seq c s f x g : cfg_trunc c = false -> annotation s (KPos 0) = Some AS ->
  Forall (fun v => is_number v = true) (vals (rv_die x)) -> strict (rv_die x) -> 0 <= rv_roll x ->
  proper (rv_die x) -> total (rv_die x) ^ rv_roll x <= SUM_LIMIT ->
  (forall t, length t = Z.to_nat (rv_roll x) -> Forall (fun a => In a (vals (rv_die x))) t -> StronglySorted (fun a b => vleb b a = true) t ->
     f (positional [OSeq t]) = Ok (OV (g t))) ->
  exists q, casting c s f (positional [ORV x]) = Ok (ORV q) /\ canon (rv_dist q) /\ proper (rv_dist q) /\
    same_law (rv_dist q) (image (fun t => g (descending t)) (tuples (Z.to_nat (rv_roll x)) (rv_die x))).
Proof.
  intros T A NU S RO [N P] L HF.
  destruct (roll_seqs_numbers x NU S RO) as (L0 & _ & SR0).
  destruct (casting_values c s f (positional [ORV x])) as (K & R & H); auto.
  - repeat constructor. intros [].
  - constructor; [|constructor]. cbn [fst snd]. rewrite A. exact N.
  - repeat constructor. exists (inr (image OSeq L0)). cbn. rewrite A. constructor. apply enumerated_S; assumption.
  - inversion R as [|? K1 ? ? R1 R2]; subst. inversion R2; subst. destruct R1 as [E1 R1]. destruct K1 as [k1 r1]. cbn [fst snd positional positional_from] in *.
    subst k1. rewrite A in R1. inversion R1 as [o' P0 E|L1 P1 E]; subst; [inversion P0|].
    inversion P1 as [|x' L2 NU' S' RO' SR X1 X2 X3]; subst. clear R1 R R2 P1.
    assert (MS : forall Q, mass Q (scenarios [(KPos 0, inr (image OSeq L2))]) = mass (fun t => Q [(KPos 0, OSeq (descending t))]) (tuples (Z.to_nat (rv_roll x)) (rv_die x))).
    { intros Q. rewrite scenarios_random_mass. cbn [scenarios]. rewrite mass_indep_one. cbn [fst snd]. rewrite mass_image.
      rewrite (sorted_rolls_mass _ _ L2 _ S SR). reflexivity. }
    assert (TS : total (scenarios [(KPos 0, inr (image OSeq L2))]) = total (rv_die x) ^ rv_roll x).
    { unfold total at 1. rewrite MS. change (total (tuples (Z.to_nat (rv_roll x)) (rv_die x)) = total (rv_die x) ^ rv_roll x).
      rewrite total_tuples, Z2Nat.id; auto. }
    destruct (H eq_refl (fun a => match a with [(_, OSeq t)] => g t | _ => vint 0 end)) as (q & Q1 & Q2 & Q3 & Q4 & Q5 & Q6).
    + intros a' w I. cbn [scenarios] in I. apply in_map_iff in I. destruct I as [[[o1 a1] w1] [E I]]. injection E as <- <-.
      apply in_indep in I. destruct I as (p & q & I1 & I2 & _). apply in_image in I1. destruct I1 as (t & I1 & ->).
      destruct I2 as [E|[]]. injection E as <- <-. cbn [fst snd].
      apply (in_map fst) in I1. cbn in I1. apply SR in I1. apply HF; apply I1.
    + rewrite TS. apply Z.pow_pos_nonneg; assumption.
    + rewrite TS. exact L.
    + exists q. repeat split; auto; try apply Q4; try apply Q5. eapply same_law_trans; [exact Q6|].
      apply same_law_masses. intros Q. rewrite !mass_image, MS. reflexivity.
Qed.

Lemma casting_roll_seq c calls n d r s f g : Forall int_call calls -> int_vals (rv_dist d) -> 2 <= n ->
  roll_after c calls (oint n) (Some (ORV d)) = Ok (ORV r) ->
  cfg_trunc c = false -> annotation s (KPos 0) = Some AS -> wf (rv_dist d) -> 0 < total (rv_dist d) ->
  total (rv_dist d) ^ n <= SUM_LIMIT ->
  (forall t, length t = Z.to_nat n -> Forall (fun a => In a (vals (rv_dist d))) t -> StronglySorted (fun a b => vleb b a = true) t ->
     f (positional [OSeq t]) = Ok (OV (g t))) ->
  exists q, casting c s f (positional [ORV r]) = Ok (ORV q) /\ canon (rv_dist q) /\ proper (rv_dist q) /\
    same_law (rv_dist q) (image (fun t => g (descending t)) (tuples (Z.to_nat n) (rv_dist d))).
Proof.
  intros HC HI Hn HR T A [W1 [W2 W3]] P L HF. destruct (roll_source c calls n d r HC HI Hn HR) as [E1 E2].
  rewrite <- E1, <- E2 in *. apply casting_dice_seq; auto; try lia.
  - apply Forall_forall. intros v I. unfold vals in I. apply in_map_iff in I. destruct I as [vp [<- I]].
    pose proof (proj1 (Forall_forall _ _) HI vp I) as X. cbn in X. destruct (fst vp) as [n0|]; [reflexivity|discriminate].
  - split; assumption.
Qed.

Lemma mapF_res {A B} (f : A -> res B) l : mapF (F := res) (fun A r => r) (@bind) f l = mapM f l.
Proof. induction l as [|x l IH]; [reflexivity|]. cbn [mapF mapM]. rewrite IH. reflexivity. Qed.
Lemma mapM_map {A B C} (f : B -> res C) (g : A -> B) l : mapM f (map g l) = mapM (fun a => f (g a)) l.
Proof. induction l as [|x l IH]; [reflexivity|]. cbn [map mapM]. rewrite IH. reflexivity. Qed.

(** one call per sorted roll *)
Lemma casting_roll_calls c calls n d r s : Forall int_call calls -> int_vals (rv_dist d) -> 2 <= n ->
  roll_after c calls (oint n) (Some (ORV d)) = Ok (ORV r) ->
  cfg_trunc c = false -> annotation s (KPos 0) = Some AS -> wf (rv_dist d) ->
  exists L, sorted_rolls (Z.to_nat n) (rv_dist d) L /\
    forall f, casting c s f (positional [ORV r]) =
      (os <- mapM (fun tw => o <- f (positional [OSeq (fst tw)]) ;; single o) L ;; merge c os (map snd L)).
Proof.
  intros HC HI Hn HR T A [W1 [W2 W3]]. destruct (roll_source c calls n d r HC HI Hn HR) as [E1 E2].
  assert (NU : Forall (fun v => is_number v = true) (vals (rv_die r))).
  { rewrite E2. apply Forall_forall. intros v I. unfold vals in I. apply in_map_iff in I. destruct I as [vp [<- I]].
    pose proof (proj1 (Forall_forall _ _) HI vp I) as X. cbn in X. destruct (fst vp) as [n0|]; [reflexivity|discriminate]. }
  destruct (roll_seqs_numbers r NU) as (L & EL & SL); [rewrite E2; exact W2|lia|]. rewrite E1, E2 in SL.
  exists L. split; [exact SL|]. intros f. unfold casting, casting_in, make_plan.
  cbn [positional positional_from cast_all]. rewrite A. cbn [cast1 spread bind cast_all app].
  cbn [map fst snd mapM hard_values]. rewrite EL. cbn [bind]. rewrite mapF_res.
  assert (EP : map (fun vw : list obj * Z => (fill [(KPos 0, ORV r)] [KPos 0] (fst vw), snd vw)) (product [image OSeq L])
             = map (fun tw => (positional [OSeq (fst tw)], snd tw)) L).
  { cbn [product]. unfold image. rewrite flat_map_concat_map, map_map. clear. induction L as [|[t w] L IH]; [reflexivity|].
    cbn [map concat fst snd app]. f_equal; [|exact IH]. unfold fill. cbn. rewrite Z.mul_1_r. reflexivity. }
  rewrite EP, mapM_map, map_map. reflexivity.
Qed.
