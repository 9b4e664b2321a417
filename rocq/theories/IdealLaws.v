(** The library computes what the ideal meaning of dice programs says: proofs. *)
From Coq Require Import String Ascii List ZArith QArith Bool Lia.
From Verif Require Import PyBase Num Val RVModel UtilModel Obj AtModel CastModel DispModel RollModel RollerModel
  LibModel SettingsModel LexModel ParseModel SynSpec Runtime MeanSpec RunModel SettingsFacts RollFacts RollObjFacts
  RefineFacts IdealFacts IdealSpec IdealVals IdealCast IdealLib.
Import ListNotations.
Open Scope string_scope.
Open Scope Z_scope.
Open Scope list_scope.
Open Scope run_scope.

Definition shows (a : ival * option ival) (b : obj * option obj) : Prop :=
  is_val (fst a) (fst b) /\ opt_rel is_val (snd a) (snd b).

(** Settings that mean what the ideal meaning takes them to be, and known rolls that are right. *)
Definition usable (h : bool) (e : Z) (s : settings) (m : memo) : Prop :=
  0 <= e /\ exists c, cfg_of s = Some c /\ cfg_trunc c = false /\ cfg_highest c = h /\ cfg_explode c = e /\ memo_ok c m.
Record stands_for (w : iworld) (w' : RunModel.world) : Prop := {
  sf_usable : usable (iw_highest w) (iw_explode w) (rw_settings w') (rw_memo w');
  sf_depth : as_num (get "INTERNAL_CURR_DEPTH" (rw_settings w')) = Some (iw_depth w);
  sf_limit : as_num (get "maximum function depth" (rw_settings w')) = Some (iw_limit w);
  sf_warned : exists b, as_flag (get "INTERNAL_CURR_DEPTH_WARNING_PRINTED" (rw_settings w')) = Some b;
  sf_outputs : Forall2 shows (iw_outputs w) (rw_outputs w') }.

Notation fo := (follows stands_for).

Lemma roll_pure_same t s h h' e e' m m' w p d : roll_pure (mkCfg t s h e m w) p d = roll_pure (mkCfg t s h' e' m' w) p d.
Proof. induction p as [p IH|p IH|]; cbn [roll_pure]; [rewrite IH; reflexivity|rewrite IH; reflexivity|reflexivity]. Qed.
Lemma memo_same t s h h' e e' m m' w l : memo_ok (mkCfg t s h e m w) l -> memo_ok (mkCfg t s h' e' m' w) l.
Proof.
  intro H. apply (Forall_impl _ (P := fun _ => _)) with (2 := H). intros x [H1 [p [H2 [H3 H4]]]]. split; [exact H1|].
  exists p. rewrite (roll_pure_same t s h' h e' e m' m w). auto.
Qed.

Ltac look := rewrite ?get_put;
  repeat match goal with |- context [if String.eqb ?a ?b then _ else _] =>
    first [change (String.eqb a b) with true | change (String.eqb a b) with false]; cbv iota end.

Lemma cfg_internal n v s : n = "INTERNAL_CURR_DEPTH" \/ n = "INTERNAL_CURR_DEPTH_WARNING_PRINTED" -> cfg_of (put n v s) = cfg_of s.
Proof. intros [-> | ->]; unfold cfg_of; look; reflexivity. Qed.
Lemma usable_internal h e n v s m : n = "INTERNAL_CURR_DEPTH" \/ n = "INTERNAL_CURR_DEPTH_WARNING_PRINTED" ->
  usable h e s m -> usable h e (put n v s) m.
Proof. intros H [P [c [E U]]]. split; [exact P|]. exists c. rewrite (cfg_internal n v s H). auto. Qed.

Ltac settle :=
  lazymatch goal with E : cfg_of ?s = Some _ |- _ =>
    unfold cfg_of in E; unfold usable, cfg_of; look; cbn [as_num];
    destruct (as_flag (get "RV_TRUNC" s)) as [tr|]; [|discriminate];
    destruct (as_flag (get "RV_IGNORE_ZERO_PROBS" s)) as [s0|]; [|discriminate];
    destruct (get "position order" s) as [o0|]; [|discriminate];
    destruct (as_num (get "explode depth" s)) as [e0|]; [|discriminate];
    destruct (as_num (get "maximum function depth" s)) as [m0|]; [|discriminate];
    destruct (as_num (get "DEFAULT_OUTPUT_WIDTH" s)) as [w0|]; [|discriminate];
    destruct (text_eq "highest first" o0) as [h0|] eqn:Eo; [|discriminate]; injection E as <-
  end.
Lemma usable_limit h e z s m : usable h e s m -> usable h e (put "maximum function depth" (SInt z) s) m.
Proof.
  intros [P [c [E [T [H [X M]]]]]]. settle. cbn [cfg_trunc cfg_highest cfg_explode] in T, H, X. subst tr h0 e0. split; [exact P|].
  eexists. split; [reflexivity|]. split; [reflexivity|]. split; [reflexivity|]. split; [reflexivity|]. exact (memo_same _ _ _ _ _ _ _ _ _ _ M).
Qed.
Lemma usable_explode h e z s m : 0 <= z -> usable h e s m -> usable h z (put "explode depth" (SInt z) s) m.
Proof.
  intros Z0 [P [c [E [T [H [X M]]]]]]. settle. cbn [cfg_trunc cfg_highest cfg_explode] in T, H, X. subst tr h0 e0. split; [exact Z0|].
  eexists. split; [reflexivity|]. split; [reflexivity|]. split; [reflexivity|]. split; [reflexivity|]. exact (memo_same _ _ _ _ _ _ _ _ _ _ M).
Qed.
Lemma usable_order h e o s m : usable h e s m -> usable (String.eqb "highest first" o) e (put "position order" (SText o) s) m.
Proof.
  intros [P [c [E [T [H [X M]]]]]]. settle. cbn [cfg_trunc cfg_highest cfg_explode] in T, H, X. subst tr h0 e0. split; [exact P|].
  cbn [text_eq]. eexists. split; [reflexivity|]. split; [reflexivity|]. split; [reflexivity|]. split; [reflexivity|]. exact (memo_same _ _ _ _ _ _ _ _ _ _ M).
Qed.

(** ** The parts of the runtime *)

Lemma fo_with_world {A1 A2} (R : A1 -> A2 -> Prop) (r : bool -> Z -> res A1) (f : cfg -> res A2) :
  (forall c a, cfg_trunc c = false -> 0 <= cfg_explode c -> r (cfg_highest c) (cfg_explode c) = Ok a -> exists a', f c = Ok a' /\ R a a') ->
  fo R (fun w => Some (r (iw_highest w) (iw_explode w), w)) (with_cfg f).
Proof.
  intros H w w' a w1 S E. injection E as E <-. pose proof (sf_usable _ _ S) as [P [c [Ec [T [Hc [Xc M]]]]]]. rewrite <- Hc, <- Xc in E.
  rewrite <- Xc in P. destruct (H c a T P E) as [a' [Ea Ra]]. exists a', w'. split; [|split; [exact Ra|exact S]].
  unfold with_cfg, cfg_now, settings_now, bnd, lift. rewrite Ec, Ea. reflexivity.
Qed.
Lemma fo_with_cfg {A1 A2} (R : A1 -> A2 -> Prop) r (f : cfg -> res A2) :
  (forall c a, cfg_trunc c = false -> r = Ok a -> exists a', f c = Ok a' /\ R a a') ->
  fo R (lift r) (with_cfg f).
Proof. intros H. apply (fo_with_world R (fun _ _ => r)). intros c a T _ E. exact (H c a T E). Qed.

Lemma fo_roll n d n' d' : is_val n n' -> opt_rel is_val d d' ->
  fo is_val (lift (ideal_roll n d)) (with_memo (fun c => roll c n' d')).
Proof.
  intros Hn Hd w w' v w1 S E. injection E as E <-. pose proof (sf_usable _ _ S) as [P [c [Ec [T [Hc [Xc M]]]]]].
  destruct (roll_meets c T n d n' d' Hn Hd) as [H1 H2]. specialize (H2 v E). destruct (H1 v E) as [v' [Ev Rv]].
  destruct (roll_is_fresh c n' d' (rw_memo w') H2 M) as [m' [Em Mm]].
  exists v', (mkWorld (rw_settings w') m' (rw_outputs w') (rw_printed w')). split.
  { unfold with_memo, cfg_now, settings_now, bnd, lift. rewrite Ec, Em, Ev. reflexivity. }
  split; [exact Rv|]. destruct S as [SU SD SL SW SO]. constructor; try assumption. split; [exact P|]. exists c. auto.
Qed.

Lemma fo_output a b a' b' : is_val a a' -> opt_rel is_val b b' -> fo is_val (ideal_output a b) (record_output a' b').
Proof.
  intros Ha Hb w w' v w1 S E. injection E as <- <-. eexists _, _. split; [reflexivity|]. split; [constructor|].
  destruct S as [SU SD SL SW SO]. constructor; try assumption. cbn [iw_outputs rw_outputs].
  apply Forall2_app; [exact SO|]. constructor; [split; assumption|constructor].
Qed.

Lemma set_now n x w' : checked n (setting_value x) = Ok (setting_value x) -> (String.eqb n "RV_TRUNC" || String.eqb n "RV_IGNORE_ZERO_PROBS")%bool = false ->
  set_setting (OStr n) x w' = Some (Ok ONone, mkWorld (put n (setting_value x) (rw_settings w')) (rw_memo w') (rw_outputs w') (rw_printed w')).
Proof. intros C F. unfold set_setting. rewrite F. unfold settings_set. rewrite C. reflexivity. Qed.
Lemma fo_set a b a' b' : is_val a a' -> is_val b b' -> fo is_val (ideal_set a b) (set_setting a' b').
Proof.
  intros Ha Hb w w' v w1 SF E. unfold ideal_set in E. destruct Ha as [z|s|l|l l' _|t q x _|bb|]; try discriminate E.
  destruct Hb as [z|o|l|l l' _|t q x _|bb|]; try discriminate E.
  - destruct (0 <? z) eqn:Ez; [|discriminate]. destruct (String.eqb s "maximum function depth") eqn:Es; [|destruct (String.eqb s "explode depth") eqn:Es'; [|discriminate]].
    + apply String.eqb_eq in Es. subst s. injection E as <- <-. eexists _, _. split.
      { apply set_now; [|reflexivity]. unfold checked. change (positive_int (setting_value (oint z))) with (0 <? z). rewrite Ez. reflexivity. }
      split; [constructor|]. destruct SF as [SU SD SL [b0 SW] SO]. constructor; cbn [rw_settings rw_memo rw_outputs iw_depth iw_limit iw_explode iw_highest iw_outputs].
      * apply usable_limit, SU.
      * look. exact SD.
      * look. reflexivity.
      * exists b0. look. exact SW.
      * exact SO.
    + apply String.eqb_eq in Es'. subst s. injection E as <- <-. eexists _, _. split.
      { apply set_now; [|reflexivity]. unfold checked. change (positive_int (setting_value (oint z))) with (0 <? z). rewrite Ez. reflexivity. }
      split; [constructor|]. destruct SF as [SU SD SL [b0 SW] SO]. constructor; cbn [rw_settings rw_memo rw_outputs iw_depth iw_limit iw_explode iw_highest iw_outputs].
      * apply (usable_explode _ (iw_explode w)); [apply Z.ltb_lt in Ez; lia|exact SU].
      * look. exact SD.
      * look. exact SL.
      * exists b0. look. exact SW.
      * exact SO.
  - destruct (String.eqb s "position order") eqn:Es; [|discriminate]. apply String.eqb_eq in Es. subst s.
    assert (X : forall h, (h = String.eqb "highest first" o) -> (o = "highest first" \/ o = "lowest first") ->
      Some (Ok INone, mkIworld (iw_depth w) (iw_limit w) (iw_explode w) h (iw_outputs w)) = Some (Ok v, w1) ->
      exists v' w2, set_setting (OStr "position order") (OStr o) w' = Some (Ok v', w2) /\ is_val v v' /\ stands_for w1 w2).
    { intros h Hh Ho E'. injection E' as <- <-. eexists _, _. split.
      { apply set_now; [|reflexivity]. destruct Ho as [-> | ->]; reflexivity. }
      split; [constructor|]. destruct SF as [SU SD SL [b0 SW] SO]. constructor; cbn [rw_settings rw_memo rw_outputs iw_depth iw_limit iw_explode iw_highest iw_outputs].
      * rewrite Hh. apply (usable_order _ _ o _ _ SU).
      * look. exact SD.
      * look. exact SL.
      * exists b0. look. exact SW.
      * exact SO. }
    destruct (String.eqb o "highest first") eqn:E1; [|destruct (String.eqb o "lowest first") eqn:E2; [|discriminate]].
    + apply String.eqb_eq in E1. apply (X true); [subst o; reflexivity|now left|exact E].
    + apply String.eqb_eq in E2. apply (X false); [subst o; reflexivity|now right|exact E].
Qed.

(** ** Calls *)

Lemma fo_add_depth n : fo (fun _ _ => True) (change_depth n) (RunModel.add_depth n).
Proof.
  intros w w' v w1 [SU SD SL [b0 SW] SO] E. injection E as <- <-. eexists _, _. split.
  { unfold RunModel.add_depth, number_now, settings_now, change_settings, bnd, lift. rewrite SD. reflexivity. }
  split; [exact Logic.I|]. constructor; cbn [rw_settings rw_memo rw_outputs iw_depth iw_limit iw_explode iw_highest iw_outputs].
  - apply usable_internal; [now left|exact SU].
  - look. reflexivity.
  - look. exact SL.
  - exists b0. look. exact SW.
  - exact SO.
Qed.
Lemma warn_keeps w w' : stands_for w w' -> exists w2, RunModel.warn w' = Some (Ok Datatypes.tt, w2) /\ stands_for w w2.
Proof.
  intros S. pose proof S as [SU SD SL [b0 SW] SO]. unfold RunModel.warn. rewrite SW. destruct b0.
  - exists w'. auto.
  - eexists. split; [reflexivity|]. constructor; cbn [rw_settings rw_memo rw_outputs iw_depth iw_limit iw_outputs].
    + apply usable_internal; [now right|exact SU].
    + look. exact SD.
    + look. exact SL.
    + exists true. look. reflexivity.
    + exact SO.
Qed.

Section call.
  Variables (f : list ival -> Runtime.M iworld ival) (f' : list obj -> Run obj).
  Hypothesis Hf : forall l l', Forall2 is_val l l' -> fo is_val (f l) (f' l').

  Lemma fo_body ks l l' : Forall2 is_val l l' -> fo is_val (ideal_body ks f l) (run_cast ks f' l').
  Proof.
    intros Hl. unfold ideal_body, run_cast.
    apply (fo_bnd _ (fun gs p =>
      match p with
      | PAbort => existsb is_lost gs = true
      | PDirect a => existsb is_lost gs = false /\ existsb IdealSpec.is_random gs = false /\
          Forall2 is_val (map (fun g => match g with Fixed v => v | _ => INone end) gs) (map snd a) /\ a = positional (map snd a)
      | PProduct calls => existsb is_lost gs = false /\ existsb IdealSpec.is_random gs = true /\
          (exists C, (0 < C)%Q /\ Forall2 (weighs_all C) (IdealSpec.scenarios gs) calls) /\
          Forall (fun aw => fst aw = positional (map snd (fst aw))) calls
      end)).
    - apply fo_with_cfg. intros c gs T E. exact (plan_given c T _ ks l l' gs (kinds_annotated ks) Hl E).
    - intros gs [|a|calls] H.
      + rewrite H. apply fo_ret. constructor.
      + destruct H as [H1 [H2 [H3 _]]]. rewrite H1, H2. exact (Hf _ _ H3).
      + destruct H as [H1 [H2 [[C [CP H3]] _]]]. rewrite H1, H2.
        set (sc := IdealSpec.scenarios gs) in *. clearbody sc.
        assert (W : Forall2 (fun q w => (inject_Z w == C * q)%Q /\ 0 < w) (map snd sc) (map snd calls)).
        { clear -H3. induction H3 as [|[vs q] [a w] sc calls [_ H] _ IH]; constructor; [exact H|exact IH]. }
        assert (E : fo (Forall2 comes) (each (fun vq => v <== f (fst vq) ;; lift (outcome v)) sc)
                       (each (fun aw => o <== f' (map snd (fst aw)) ;; lift (single o)) calls)).
        { apply (fo_each _ (weighs_all C)); [|exact H3]. intros [vs q] [a w] [Ha _]. cbn [fst].
          apply (fo_bnd _ is_val); [exact (Hf _ _ Ha)|]. intros v v' Hv. apply fo_lift. intros r Er. exact (single_comes v v' r Hv Er). }
        assert (LS : forall ts w w1, each (fun vq : list ival * Q => v <== f (fst vq) ;; lift (outcome v)) sc w = Some (Ok ts, w1) ->
                       length (map snd sc) = length ts).
        { clear. induction sc as [|x sc IH]; intros ts w w1 E.
          - injection E as <- _. reflexivity.
          - cbn [each] in E. unfold bnd at 1 in E. destruct ((v <== f (fst x);; lift (outcome v)) w) as [[[t|] w2]|]; try discriminate.
            unfold bnd in E.
            match type of E with context [each ?g sc w2] => destruct (each g sc w2) as [[[ts'|] w3]|] eqn:E3 end; try discriminate.
            injection E as <- _. cbn [map length]. f_equal. exact (IH _ _ _ E3). }
        intros w w' v w1 S Ev. unfold bnd at 1 in Ev.
        destruct (each (fun vq : list ival * Q => v0 <== f (fst vq);; lift (outcome v0)) sc w) as [[[ts|] w2]|] eqn:Ets; try discriminate.
        destruct (E w w' ts w2 S Ets) as [os [w2' [Eos [Ro S2]]]].
        destruct (fo_with_cfg is_val (mixed (combine ts (map snd sc))) (fun c => merge c os (map snd calls))
          (fun c a T Ea => merge_meets c C ts os (map snd sc) (map snd calls) T CP Ro W (LS _ _ _ Ets) a Ea) w2 w2' v w1 S2 Ev)
          as [v' [w3 [E3 [R3 S3]]]].
        exists v', w3. split; [|auto]. unfold bnd at 1. rewrite Eos. exact E3.
  Qed.

  Lemma fo_call ks l l' : Forall2 is_val l l' -> fo is_val (ideal_call ks f l) (run_call ks f' l').
  Proof.
    intros Hl w w' v w1 S E. unfold ideal_call in E. unfold bnd at 1 in E.
    pose proof (sf_depth _ _ S) as SD. pose proof (sf_limit _ _ S) as SL.
    assert (N : forall n z (B : Type) (k : Z -> Run B), as_num (get n (rw_settings w')) = Some z -> bnd (number_now n) k w' = k z w').
    { intros n z B k En. unfold number_now, settings_now, bnd, lift. rewrite En. reflexivity. }
    unfold run_call. rewrite (N _ _ _ _ SD), (N _ _ _ _ SL). clear N.
    destruct (iw_limit w <=? iw_depth w).
    - injection E as <- <-. destruct (warn_keeps w w' S) as [w2 [E2 S2]]. exists (OBlank false), w2.
      unfold bnd at 1. rewrite E2. split; [reflexivity|]. split; [constructor|exact S2].
    - revert w w' v w1 S E SD SL. 
      assert (X : fo is_val (u <== change_depth 1 ;; v <== ideal_body ks f l ;; u <== change_depth (-1) ;;
                             ret (match v with INone => IBlank false | _ => v end))
                            (u <== RunModel.add_depth 1 ;; o <== run_cast ks f' l' ;; u <== RunModel.add_depth (-1) ;;
                             ret (match o with ONone => OBlank false | _ => o end))).
      { apply (fo_bnd _ (fun _ _ => True)); [apply fo_add_depth|]. intros _ _ _.
        apply (fo_bnd _ is_val); [exact (fo_body ks l l' Hl)|]. intros v v' Hv.
        apply (fo_bnd _ (fun _ _ => True)); [apply fo_add_depth|]. intros _ _ _.
        apply fo_ret. destruct Hv; constructor; assumption. }
      intros w w' v w1 S E _ _. exact (X w w' v w1 S E).
  Qed.
End call.

Lemma meets_with_cfg r (f : cfg -> res obj) :
  (forall c, cfg_trunc c = false -> meets r (f c)) -> fo is_val (lift r) (with_cfg f).
Proof. intro H. apply fo_with_cfg. intros c a T E. exact (H c T a E). Qed.

Theorem ideal_library : simulates is_val stands_for ideal library.
Proof.
  constructor.
  - intro z. constructor.
  - intros z k v E. discriminate.
  - intro s. constructor.
  - intros l l' H. constructor. exact H.
  - constructor.
  - intros v v' H. apply fo_lift. intros s E. destruct H; try discriminate; injection E as <-; eexists; (split; [reflexivity|reflexivity]).
  - intros v v' H. apply fo_lift. intros s E. destruct H; try discriminate; injection E as <-; eexists; (split; [reflexivity|]); [reflexivity|].
    rewrite map_length. reflexivity.
  - intros v v' H. apply fo_lift. intros s E. destruct H as [z|s'|l|l l' _|t q x _|b|]; try discriminate. injection E as <-.
    eexists. split; [reflexivity|]. rewrite map_map. clear. induction l as [|z l IH]; constructor; [constructor|exact IH].
  - intros o a b a' b' Ha Hb. apply (fo_with_world is_val (fun h _ => plain_op h o a b)). intros c v T _ E. exact (plain_op_meets c T o a b a' b' Ha Hb v E).
  - intros u a a' Ha. apply meets_with_cfg. intros c T. exact (plain_un_meets c T u a a' Ha).
  - intros a a' Ha. apply fo_lift. exact (plain_len_meets a a' Ha).
  - intros a b a' b' Ha Hb. exact (fo_roll a b a' b' Ha Hb).
  - intros a a' Ha. apply fo_lift. exact (seq_meets a a' Ha).
  - intros a b a' b' Ha Hb. apply fo_lift. exact (range_meets a b a' b' Ha Hb).
  - exact fo_output.
  - exact fo_set.
  - intros m l l' Hl. apply (fo_with_world is_val (fun h _ => ideal_my h m l)). intros c v T _ E. exact (my_meets c T m l l' Hl v E).
  - intros f l l' Hl. apply (fo_with_world is_val (fun h e => over (lib_kinds f) (lib_value e h f) l)). intros c v T P E.
    exact (lib_meets c T P f l l' Hl v E).
  - intros ks f f' l l' Hf Hl. exact (fo_call f f' Hf ks l l' Hl).
Qed.

Lemma start_stands : stands_for ideal_start fresh_world.
Proof.
  constructor; try reflexivity.
  - split; [discriminate|]. eexists. split; [reflexivity|]. split; [reflexivity|]. split; [reflexivity|]. split; [reflexivity|]. apply memo_nil.
  - exists false. reflexivity.
  - constructor.
Qed.

Theorem ideal_program oplib lib n p u w : mean_program ideal oplib lib n p ideal_start = Some (Ok u, w) ->
  exists w', mean_program library oplib lib n p fresh_world = Some (Ok u, w') /\ stands_for w w'.
Proof.
  intro E. destruct (programs_follow is_val stands_for ideal library ideal_library oplib lib n p _ _ _ _ start_stands E) as [u' [w' [E' [<- S]]]].
  exists w'. auto.
Qed.
