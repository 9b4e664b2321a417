(** Programs executed one after another: proofs. *)
From Coq Require Import String Ascii List ZArith QArith Bool Lia.
From Verif Require Import PyBase Num Val RVModel UtilModel Obj AtModel CastModel DispModel RollModel RollerModel
  LibModel SettingsModel LexModel ParseModel SynSpec NameSpec Runtime MeanSpec RunModel SettingsFacts RollFacts RollObjFacts ScopeSpec StartSpec SessSpec
  RefineFacts RefineOver QuietFacts IdealFacts IdealSpec IdealVals IdealCast IdealLib IdealLaws.
Import ListNotations.
Open Scope string_scope.
Open Scope Z_scope.
Open Scope list_scope.
Open Scope run_scope.

(** ** Settings stay *)

Section moves.
  Context {W : Type} (P : Z -> W -> Prop) (E : W -> Prop).
  Hypothesis fails : forall d w, P d w -> E w.
  Definition moves {A} (n : Z) (m : M W A) : Prop :=
    forall d w r w', P d w -> m w = Some (r, w') -> match r with Ok _ => P (d + n) w' | Err _ => E w' end.
  Lemma mv_leaves {A} (m : M W A) : moves 0 m <-> leaves P E m.
  Proof. unfold moves, leaves. split; intros H d w r w' Hw Er; specialize (H d w r w' Hw Er); destruct r; rewrite ?Z.add_0_r in *; exact H. Qed.
  Lemma mv_bnd {A B} a b (m : M W A) (f : A -> M W B) : moves a m -> (forall x, moves b (f x)) -> moves (a + b) (bnd m f).
  Proof.
    intros Hm Hf d w r w' H. unfold bnd. destruct (m w) as [[[x|e] w1]|] eqn:Em; [| |discriminate].
    - intro Er. pose proof (Hf x (d + a) w1 r w' (Hm d w (Ok x) w1 H Em) Er) as G. rewrite Z.add_assoc. exact G.
    - intros [= <- <-]. exact (Hm d w (Err e) w1 H Em).
  Qed.
End moves.

Lemma le_each {W A B D} (P : D -> W -> Prop) (E : W -> Prop) (f : A -> M W B) l : (forall a, leaves P E (f a)) -> leaves P E (each f l).
Proof.
  intro H. induction l as [|x l IH]; [apply le_ret|]. cbn [each]. apply le_bnd; [exact (H x)|]. intro a. apply le_bnd; [exact IH|]. intro b. apply le_ret.
Qed.

(** *** The exact meaning *)

Section ideal.
  Variables (limit explode : Z) (highest : bool).
  Definition at_depth (d : Z) (w : iworld) : Prop :=
    iw_depth w = d /\ iw_limit w = limit /\ iw_explode w = explode /\ iw_highest w = highest.
  Let E (w : iworld) : Prop := True.
  Lemma at_fails d w : at_depth d w -> E w.
  Proof. intros _. exact Logic.I. Qed.
  Lemma le_now {A} (f : iworld -> res A) : leaves at_depth E (fun w => Some (f w, w)).
  Proof. intros d w r w' H [= <- <-]. destruct (f w); [exact H|exact Logic.I]. Qed.
  Lemma mv_depth n : moves at_depth E n (change_depth n).
  Proof. intros d w r w' (H1 & H2 & H3 & H4) [= <- <-]. repeat split; cbn; congruence. Qed.

  Lemma ideal_calm : calm ideal at_depth E.
  Proof.
    pose proof (fun A (r : res A) => le_lift at_depth E at_fails r) as L.
    constructor; cbn [ideal rt_str rt_truth rt_iter rt_op rt_un rt_len rt_roll rt_seq rt_range rt_output rt_my rt_lib rt_call]; intros; try apply L.
    - apply (le_now (fun w => plain_op (iw_highest w) o a b)).
    - intros d w r w' H [= <- <-]. exact H.
    - apply (le_now (fun w => ideal_my (iw_highest w) m l)).
    - apply (le_now (fun w => over (lib_kinds f) (lib_value (iw_explode w) (iw_highest w) f) l)).
    - unfold ideal_call. apply le_bnd; [apply (le_now (fun w => Ok w))|]. intro w0.
      destruct (iw_limit w0 <=? iw_depth w0); [apply le_ret|]. apply mv_leaves.
      replace 0 with (1 + (0 + (-1 + 0))) by reflexivity.
      apply mv_bnd; [apply mv_depth|]. intros _. apply mv_bnd.
      + apply mv_leaves. unfold ideal_body. apply le_bnd; [apply L|]. intro gs.
        destruct (existsb is_lost gs); [apply le_ret|]. destruct (existsb IdealSpec.is_random gs); [|apply H].
        apply le_bnd; [|intro ts; apply L]. apply le_each. intro vq. apply le_bnd; [apply H|]. intro v. apply L.
      + intro v. apply mv_bnd; [apply mv_depth|]. intros _. apply mv_leaves. apply le_ret.
  Qed.
End ideal.

(** *** The library *)

Section library.
  Variable s : settings.
  Definition kept_settings (w : world) : Prop := forall n, internal n = false -> get n (rw_settings w) = get n s.
  Definition kept_at (d : Z) (w : world) : Prop :=
    kept_settings w /\ as_num (get "INTERNAL_CURR_DEPTH" (rw_settings w)) = Some d.
  Lemma kept_fails d w : kept_at d w -> kept_settings w.
  Proof. intros [H _]. exact H. Qed.
  Notation le := (leaves kept_at kept_settings).

  Lemma le_same {A} (m : Run A) : (forall w r w', m w = Some (r, w') -> rw_settings w' = rw_settings w) -> le m.
  Proof.
    intros H d w r w' [K D] Er. specialize (H w r w' Er). destruct r; unfold kept_at, kept_settings; rewrite H; [split; assumption|exact K].
  Qed.
  Lemma le_cfg {A} (f : cfg -> res A) : le (with_cfg f).
  Proof.
    apply le_same. intros w r w'. unfold with_cfg, cfg_now, settings_now, bnd, lift.
    destruct (cfg_of (rw_settings w)); intros [= <- <-]; reflexivity.
  Qed.
  Lemma le_number n : le (number_now n).
  Proof. apply le_same. intros w r w'. unfold number_now, settings_now, bnd, lift. intros [= <- <-]. reflexivity. Qed.
  Lemma kept_internal n v w m p o : internal n = true -> kept_settings w -> kept_settings (mkWorld (put n v (rw_settings w)) m o p).
  Proof.
    intros N K k I. cbn [rw_settings]. rewrite get_put. destruct (String.eqb_spec n k) as [->|_]; [congruence|exact (K k I)].
  Qed.
  Lemma mv_add n : moves kept_at kept_settings n (RunModel.add_depth n).
  Proof.
    intros d w r w' [K D]. unfold RunModel.add_depth, number_now, settings_now, change_settings, bnd, lift. rewrite D. intros [= <- <-].
    split; [apply kept_internal; [reflexivity|exact K]|]. cbn [rw_settings]. rewrite get_put. reflexivity.
  Qed.
  Lemma le_warn : le RunModel.warn.
  Proof.
    intros d w r w' H. pose proof H as [K D]. unfold RunModel.warn.
    destruct (as_flag (get "INTERNAL_CURR_DEPTH_WARNING_PRINTED" (rw_settings w))) as [[|]|]; intros [= <- <-]; [exact H| |exact K].
    split; [apply kept_internal; [reflexivity|exact K]|]. cbn [rw_settings]. rewrite get_put. exact D.
  Qed.

  Lemma library_calm : calm library kept_at kept_settings.
  Proof.
    pose proof (fun A (r : res A) => le_lift kept_at kept_settings kept_fails r) as L.
    constructor; cbn [library rt_str rt_truth rt_iter rt_op rt_un rt_len rt_roll rt_seq rt_range rt_output rt_my rt_lib rt_call]; intros;
      first [apply L|apply le_cfg|idtac].
    - apply le_same. intros w r w'. unfold with_memo, cfg_now, settings_now, bnd, lift.
      destruct (cfg_of (rw_settings w)) as [c|]; [|intros [= <- <-]; reflexivity]. destruct (roll c a b (rw_memo w)) as [x m].
      intros [= <- <-]. reflexivity.
    - apply le_same. intros w r w' [= <- <-]. reflexivity.
    - unfold run_call. apply le_bnd; [apply le_number|]. intro dn. apply le_bnd; [apply le_number|]. intro mn.
      destruct (mn <=? dn); [apply le_bnd; [exact le_warn|]; intros _; apply le_ret|]. apply mv_leaves.
      replace 0 with (1 + (0 + (-1 + 0))) by reflexivity.
      apply mv_bnd; [apply mv_add|]. intros _. apply mv_bnd.
      + apply mv_leaves. unfold run_cast. apply le_bnd; [apply le_cfg|]. intros [|a|calls]; [apply le_ret|apply H|].
        apply le_bnd; [|intro os; apply le_cfg]. apply le_each. intro vq. apply le_bnd; [apply H|]. intro v. apply L.
      + intro v. apply mv_bnd; [apply mv_add|]. intros _. apply mv_leaves. apply le_ret.
  Qed.
End library.

Theorem library_keeps : forall oplib lib n gs p w d r w', sets_nothing p = true ->
  as_num (get "INTERNAL_CURR_DEPTH" (rw_settings w)) = Some d ->
  mean_with library oplib lib n gs p w = Some (r, w') \/ mean_over library oplib lib n p w = Some (r, w') ->
  (forall x, internal x = false -> get x (rw_settings w') = get x (rw_settings w)) /\
  (r = Ok Datatypes.tt -> as_num (get "INTERNAL_CURR_DEPTH" (rw_settings w')) = Some d).
Proof.
  intros oplib lib n gs p w d r w' S D H.
  assert (K : kept_at (rw_settings w) d w) by (split; [intros x _; reflexivity|exact D]).
  assert (X : match r with Ok _ => kept_at (rw_settings w) d w' | Err _ => kept_settings (rw_settings w) w' end).
  { destruct H as [H|H].
    - exact (quiet_with library _ _ (kept_fails _) (library_calm (rw_settings w)) oplib lib n gs p S d w r w' K H).
    - exact (quiet_over library _ _ (kept_fails _) (library_calm (rw_settings w)) oplib lib n p S d w r w' K H). }
  destruct r as [u|e]; [destruct X as [X1 X2]; split; [exact X1|intros _; exact X2]|split; [exact X|discriminate]].
Qed.

(** ** Runs in turn *)

Lemma next_stands w w' : stands_for w w' -> stands_for (ideal_next w) (next_run w').
Proof. intros [A B C D _]. constructor; [exact A|exact B|exact C|exact D|constructor]. Qed.

Theorem turns_follow : forall runs runs', Forall2 (follows stands_for eq) runs runs' ->
  forall w w' l w1, stands_for w w' -> in_turn ideal_next iw_outputs runs w = Some (l, w1) ->
  Forall (fun o => fst o = Ok Datatypes.tt) l ->
  exists l' w1', executions runs' w' = Some (l', w1') /\ stands_for w1 w1' /\
    Forall2 (fun o o' => fst o' = Ok Datatypes.tt /\ Forall2 shows (snd o) (snd o')) l l'.
Proof.
  intros runs runs' F. induction F as [|m m' runs runs' H _ IH]; intros w w' l w1 SF E A.
  - injection E as <- <-. exists [], w'. split; [reflexivity|]. split; [exact SF|constructor].
  - cbn [in_turn] in E. destruct (m (ideal_next w)) as [[r w2]|] eqn:Em; [|discriminate].
    destruct (in_turn ideal_next iw_outputs runs w2) as [[l0 w3]|] eqn:E2; [|discriminate]. injection E as <- <-.
    inversion A as [|? ? A1 A2]; subst. cbn [fst] in A1. subst r.
    destruct (H _ _ _ _ (next_stands _ _ SF) Em) as [u [w2' [Em' [<- S2]]]].
    destruct (IH _ _ _ _ S2 E2 A2) as [l' [w3' [E3 [S3 F3]]]].
    exists ((Ok Datatypes.tt, rw_outputs w2') :: l'), w3'. split.
    { unfold executions in *. cbn [in_turn]. rewrite Em', E3. reflexivity. }
    split; [exact S3|]. constructor; [|exact F3]. split; [reflexivity|]. exact (sf_outputs _ _ S2).
Qed.

Lemma turns_ext {W O} (new : W -> W) (shown : W -> O) runs runs' : Forall2 (fun m m' => forall w, m w = m' w) runs runs' ->
  forall w, in_turn new shown runs w = in_turn new shown runs' w.
Proof.
  intro F. induction F as [|m m' runs runs' H _ IH]; intro w; [reflexivity|]. cbn [in_turn]. rewrite H.
  destruct (m' (new w)) as [[r w1]|]; [|reflexivity]. rewrite IH. reflexivity.
Qed.

(** A run that ends in the settings it started with can be repeated and mixed with others. *)
Lemma turns_alone : forall runs outs, Forall2 (fun m o => exists w, m ideal_start = Some (Ok Datatypes.tt, w) /\ iw_outputs w = o /\
    ideal_next w = ideal_start) runs outs ->
  forall w, ideal_next w = ideal_start -> exists w', in_turn ideal_next iw_outputs runs w = Some (map (fun o => (Ok Datatypes.tt, o)) outs, w').
Proof.
  intros runs outs F. induction F as [|m o runs outs [w1 [E [O N]]] _ IH]; intros w H; [now exists w|].
  cbn [in_turn map]. rewrite H, E. destruct (IH w1 N) as [w' E']. rewrite E', O. now exists w'.
Qed.

(** ** Values that a program starts with *)

Lemma starts_val v o : starts_as v o -> is_val v o.
Proof.
  intros [z|s|l|b|n m v' o' Ev Eo]; try constructor.
  destruct (roll_meets default_cfg eq_refl (INum n) (Some (INum m)) (oint n) (Some (oint m)) (is_num n) (is_num m)) as [H1 H2].
  specialize (H2 v' Ev). destruct (H1 v' Ev) as [x [Ex Rx]].
  destruct (roll_is_fresh default_cfg (oint n) (Some (oint m)) [] H2 (memo_nil default_cfg)) as [m' [Em _]].
  change (OV (VN (NI n))) with (oint n) in Eo. change (OV (VN (NI m))) with (oint m) in Eo.
  rewrite Em, Ex in Eo. injection Eo as <-. exact Rx.
Qed.
Lemma starts_rel gs gs' : Forall2 (fun g g' => fst g = fst g' /\ starts_as (snd g) (snd g')) gs gs' -> vars_rel is_val gs gs'.
Proof. intro F. induction F as [|a b l l' [E H] _ IH]; constructor; [|exact IH]. split; [exact E|now apply starts_val]. Qed.

Theorem ideal_with oplib lib n gs gs' p u w : Forall2 (fun g g' => fst g = fst g' /\ starts_as (snd g) (snd g')) gs gs' ->
  mean_with ideal oplib lib n gs p ideal_start = Some (Ok u, w) ->
  exists w', mean_with library oplib lib n gs' p fresh_world = Some (Ok u, w') /\ stands_for w w'.
Proof.
  intros G E. destruct (with_follow is_val stands_for ideal library ideal_library oplib lib n gs gs' p (starts_rel _ _ G) _ _ _ _ start_stands E)
    as [u' [w' [E' [<- S]]]]. exists w'. auto.
Qed.
Theorem ideal_over oplib lib n p u w : mean_over ideal oplib lib n p ideal_start = Some (Ok u, w) ->
  exists w', mean_over library oplib lib n p fresh_world = Some (Ok u, w') /\ stands_for w w'.
Proof.
  intros E. destruct (over_follow is_val stands_for ideal library ideal_library oplib lib n p _ _ _ _ start_stands E)
    as [u' [w' [E' [<- S]]]]. exists w'. auto.
Qed.
