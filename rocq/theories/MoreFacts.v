(** Outputs that were made stay, and settings stay usable, whatever programs do: proofs. *)
From Coq Require Import String Ascii List ZArith Bool Lia.
From Verif Require Import PyBase Num Val RVModel UtilModel Obj CastModel DispModel RollModel SettingsModel SettingsFacts LexModel ParseModel SynSpec NameSpec
  Runtime MeanSpec RunSpec RunModel StepFacts WriteFacts MoreSpec.
Import ListNotations.
Open Scope string_scope.
Open Scope list_scope.
Open Scope run_scope.

(** The library makes steps that leave the settings and outputs, record outputs or change
    settings. *)
Section instance.
  Variable R : world -> world -> Prop.
  Hypotheses (refl : forall w, R w w) (trans : forall a b c, R a b -> R b c -> R a c).
  Hypothesis memo : forall w m, R w (mkWorld (rw_settings w) m (rw_outputs w) (rw_printed w)).
  Hypothesis outputs : forall w v n, R w (mkWorld (rw_settings w) (rw_memo w) (rw_outputs w ++ [(v, n)]) (rw_printed w)).
  Hypothesis depth : forall w d, R w (mkWorld (put "INTERNAL_CURR_DEPTH" (SInt d) (rw_settings w)) (rw_memo w) (rw_outputs w) (rw_printed w)).
  Hypothesis warned : forall w, as_flag (get "INTERNAL_CURR_DEPTH_WARNING_PRINTED" (rw_settings w)) = Some false -> R w (mkWorld (put "INTERNAL_CURR_DEPTH_WARNING_PRINTED" (SBool true) (rw_settings w)) (rw_memo w) (rw_outputs w) (S (rw_printed w))).
  Hypothesis set : forall w n o v, checked n (setting_value o) = Ok v -> R w (mkWorld (put n v (rw_settings w)) (rw_memo w) (rw_outputs w) (rw_printed w)).
  Notation sp := (steps R).
  Lemma si_cfg {A} (f : cfg -> res A) : sp (with_cfg f).
  Proof. intros w r w'. unfold with_cfg, cfg_now, settings_now, bnd, lift. destruct (cfg_of (rw_settings w)); intros [= _ <-]; apply refl. Qed.
  Lemma si_number n : sp (number_now n).
  Proof. intros w r w'. unfold number_now, settings_now, bnd, lift. intros [= _ <-]. apply refl. Qed.
  Lemma si_depth n : sp (RunModel.add_depth n).
  Proof.
    apply sp_bnd; [exact trans|apply si_number|]. intros d w r w' [= _ <-]. apply depth.
  Qed.
  Lemma si_warn : sp RunModel.warn.
  Proof.
    intros w r w'. unfold RunModel.warn. destruct (as_flag _) as [[|]|] eqn:F; intros [= _ <-]; try apply refl. apply warned, F.
  Qed.
  Lemma library_steps : stepping library R.
  Proof.
    pose proof (fun A (r : res A) => sp_lift R refl r) as L.
    constructor; cbn [library rt_str rt_truth rt_iter rt_op rt_un rt_len rt_roll rt_seq rt_range rt_output rt_set rt_my rt_lib rt_call]; intros;
      first [apply L|apply si_cfg|idtac].
    - intros w r w'. unfold with_memo, cfg_now, settings_now, bnd, lift. destruct (cfg_of (rw_settings w)) as [c|]; [|intros [= _ <-]; apply refl].
      destruct (roll c a b (rw_memo w)) as [x m]. intros [= _ <-]. apply memo.
    - intros w r w' [= _ <-]. apply outputs.
    - unfold set_setting. destruct a as [v|s|l|l|l|x|g|]; try exact (L _ (Err Unmodelled)).
      assert (S : sp (fun w => let (r, s') := settings_set s (setting_value b) (rw_settings w) in Some (rmap (fun _ => ONone) r, mkWorld s' (rw_memo w) (rw_outputs w) (rw_printed w)))).
      { intros w r w'. unfold settings_set. destruct (checked s (setting_value b)) as [v|e] eqn:E; intros [= _ <-]; [exact (set w s b v E)|]. destruct w. apply refl. }
      destruct (String.eqb s "RV_TRUNC" || String.eqb s "RV_IGNORE_ZERO_PROBS"); [|exact S]. destruct b as [[[z|z k]|y]|s'|l|l|l|x|g|]; try exact S. exact (L _ (Err Unmodelled)).
    - unfold run_call. apply sp_bnd; [exact trans|apply si_number|intros dn]. apply sp_bnd; [exact trans|apply si_number|intros mn].
      destruct (mn <=? dn)%Z; [apply sp_bnd; [exact trans|exact si_warn|intros _; now apply sp_ret]|].
      apply sp_bnd; [exact trans|apply si_depth|intros _]. apply sp_bnd; [exact trans| |intros o; apply sp_bnd; [exact trans|apply si_depth|intros _; now apply sp_ret]].
      unfold run_cast. apply sp_bnd; [exact trans|apply si_cfg|]. intros [|a|calls]; [now apply sp_ret|apply H|].
      apply sp_bnd; [exact trans| |intros os; apply si_cfg]. apply sp_each; [exact refl|exact trans|]. intros aw. apply sp_bnd; [exact trans|apply H|]. intros o. apply L.
  Qed.
End instance.

(** ** Outputs *)
Definition grows (w w' : world) : Prop := exists l, rw_outputs w' = rw_outputs w ++ l.
Lemma grows_refl w : grows w w.
Proof. exists []. now rewrite app_nil_r. Qed.
Lemma grows_trans a b c : grows a b -> grows b c -> grows a c.
Proof. intros [l E] [k F]. exists (l ++ k). now rewrite F, E, app_assoc. Qed.
Lemma library_grows : stepping library grows.
Proof.
  apply library_steps; try exact grows_refl; try exact grows_trans; intros; try (exists []; cbn [rw_outputs]; now rewrite app_nil_r).
  eexists. reflexivity.
Qed.
Theorem outputs_kept oplib lib n p w r w' : mean_program library oplib lib n p w = Some (r, w') -> exists l, rw_outputs w' = rw_outputs w ++ l.
Proof. exact (sp_program library grows grows_refl grows_trans library_grows oplib lib n p w r w'). Qed.
Theorem more_outputs oplib lib n p q w w1 r w2 : mean_program library oplib lib n p w = Some (Ok Datatypes.tt, w1) ->
  mean_program library oplib lib n (p ++ q) w = Some (r, w2) -> exists l, rw_outputs w2 = rw_outputs w1 ++ l.
Proof.
  unfold mean_program. set (pl := mkPlace _ _ _). intros H H2. unfold bnd in H, H2. rewrite block_app in H2. unfold bnd in H2.
  destruct (mean_block library oplib (call_defined library oplib n) p pl w) as [[[[pl1|v]|e] w0]|] eqn:E; try discriminate H; injection H as ->.
  - assert (G : steps grows (mean_block library oplib (call_defined library oplib n) q pl1)).
    { apply (sp_block library grows grows_refl grows_trans library_grows oplib).
      apply (sp_defined library grows grows_refl grows_trans library_grows oplib). }
    destruct (mean_block library oplib (call_defined library oplib n) q pl1 w1) as [[[x|e] w3]|] eqn:E2; [| |discriminate H2]; injection H2 as _ ->;
      exact (G w1 _ _ E2).
  - injection H2 as _ <-. exists []. now rewrite app_nil_r.
Qed.
Theorem more_failed oplib lib n p q w e w1 : mean_program library oplib lib n p w = Some (Err e, w1) ->
  mean_program library oplib lib n (p ++ q) w = Some (Err e, w1).
Proof.
  unfold mean_program. set (pl := mkPlace _ _ _). intros H. unfold bnd in *. rewrite block_app. unfold bnd.
  destruct (mean_block library oplib (call_defined library oplib n) p pl w) as [[[[pl1|v]|e'] w0]|]; try discriminate H. exact H.
Qed.

(** ** Settings *)
Lemma put_nearly n v s : nearly_valid s -> (In n setting_names -> valid_value n v \/ n = "position order" /\ exists f, v = SObj false f) -> nearly_valid (put n v s).
Proof.
  intros H V m I. rewrite get_put. destruct (String.eqb_spec n m) as [->|N]; [|apply H, I]. exists v. auto.
Qed.
Lemma checked_nearly n o v : checked n (setting_value o) = Ok v -> valid_value n v \/ n = "position order" /\ exists f, v = SObj false f.
Proof.
  intros E. destruct (String.eqb_spec n "position order") as [->|N].
  - unfold setting_value in E. destruct o as [[[z|z k]|y]|s'|l|l|l|x|g|];
      try (left; apply checked_spec in E; [exact (proj2 (accepted_valid _ _ _ E))|exact Logic.I]);
      right; (split; [reflexivity|]); unfold checked in E; rewrite String.eqb_refl in E; unfold assert_ in E;
      (destruct (value_in _ _) as [[|]|]; [|discriminate|discriminate]); cbn [bind] in E; injection E as <-; eexists; reflexivity.
  - left. assert (E' : exists v0, honest v0 /\ checked n v0 = Ok v).
    { destruct (setting_value o) as [b|z|s|cb f] eqn:Q; try (eexists; split; [|exact E]; exact Logic.I).
      exists (SObj cb (fun _ => Err TypeErr)). split; [intros t; discriminate|]. revert E. unfold checked.
      destruct (String.eqb_spec n "position order"); [contradiction|].
      destruct (String.eqb n "explode depth"); [discriminate|]. destruct (String.eqb n "maximum function depth"); [discriminate|].
      destruct (String.eqb n "RV_TRUNC" || String.eqb n "RV_IGNORE_ZERO_PROBS"); [discriminate|]. destruct (String.eqb n "DEFAULT_OUTPUT_WIDTH"); [discriminate|].
      destruct (String.eqb n "DEFAULT_PRINT_FN"); [|discriminate]. unfold setting_value in Q. destruct o as [[[z|z k]|y]|s'|l|l|l|x|g|]; try discriminate Q; injection Q as <- _; cbn; discriminate. }
    destruct E' as (v0 & H & E'). apply checked_spec in E'; [|exact H]. exact (proj2 (accepted_valid _ _ _ E')).
Qed.
Definition still_valid (w w' : world) : Prop := nearly_valid (rw_settings w) -> nearly_valid (rw_settings w').
Theorem settings_usable oplib lib n p w r w' : nearly_valid (rw_settings w) -> mean_program library oplib lib n p w = Some (r, w') -> nearly_valid (rw_settings w').
Proof.
  intros V E. assert (Rf : forall w, still_valid w w) by (intros u H; exact H). assert (Tr : forall a b c, still_valid a b -> still_valid b c -> still_valid a c) by (intros a b c F G H; exact (G (F H))).
  refine (sp_program library still_valid Rf Tr _ oplib lib n p w r w' E V).
  apply library_steps; [exact Rf|exact Tr| | | | |]; intros; intros H0; cbn [rw_settings]; try exact H0; apply put_nearly; try exact H0.
  - intros I. cbn in I. intuition discriminate.
  - intros I. cbn in I. intuition discriminate.
  - intros _. exact (checked_nearly _ _ _ H).
Qed.

(** ** Warnings *)
Definition flag_now (w : world) : option bool := as_flag (get "INTERNAL_CURR_DEPTH_WARNING_PRINTED" (rw_settings w)).
Definition warns (w w' : world) : Prop :=
  flag_now w' = flag_now w /\ rw_printed w' = rw_printed w \/
  flag_now w = Some false /\ flag_now w' = Some true /\ rw_printed w' = S (rw_printed w).
Lemma warns_refl w : warns w w.
Proof. left. auto. Qed.
Lemma warns_trans a b c : warns a b -> warns b c -> warns a c.
Proof.
  intros [[F P]|(F & G & P)] [[F' P']|(F' & G' & P')].
  - left. split; congruence.
  - right. repeat split; congruence.
  - right. repeat split; congruence.
  - congruence.
Qed.
Lemma library_warns : stepping library warns.
Proof.
  apply library_steps; [exact warns_refl|exact warns_trans|intros; left; split; reflexivity|intros; left; split; reflexivity| | |].
  - intros w d. left. split; [|reflexivity]. unfold flag_now. cbn [rw_settings]. rewrite get_put. reflexivity.
  - intros w F. right. split; [exact F|]. split; [|reflexivity]. unfold flag_now. cbn [rw_settings]. rewrite get_put, String.eqb_refl. reflexivity.
  - intros w n o v E. left. split; [|reflexivity]. unfold flag_now. cbn [rw_settings]. rewrite get_put.
    destruct (String.eqb_spec n "INTERNAL_CURR_DEPTH_WARNING_PRINTED") as [->|]; [|reflexivity]. cbv in E. discriminate E.
Qed.
Theorem warned_with_flag oplib lib n p w r w' : mean_program library oplib lib n p w = Some (r, w') -> warns w w'.
Proof. exact (sp_program library warns warns_refl warns_trans library_warns oplib lib n p w r w'). Qed.
