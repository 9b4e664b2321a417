(** Writing the result of a function in the place of a call: proofs. *)
From Coq Require Import String Ascii List ZArith Bool Lia.
From Verif Require Import WriteFacts.
From Verif Require Import PyBase Num Val RVModel UtilModel Obj AtModel CastModel DispModel RollModel RollerModel
  LibModel SettingsModel SettingsFacts LexModel ParseModel SynSpec SynInd NameSpec Runtime MeanSpec RunModel SemStmt SessSpec QuietFacts SessFacts
  KindSpec KindFacts KindRun InlineSpec.
Import ListNotations.
Open Scope string_scope.
Open Scope Z_scope.
Open Scope list_scope.
Open Scope run_scope.

(** ** Worlds with another depth *)
Notation depth_name := "INTERNAL_CURR_DEPTH".
Definition at_level (k : Z) (w : world) : world :=
  mkWorld (put depth_name (SInt k) (rw_settings w)) (rw_memo w) (rw_outputs w) (rw_printed w).
Lemma put_same n v s : get n s = Some v -> put n v s = s.
Proof.
  induction s as [|[m u] s IH]; cbn [get put]; [discriminate|]. destruct (String.eqb_spec m n); [intros [= ->]; reflexivity|]. intros H. now rewrite (IH H).
Qed.
Lemma put_put n u v s : put n v (put n u s) = put n v s.
Proof.
  induction s as [|[m x] s IH]; cbn [put]; [now rewrite String.eqb_refl|]. destruct (String.eqb m n) eqn:E; cbn [put]; rewrite E; [reflexivity|]. now rewrite IH.
Qed.
Lemma cfg_level k w : cfg_of (rw_settings (at_level k w)) = cfg_of (rw_settings w).
Proof. unfold cfg_of, at_level. cbn [rw_settings]. rewrite !get_put. reflexivity. Qed.

(** [m] does not look at the depth, and leaves the settings. *)
Definition level {A} (m : Run A) : Prop := forall w,
  match m w with
  | Some (r, w') => rw_settings w' = rw_settings w /\ forall k, m (at_level k w) = Some (r, at_level k w')
  | None => False
  end.
Lemma lv_ret {A} (a : A) : level (ret a).
Proof. intros w. split; reflexivity. Qed.
Lemma lv_lift {A} (r : res A) : level (lift r).
Proof. intros w. split; reflexivity. Qed.
Lemma lv_bnd {A B} (m : Run A) (f : A -> Run B) : level m -> (forall a, level (f a)) -> level (bnd m f).
Proof.
  intros Hm Hf w. specialize (Hm w). unfold bnd. destruct (m w) as [[[a|e] w1]|]; [| |exact Hm].
  - destruct Hm as [S1 L1]. specialize (Hf a w1). destruct (f a w1) as [[r w2]|]; [|exact Hf]. destruct Hf as [S2 L2].
    split; [congruence|]. intros k. rewrite L1. exact (L2 k).
  - destruct Hm as [S1 L1]. split; [exact S1|]. intros k. now rewrite L1.
Qed.
Lemma lv_cfg {A} (f : cfg -> res A) : level (with_cfg f).
Proof.
  intros w. unfold with_cfg, cfg_now, settings_now, bnd, lift.
  destruct (cfg_of (rw_settings w)) as [c|] eqn:E; (split; [reflexivity|intros k; rewrite cfg_level, E; reflexivity]).
Qed.
Lemma lv_roll a b : level (rt_roll library a b).
Proof.
  intros w. cbn [library rt_roll]. unfold with_memo, cfg_now, settings_now, bnd, lift.
  destruct (cfg_of (rw_settings w)) as [c|] eqn:E.
  - destruct (roll c a b (rw_memo w)) as [r m] eqn:R. split; [reflexivity|]. intros k. rewrite cfg_level, E.
    change (rw_memo (at_level k w)) with (rw_memo w). rewrite R. reflexivity.
  - split; [reflexivity|]. intros k. now rewrite cfg_level, E.
Qed.

Section plain.
  Variable oplib : bool.
  Lemma lv_binary o a b : level (binary library oplib o a b).
  Proof. unfold binary. destruct oplib, o; apply lv_cfg. Qed.
  Lemma lv_unary u a : level (unary library oplib u a).
  Proof. unfold unary. destruct oplib, u; apply lv_cfg. Qed.
  Lemma lv_count a : level (count library oplib a).
  Proof. unfold count. destruct oplib; [apply lv_cfg|apply lv_lift]. Qed.

  Lemma plain_level callf :
    (forall e, plain_e e = true -> forall pl, level (mean_e library oplib callf pl e)) /\
    (forall t, plain_t t = true -> forall pl, level (mean_t library oplib callf pl t)) /\
    (forall x, plain_l x = true -> forall pl, level (mean_l library oplib callf pl x)) /\
    (forall c : citem, True).
  Proof.
    apply syn_ind; auto.
    - intros o l r Hl Hr P pl. cbn [plain_e] in P. apply andb_true_iff in P as [P1 P2].
      apply lv_bnd; [exact (Hl P1 pl)|intros a]. apply lv_bnd; [exact (Hr P2 pl)|intros b]. apply lv_binary.
    - intros n d Hn Hd P pl. cbn [plain_e] in P. apply andb_true_iff in P as [P1 P2].
      apply lv_bnd; [exact (Hn P1 pl)|intros a]. apply lv_bnd; [exact (Hd P2 pl)|intros b]. apply lv_roll.
    - intros d Hd P pl. apply lv_bnd; [exact (Hd P pl)|intros a]. apply lv_roll.
    - intros s P pl. apply lv_ret.
    - intros a b P pl. apply lv_lift.
    - intros x P pl. apply lv_lift.
    - discriminate.
    - intros es Hes P pl. change (forallb plain_l es = true) in P. apply lv_bnd; [|intros l; apply lv_lift].
      induction Hes as [|x es Hx _ IH]; [apply lv_ret|]. cbn [forallb] in P. apply andb_true_iff in P as [P1 P2].
      apply lv_bnd; [exact (Hx P1 pl)|intros v]. apply lv_bnd; [exact (IH P2)|intros vs]. apply lv_ret.
    - discriminate.
    - intros u t Ht P pl. apply lv_bnd; [exact (Ht P pl)|intros a]. apply lv_unary.
    - intros t Ht P pl. apply lv_bnd; [exact (Ht P pl)|intros a]. apply lv_count.
    - intros a b Ha Hb P pl. cbn [plain_l] in P. apply andb_true_iff in P as [P1 P2].
      apply lv_bnd; [exact (Ha P1 pl)|intros x]. apply lv_bnd; [exact (Hb P2 pl)|intros y]. apply lv_lift.
  Qed.

  (** ** Terms for variables *)
  Section sub.
    Variables (callf callf' : @variables obj -> functions -> fdef -> list obj -> Run obj) (gs : @variables obj) (fs : functions) (own : @variables obj).
    Variable s : string -> option term.
    Notation here := (mkPlace gs fs None). Notation inside := (mkPlace gs fs (Some own)).
    Hypothesis stands_for : forall x, match s x with
      | Some t => exists v, variable_in x own = Some v /\ forall w, mean_t library oplib callf' here t w = Some (Ok v, w)
      | None => variable_in x own = None end.
    Ltac go := apply bnd_ext; [|intros].
    Lemma put_means :
      (forall e, plain_e e = true -> forall w, mean_e library oplib callf inside e w = mean_e library oplib callf' here (put_e s e) w) /\
      (forall t, plain_t t = true -> forall w, mean_t library oplib callf inside t w = mean_t library oplib callf' here (put_t s t) w) /\
      (forall x, plain_l x = true -> forall w, mean_l library oplib callf inside x w = mean_l library oplib callf' here (put_l s x) w) /\
      (forall c : citem, True).
    Proof.
      apply syn_ind; auto.
      - intros o l r Hl Hr P w. cbn [plain_e] in P. apply andb_true_iff in P as [P1 P2]. cbn [mean_e put_e]. go; [exact (Hl P1)|]. go; [exact (Hr P2)|]. reflexivity.
      - intros n d Hn Hd P w. cbn [plain_e] in P. apply andb_true_iff in P as [P1 P2]. cbn [mean_e put_e]. go; [exact (Hn P1)|]. go; [exact (Hd P2)|]. reflexivity.
      - intros d Hd P w. cbn [mean_e put_e]. go; [exact (Hd P)|]. reflexivity.
      - intros x P w. cbn [mean_t put_t]. specialize (stands_for x). destruct (s x) as [t|].
        + destruct stands_for as (v & V & T). rewrite T. unfold lift, find_variable. cbn [pl_own]. now rewrite V.
        + cbn [mean_t]. unfold lift, find_variable. cbn [pl_own pl_globals]. now rewrite stands_for.
      - discriminate.
      - intros es Hes P w. change (forallb plain_l es = true) in P. cbn [mean_t put_t]. go; [|reflexivity].
        induction Hes as [|x es Hx _ IH]; intros w0; [reflexivity|]. cbn [forallb] in P. apply andb_true_iff in P as [P1 P2]. cbn [map].
        go; [exact (Hx P1)|]. go; [exact (IH P2)|]. reflexivity.
      - discriminate.
      - intros u t Ht P w. cbn [mean_t put_t]. go; [exact (Ht P)|]. reflexivity.
      - intros t Ht P w. cbn [mean_t put_t]. go; [exact (Ht P)|]. reflexivity.
      - intros a b Ha Hb P w. cbn [plain_l] in P. apply andb_true_iff in P as [P1 P2]. cbn [mean_l put_l]. go; [exact (Ha P1)|]. go; [exact (Hb P2)|]. reflexivity.
    Qed.
  End sub.
End plain.

(** ** What other statements leave *)
Section ready.
  Variable s : settings.
  Definition ready (d : Z) (w : world) : Prop := kept_settings s w /\ get depth_name (rw_settings w) = Some (SInt d).
  Lemma ready_fails d w : ready d w -> kept_settings s w.
  Proof. intros [H _]. exact H. Qed.
  Notation le := (leaves ready (kept_settings s)).
  Lemma re_same {A} (m : Run A) : (forall w r w', m w = Some (r, w') -> rw_settings w' = rw_settings w) -> le m.
  Proof.
    intros H d w r w' [K D] Er. specialize (H w r w' Er). destruct r; unfold ready, kept_settings; rewrite H; [split; assumption|exact K].
  Qed.
  Lemma re_cfg {A} (f : cfg -> res A) : le (with_cfg f).
  Proof.
    apply re_same. intros w r w'. unfold with_cfg, cfg_now, settings_now, bnd, lift. destruct (cfg_of (rw_settings w)); intros [= <- <-]; reflexivity.
  Qed.
  Lemma re_number n : le (number_now n).
  Proof. apply re_same. intros w r w'. unfold number_now, settings_now, bnd, lift. intros [= <- <-]. reflexivity. Qed.
  Lemma re_add n : moves ready (kept_settings s) n (RunModel.add_depth n).
  Proof.
    intros d w r w' [K D]. unfold RunModel.add_depth, number_now, settings_now, change_settings, bnd, lift. rewrite D. intros [= <- <-].
    split; [apply kept_internal; [reflexivity|exact K]|]. cbn [rw_settings]. rewrite get_put. reflexivity.
  Qed.
  Lemma re_warn : le RunModel.warn.
  Proof.
    intros d w r w' H. pose proof H as [K D]. unfold RunModel.warn.
    destruct (as_flag (get "INTERNAL_CURR_DEPTH_WARNING_PRINTED" (rw_settings w))) as [[|]|]; intros [= <- <-]; [exact H| |exact K].
    split; [apply kept_internal; [reflexivity|exact K]|]. cbn [rw_settings]. rewrite get_put. exact D.
  Qed.
  Lemma library_ready : calm library ready (kept_settings s).
  Proof.
    pose proof (fun A (r : res A) => le_lift ready (kept_settings s) ready_fails r) as L.
    constructor; cbn [library rt_str rt_truth rt_iter rt_op rt_un rt_len rt_roll rt_seq rt_range rt_output rt_my rt_lib rt_call]; intros;
      first [apply L|apply re_cfg|idtac].
    - apply re_same. intros w r w'. unfold with_memo, cfg_now, settings_now, bnd, lift.
      destruct (cfg_of (rw_settings w)) as [c|]; [|intros [= <- <-]; reflexivity]. destruct (roll c a b (rw_memo w)) as [x m].
      intros [= <- <-]. reflexivity.
    - apply re_same. intros w r w' [= <- <-]. reflexivity.
    - unfold run_call. apply le_bnd; [apply re_number|]. intro dn. apply le_bnd; [apply re_number|]. intro mn.
      destruct (mn <=? dn); [apply le_bnd; [exact re_warn|]; intros _; apply le_ret|]. apply mv_leaves.
      replace 0 with (1 + (0 + (-1 + 0))) by reflexivity.
      apply mv_bnd; [apply re_add|]. intros _. apply mv_bnd.
      + apply mv_leaves. unfold run_cast. apply le_bnd; [apply re_cfg|]. intros [|a|calls]; [apply le_ret|apply H|].
        apply le_bnd; [|intro os; apply re_cfg]. apply le_each. intro vq. apply le_bnd; [apply H|]. intro v. apply L.
      + intro v. apply mv_bnd; [apply re_add|]. intros _. apply mv_leaves. apply le_ret.
  Qed.
  Lemma ready_cfg d w : ready d w -> cfg_of (rw_settings w) = cfg_of s.
  Proof. intros [K _]. unfold cfg_of. now rewrite !K by reflexivity. Qed.
End ready.

(** ** A call without types *)
Lemma untyped_anns ks : Forall (fun k : option kind => k = None) ks -> forall i, anns_from i ks = [].
Proof. induction 1 as [|k ks -> _ IH]; intros i; cbn [anns_from]; [reflexivity|apply IH]. Qed.
Lemma untyped_cast c sg todo : sg_anns sg = [] -> forall a h, cast_all c sg todo a h = Ok (Some (a, h)).
Proof.
  intros A. induction todo as [|[k o] todo IH]; intros a h; cbn [cast_all]; [reflexivity|].
  replace (CastModel.annotation sg k) with (@None ann); [apply IH|]. unfold CastModel.annotation. rewrite A.
  destruct (match k with KPos i => nth_error (sg_names sg) i | KName n => Some n end); reflexivity.
Qed.
Lemma positional_values l : map snd (positional l) = l.
Proof. unfold positional. generalize 0%nat. induction l as [|o l IH]; intros i; cbn; [reflexivity|now rewrite IH]. Qed.
Lemma untyped_run ks f l w c : Forall (fun k : option kind => k = None) ks -> cfg_of (rw_settings w) = Some c -> run_cast ks f l w = f l w.
Proof.
  intros U C. unfold run_cast, with_cfg, cfg_now, settings_now, bnd, lift. rewrite C. unfold make_plan.
  rewrite untyped_cast by (apply untyped_anns; exact U). cbn [bind]. now rewrite positional_values.
Qed.
Lemma untyped_kinds ps : Forall (fun p : string * option ptype => snd p = None) ps -> exists ks, kinds_of ps = Ok ks /\ Forall (fun k => k = None) ks.
Proof.
  induction 1 as [|p ps E _ (ks & K & F)]; [exists []; split; [reflexivity|constructor]|].
  exists (None :: ks). split; [|now constructor]. unfold kinds_of in *. cbn [mapM]. rewrite E. cbn [bind]. rewrite K. reflexivity.
Qed.

(** ** Runs that differ in the depth after an exception *)
Lemma but_refl w : but_depth w w.
Proof. repeat split; reflexivity. Qed.
Lemma run_refl {A} (a : option (res A * world)) : same_run a a.
Proof. destruct a as [[[x|e] w]|]; cbn; try split; try reflexivity; apply but_refl. Qed.
Lemma run_bnd {A B} (m m' : Run A) (f : A -> Run B) w : same_run (m w) (m' w) -> same_run (bnd m f w) (bnd m' f w).
Proof.
  unfold bnd. destruct (m w) as [[[x|e] w1]|], (m' w) as [[[y|e'] w2]|]; cbn [same_run]; try contradiction.
  - intros [-> ->]. apply run_refl.
  - auto.
  - auto.
Qed.

Lemma back_down d w : get depth_name (rw_settings w) = Some (SInt d) -> RunModel.add_depth (-1) (at_level (d + 1) w) = Some (Ok Datatypes.tt, w).
Proof.
  intros D. unfold RunModel.add_depth, number_now, settings_now, change_settings, bnd, lift, at_level. cbn [rw_settings rw_memo rw_outputs rw_printed].
  rewrite get_put. change (depth_name =? depth_name)%string with true. cbn [as_num]. rewrite put_put. replace (d + 1 + -1) with d by lia.
  rewrite (put_same _ _ _ D). destruct w; reflexivity.
Qed.

(** ** The call *)
Section call.
  Variables (oplib : bool) (n : nat).
  Notation callf := (call_defined library oplib (S n)).
  Variables (s : settings) (d m : Z) (c : cfg).
  Hypotheses (C : cfg_of s = Some c) (Mx : as_num (get "maximum function depth" s) = Some m) (Lt : d < m).
  Variables (gs : @variables obj) (fs : functions).
  Notation here := (mkPlace gs fs None).
  Hypothesis Fine : fine_place here.
  Variables (ps : list (string * option ptype)) (E : expr).
  Hypotheses (U : Forall (fun p => snd p = None) ps) (P : plain_e E = true).

  Lemma level_call own x w : (forall w, mean_e library oplib (call_defined library oplib n) (mkPlace gs fs (Some own)) E w = mean_e library oplib callf here x w) ->
    forall l, give_all ps l = Some own -> ready s d w -> Forall good_output (rw_outputs w) ->
    same_run (callf gs fs (mkDef ps [SResult E]) l w) (mean_e library oplib callf here x w).
  Proof.
    intros Eq l G R O. cbn [call_defined d_params]. destruct (untyped_kinds ps U) as (ks & K & Ks). rewrite K.
    unfold bnd at 1. unfold lift at 1. cbn [library rt_call]. unfold run_call.
    pose proof (ready_cfg s d w R) as Cw. rewrite C in Cw. destruct R as [Kept D].
    assert (Mw : as_num (get "maximum function depth" (rw_settings w)) = Some m) by (rewrite (Kept "maximum function depth" eq_refl); exact Mx).
    unfold bnd at 1. unfold number_now at 1, settings_now at 1, bnd at 1, lift at 1. rewrite D. cbn [as_num].
    unfold bnd at 1. unfold number_now at 1, settings_now at 1, bnd at 1, lift at 1. rewrite Mw.
    destruct (m <=? d) eqn:Le; [apply Z.leb_le in Le; lia|].
    unfold bnd at 1. unfold RunModel.add_depth at 1, number_now at 1, settings_now at 1, change_settings at 1, bnd at 1 2, lift at 1. rewrite D. cbn [as_num].
    change (mkWorld (put depth_name (SInt (d + 1)) (rw_settings w)) (rw_memo w) (rw_outputs w) (rw_printed w)) with (at_level (d + 1) w).
    unfold bnd at 1. rewrite (untyped_run ks _ l (at_level (d + 1) w) c Ks) by (rewrite cfg_level; exact Cw).
    unfold mean_body. cbn [d_params d_body]. rewrite G. cbn [mean_block mean_s].
    pose proof (proj1 (plain_level oplib (call_defined library oplib n)) E P (mkPlace gs fs (Some own)) w) as L. rewrite Eq in L.
    pose proof (proj1 (plain_level oplib (call_defined library oplib n)) E P (mkPlace gs fs (Some own)) w) as L0.
    rewrite <- Eq in L |- *. clear L. destruct (mean_e library oplib (call_defined library oplib n) (mkPlace gs fs (Some own)) E w) as [[r w1]|] eqn:Em; [|destruct L0].
    destruct L0 as [S1 Lv]. destruct r as [v|e]; unfold bnd; rewrite Lv; unfold ret.
    - unfold bnd. rewrite (back_down d w1) by (rewrite S1; exact D). cbn [same_run]. split; [|reflexivity].
      assert (Fv : fine v).
      { rewrite Eq in Em. exact (proj2 (gi_e oplib _ (gi_defined oplib (S n)) x here Fine w (Ok v) w1 O Em) v eq_refl). }
      destruct v; try reflexivity. destruct Fv.
    - cbn [same_run]. split; [reflexivity|]. repeat split; try reflexivity. intros k N. cbn [rw_settings at_level]. rewrite get_put.
      destruct (String.eqb_spec depth_name k); [congruence|reflexivity].
  Qed.
End call.

(** ** Places in which functions and variables stay *)
Section stays.
  Context {V W : Type} (rt : runtime V W) (oplib : bool).
  Variable callf : @variables V -> functions -> fdef -> list V -> M W V.
  Definition ends {A} (Q : A -> Prop) (m : M W A) : Prop := forall w a w', m w = Some (Ok a, w') -> Q a.
  Lemma en_ret {A} (Q : A -> Prop) a : Q a -> ends Q (ret a).
  Proof. intros H w b w' [= <- _]. exact H. Qed.
  Lemma en_bnd {A B} (P : A -> Prop) (Q : B -> Prop) (m : M W A) (f : A -> M W B) : ends P m -> (forall a, P a -> ends Q (f a)) -> ends Q (bnd m f).
  Proof.
    intros Hm Hf w b w'. unfold bnd. destruct (m w) as [[[a|e] w1]|] eqn:E; [|discriminate|discriminate]. exact (Hf a (Hm w a w1 E) w1 b w').
  Qed.
  Lemma en_any {A B} (Q : B -> Prop) (m : M W A) (f : A -> M W B) : (forall a, ends Q (f a)) -> ends Q (bnd m f).
  Proof. intros H. apply (en_bnd (fun _ => True)); [intros w a w' _; exact Logic.I|]. intros a _. apply H. Qed.

  Variables (sh : shape) (pl0 : @place V).
  (** In [pl]: the function of the shape is that of [pl0], and variables that have values there have values. *)
  Definition stays (pl : @place V) : Prop :=
    pl_own pl = None /\ find_function sh (pl_functions pl) = find_function sh (pl_functions pl0) /\
    forall x, variable_in x (pl_globals pl0) <> None -> variable_in x (pl_globals pl) <> None.
  Definition stays_end (r : @ending V) : Prop := match r with Onward pl => stays pl | Result _ => True end.
  Definition stays_some (r : option (@ending V)) : Prop := match r with Some r => stays_end r | None => True end.
  Lemma give_stays x v pl : stays pl -> stays (give x v pl).
  Proof.
    intros (O & F & G). unfold give. rewrite O. split; [reflexivity|split; [exact F|]]. intros y H. cbn [pl_globals variable_in].
    destruct (String.eqb y x); [discriminate|exact (G y H)].
  Qed.
  Notation ms := (mean_s rt oplib callf). Notation mb := (mean_b rt oplib callf). Notation mbl := (mean_block rt oplib callf).
  Lemma st_block l : Forall (fun s => ~ In sh (heads_s s) -> forall pl, stays pl -> ends stays_end (ms s pl)) l ->
    ~ In sh (flat_map heads_s l) -> forall pl, stays pl -> ends stays_end (mbl l pl).
  Proof.
    induction 1 as [|s l Hs _ IH]; intros N pl S; [now apply en_ret|]. cbn [flat_map] in N. rewrite in_app_iff in N. cbn [mean_block].
    apply (en_bnd stays_end); [apply Hs; [tauto|exact S]|]. intros [pl'|v] R; [apply IH; [tauto|exact R]|now apply en_ret].
  Qed.
  Lemma shape_eqb_eq a b : shape_eqb a b = true -> a = b.
  Proof.
    revert b. induction a as [|x a IH]; intros [|y b]; cbn [shape_eqb]; try discriminate; [reflexivity|].
    intros H. apply andb_true_iff in H as [H1 H2]. rewrite (IH b H2). destruct x as [x|], y as [y|]; cbn [word_eqb] in H1; try discriminate; [|reflexivity].
    apply String.eqb_eq in H1. now subst.
  Qed.
  Lemma st_stmt :
    (forall s, ~ In sh (heads_s s) -> forall pl, stays pl -> ends stays_end (ms s pl)) /\
    (forall b, ~ In sh (heads_b b) -> forall pl, stays pl -> ends stays_some (mb b pl)).
  Proof.
    apply stmt_ind2.
    - intros e _ pl S. do 2 (apply en_any; intros ?). now apply en_ret.
    - intros e p ps _ pl S. do 3 (apply en_any; intros ?). now apply en_ret.
    - intros h hs body _ N pl S. apply en_any. intros ks. apply en_ret. destruct S as (O & F & G). split; [exact O|split; [|exact G]].
      cbn [define pl_functions find_function]. destruct (shape_eqb sh (header_shape (h :: hs))) eqn:Q; [|exact F].
      apply shape_eqb_eq in Q. destruct N. left. now symmetry.
    - intros x e body Hb N pl S. change (~ In sh (flat_map heads_s body)) in N.
      apply en_any. intros v. apply en_any. intros l. revert pl S. induction l as [|u l IH]; intros pl S; [now apply en_ret|].
      apply (en_bnd stays_end); [apply (st_block body Hb N); now apply give_stays|]. intros [pl'|r] R; [exact (IH pl' R)|now apply en_ret].
    - intros e _ pl S. apply en_any. intros v. now apply en_ret.
    - intros p ps e _ pl S. do 3 (apply en_any; intros ?). now apply en_ret.
    - intros x e _ pl S. apply en_any. intros v. apply en_ret. now apply give_stays.
    - intros b bs els Hb Hbs Hels N pl S.
      change (~ In sh (heads_b b ++ flat_map heads_b bs ++ match els with Some l => flat_map heads_s l | None => [] end)) in N.
      rewrite !in_app_iff in N. apply (en_bnd stays_some); [apply Hb; tauto|]. intros [r|] R; [now apply en_ret|].
      assert (N' : ~ In sh (flat_map heads_b bs)) by tauto. assert (N2 : ~ In sh (match els with Some l => flat_map heads_s l | None => [] end)) by tauto.
      clear N Hb R. induction Hbs as [|b1 bs H1 _ IH].
      + destruct els as [body|]; [exact (st_block body Hels N2 pl S)|now apply en_ret].
      + cbn [flat_map] in N'. rewrite in_app_iff in N'. apply (en_bnd stays_some); [apply H1; [tauto|exact S]|].
        intros [r|] R; [now apply en_ret|]. apply IH. tauto.
    - intros c body Hb N pl S. change (~ In sh (flat_map heads_s body)) in N. apply en_any. intros v. apply en_any. intros [|]; [|now apply en_ret].
      apply (en_bnd stays_end); [exact (st_block body Hb N pl S)|]. intros r R. now apply en_ret.
  Qed.
  Lemma st_all l pl : ~ In sh (flat_map heads_s l) -> stays pl -> ends stays_end (mbl l pl).
  Proof. intros N. apply st_block; [|exact N]. apply Forall_forall. intros s _. apply st_stmt. Qed.
End stays.

(** ** Around the call *)
Section contexts.
  Variables (oplib : bool) (n : nat) (s : settings) (d : Z) (pl : @place obj).
  Notation callf := (call_defined library oplib n).
  Hypotheses (Quiet : quiet_place pl) (Fine : fine_place pl).
  Definition fit (w : world) : Prop := ready s d w /\ Forall good_output (rw_outputs w).
  Definition same_at (e e' : expr) : Prop := forall w, fit w -> same_run (mean_e library oplib callf pl e w) (mean_e library oplib callf pl e' w).
  Lemma fit_after e w v w' : fit w -> mean_e library oplib callf pl e w = Some (Ok v, w') -> fit w'.
  Proof.
    intros [R O] E. split.
    - exact (le_e library (ready s) (kept_settings s) (ready_fails s) (library_ready s) oplib callf
        (le_defined library _ _ (ready_fails s) (library_ready s) oplib n) e pl Quiet d w (Ok v) w' R E).
    - exact (proj1 (gi_e oplib callf (gi_defined oplib n) e pl Fine w (Ok v) w' O E)).
  Qed.
  Lemma within_same C e e' : within C -> same_at e e' -> same_at (C e) (C e').
  Proof.
    intros H S. induction H as [|o r C H IH|o l C H IH|C H IH]; [exact S| | |].
    - intros w F. cbn [mean_e]. apply run_bnd. exact (IH w F).
    - intros w F. cbn [mean_e]. unfold bnd at 1. unfold bnd at 2. destruct (mean_e library oplib callf pl l w) as [[[a|e0] w1]|] eqn:E.
      + apply run_bnd, IH. exact (fit_after l w a w1 F E).
      + split; [reflexivity|apply but_refl].
      + exact Logic.I.
    - intros w F. cbn [mean_e mean_t]. exact (IH w F).
  Qed.
  Lemma around_same S C e e' : around S -> within C -> same_at e e' -> forall w, fit w ->
    same_run (mean_s library oplib callf (S (C e)) pl w) (mean_s library oplib callf (S (C e')) pl w).
  Proof.
    intros HS HC H w F. pose proof (within_same C e e' HC H w F) as Q. destruct HS as [|p ps|x|x body|body bs els]; cbn [mean_s]; apply run_bnd; try exact Q.
    cbn [mean_b]. apply run_bnd. exact Q.
  Qed.
End contexts.

(** ** The arguments *)
Section atoms.
  Variables (oplib : bool) (callf callf' : @variables obj -> functions -> fdef -> list obj -> Run obj) (gs : @variables obj) (fs : functions).
  Notation here := (mkPlace gs fs None).
  Definition valued (t : term) : Prop :=
    match t with TNum _ => True | TVar x => variable_in x gs <> None | _ => False end.
  Lemma valued_means t : valued t -> exists v, forall w, mean_t library oplib callf here t w = Some (Ok v, w).
  Proof.
    destruct t as [z| |x| | | | | |]; cbn [valued]; try contradiction; intros H.
    - eexists. intros w. reflexivity.
    - destruct (variable_in x gs) as [v|] eqn:E; [|contradiction]. exists v. intros w. cbn [mean_t]. unfold lift, find_variable. cbn [pl_own pl_globals]. now rewrite E.
  Qed.
  Definition arguments_mean := fix arguments (cs : list citem) : Run (list obj) :=
    match cs with
    | [] => ret []
    | c :: cs' => v <== mean_c library oplib callf here c ;; vs <== arguments cs' ;; ret (v ++ vs)
    end.
  Lemma arguments_known cs : forall ts, call_args cs = map ETerm ts -> Forall valued ts ->
    exists vs, length vs = length ts /\ (forall w, arguments_mean cs w = Some (Ok vs, w)) /\
      Forall2 (fun t v => forall w, mean_t library oplib callf here t w = Some (Ok v, w)) ts vs.
  Proof.
    induction cs as [|[x|e] cs IH]; intros ts A V.
    - destruct ts; [|discriminate]. exists []. repeat split. constructor.
    - destruct (IH ts A V) as (vs & L & R & F). exists vs. split; [exact L|split; [|exact F]]. intros w. cbn [arguments_mean mean_c]. unfold bnd, ret. now rewrite R.
    - change (call_args (CArg e :: cs)) with (e :: call_args cs) in A. destruct ts as [|t ts]; [discriminate|]. injection A as -> A.
      apply Forall_cons_iff in V as [Vt V]. destruct (valued_means t Vt) as [v Hv]. destruct (IH ts A V) as (vs & L & R & F).
      exists (v :: vs). split; [cbn; now rewrite L|split]; [|now constructor]. intros w. cbn [arguments_mean mean_c mean_e]. unfold bnd at 1 2. rewrite Hv. unfold ret at 1.
      unfold bnd. now rewrite R.
  Qed.
  Lemma given_own ps : forall ts vs, length ts = length ps -> Forall2 (fun t v => forall w, mean_t library oplib callf here t w = Some (Ok v, w)) ts vs ->
    exists own, give_all ps vs = Some own /\ forall x, match given ps ts x with
      | Some t => exists v, variable_in x own = Some v /\ forall w, mean_t library oplib callf here t w = Some (Ok v, w)
      | None => variable_in x own = None end.
  Proof.
    induction ps as [|p ps IH]; intros [|t ts] vs L F; try discriminate.
    - inversion F. exists []. split; reflexivity.
    - inversion F as [|t' v ts' vs' Ht F']; subst. injection L as L. destruct (IH ts vs' L F') as (own & G & S). exists ((fst p, v) :: own).
      split; [cbn [give_all]; now rewrite G|]. intros x. cbn [given variable_in]. destruct (String.eqb x (fst p)); [|exact (S x)].
      exists v. split; [reflexivity|exact Ht].
  Qed.
End atoms.

(** ** The call and what is written for it *)
Section written.
  Variables (oplib : bool) (n : nat) (s : settings) (d m : Z) (c : cfg).
  Notation callf := (call_defined library oplib (S n)).
  Hypotheses (C : cfg_of s = Some c) (Mx : as_num (get "maximum function depth" s) = Some m) (Lt : d < m).
  Variables (ps : list (string * option ptype)) (E : expr) (cs : list citem) (ts : list term).
  Hypotheses (U : Forall (fun p => snd p = None) ps) (P : plain_e E = true) (A : call_args cs = map ETerm ts) (L : length ts = length ps).
  Lemma call_same pl : pl_own pl = None -> fine_place pl -> find_function (call_shape cs) (pl_functions pl) = Ok (Defined (mkDef ps [SResult E])) ->
    Forall (valued (pl_globals pl)) ts ->
    same_at oplib (S n) s d pl (ETerm (TCall cs)) (ETerm (TGroup (put_e (given ps ts) E))).
  Proof.
    destruct pl as [gs fs own0]. cbn [pl_own pl_globals pl_functions]. intros -> F Ff V w [R O].
    destruct (arguments_known oplib callf gs fs cs ts A V) as (vs & _ & Ar & F2). destruct (given_own oplib callf gs fs ps ts vs L F2) as (own & G & S).
    change (same_run ((f <== lift (find_function (call_shape cs) fs) ;; l <== arguments_mean oplib callf gs fs cs ;;
      match f with Defined d => callf gs fs d l | Library g => rt_lib library g l end) w)
      (mean_e library oplib callf (mkPlace gs fs None) (put_e (given ps ts) E) w)).
    rewrite Ff. unfold bnd at 1. unfold lift. unfold bnd at 1. rewrite Ar.
    apply (level_call oplib n s d m c C Mx Lt gs fs F ps E U P own (put_e (given ps ts) E) w) with (l := vs); [|exact G|exact R|exact O].
    exact (proj1 (put_means oplib (call_defined library oplib n) callf gs fs own (given ps ts) S) E P).
  Qed.
End written.

(** ** The statements before *)
Lemma new_shape (l : list shape) : exists sh, ~ In sh l.
Proof.
  assert (H : exists n, forall x, In x l -> (length x < n)%nat).
  { induction l as [|a l [n IH]]; [exists 0%nat; intros x []|]. exists (S (Nat.max (length a) n)). intros x [->|I]; [lia|]. specialize (IH x I). lia. }
  destruct H as [n H]. exists (repeat None n). intros I. apply H in I. rewrite repeat_length in I. lia.
Qed.
Lemma shape_refl a : shape_eqb a a = true.
Proof. induction a as [|[x|] a IH]; cbn [shape_eqb word_eqb]; [reflexivity| |]; rewrite ?String.eqb_refl; exact IH. Qed.
Section before.
  Variables (oplib : bool) (n : nat).
  Notation callf := (call_defined library oplib n).
  Notation mbl := (mean_block library oplib callf).
  Lemma stays_self sh (pl : @place obj) : pl_own pl = None -> stays sh pl pl.
  Proof. intros O. repeat split; auto. Qed.
  Lemma block_split a b pl w pl' w' : mbl (a ++ b) pl w = Some (Ok (Onward pl'), w') ->
    exists pl1 w1, mbl a pl w = Some (Ok (Onward pl1), w1) /\ mbl b pl1 w1 = Some (Ok (Onward pl'), w').
  Proof.
    rewrite (block_app library oplib callf). unfold bnd. destruct (mbl a pl w) as [[[[pl1|v]|e] w1]|]; intros H; try discriminate H. now exists pl1, w1.
  Qed.
  Lemma own_none l pl w pl' w' : pl_own pl = None -> mbl l pl w = Some (Ok (Onward pl'), w') -> pl_own pl' = None.
  Proof.
    intros O H. destruct (new_shape (flat_map heads_s l)) as [sh N].
    exact (proj1 (st_all library oplib callf sh pl l pl N (stays_self sh pl O) w (Onward pl') w' H)).
  Qed.
  Lemma assigned_known l x e pl w pl' w' : pl_own pl = None -> In (SAssign x e) l -> mbl l pl w = Some (Ok (Onward pl'), w') -> variable_in x (pl_globals pl') <> None.
  Proof.
    intros O I H. apply in_split in I as (a & b & ->). apply block_split in H as (pl1 & w1 & Ha & H). pose proof (own_none a pl w pl1 w1 O Ha) as O1.
    cbn [mean_block mean_s] in H. unfold bnd at 1 2 in H. destruct (mean_e library oplib callf pl1 e w1) as [[[v|er] w2]|]; try discriminate H. unfold ret in H.
    assert (O2 : pl_own (give x v pl1) = None) by (unfold give; rewrite O1; reflexivity).
    destruct (new_shape (flat_map heads_s b)) as [sh N].
    destruct (st_all library oplib callf sh _ b _ N (stays_self sh _ O2) w2 (Onward pl') w' H) as (_ & _ & G). apply G.
    unfold give. rewrite O1. cbn [pl_globals variable_in]. rewrite String.eqb_refl. discriminate.
  Qed.
  Lemma defined_known pre1 h hs body pre2 pl w pl' w' : pl_own pl = None -> ~ In (header_shape (h :: hs)) (flat_map heads_s pre2) ->
    mbl (pre1 ++ SFunction h hs body :: pre2) pl w = Some (Ok (Onward pl'), w') ->
    find_function (header_shape (h :: hs)) (pl_functions pl') = Ok (Defined (mkDef (params (h :: hs)) body)).
  Proof.
    intros O N H. apply block_split in H as (pl1 & w1 & Ha & H). pose proof (own_none pre1 pl w pl1 w1 O Ha) as O1.
    cbn [mean_block mean_s] in H. unfold bnd at 1 2 in H. destruct (lift (kinds_of (params (h :: hs))) w1) as [[[ks|er] w2]|]; try discriminate H. unfold ret in H.
    destruct (st_all library oplib callf (header_shape (h :: hs)) _ pre2 _ N (stays_self _ (define (header_shape (h :: hs)) (mkDef (params (h :: hs)) body) pl1) O1) w2 (Onward pl') w' H) as (_ & F & _).
    rewrite F. cbn [define pl_functions find_function]. now rewrite shape_refl.
  Qed.
End before.

Theorem written_out_same oplib lib n p p' w d m : written_out p p' ->
  (exists c, cfg_of (rw_settings w) = Some c) -> get depth_name (rw_settings w) = Some (SInt d) ->
  as_num (get "maximum function depth" (rw_settings w)) = Some m -> d < m -> Forall good_output (rw_outputs w) ->
  same_run (mean_program library oplib lib (S n) p w) (mean_program library oplib lib (S n) p' w).
Proof.
  intros H [c C] D Mx Lt O. destruct H as [pre1 h hs E pre2 S0 C0 cs ts post Sn U P N HS HC Sh A L K].
  set (pre := pre1 ++ SFunction h hs [SResult E] :: pre2) in *. unfold mean_program. apply run_bnd.
  set (pl0 := mkPlace [] (if lib then library_functions else []) None). rewrite !block_app.
  set (callf := call_defined library oplib (S n)).
  assert (R : ready (rw_settings w) d w) by (split; [intros k _; reflexivity|exact D]).
  assert (F0 : fine_place pl0) by (split; [constructor|exact Logic.I]).
  unfold bnd at 1 2. destruct (mean_block library oplib callf pre pl0 w) as [[[[pl|v]|e] w1]|] eqn:Epre; try (apply run_refl).
  assert (Q : existsb sets_something pre = false).
  { unfold sets_nothing in Sn. apply negb_true_iff in Sn. unfold pre. rewrite existsb_app in *. apply orb_false_iff in Sn as [S1 S2]. rewrite S1. cbn [existsb]. now rewrite S2. }
  destruct (le_quiet library (ready (rw_settings w)) (kept_settings (rw_settings w)) (ready_fails (rw_settings w)) (library_ready (rw_settings w)) oplib callf
    (le_defined library _ _ (ready_fails _) (library_ready _) oplib (S n)) pre pl0 Q (library_quiet lib [])) as [Lv Lq].
  pose proof (Lv d w _ w1 R Epre) as R1. cbn beta iota in R1. pose proof (Lq d w _ w1 R Epre) as Q1. cbn [quiet_end] in Q1.
  destruct (gi_program oplib callf (gi_defined oplib (S n)) pre pl0 F0 w _ w1 O Epre) as [O1 F1]. specialize (F1 _ eq_refl). cbn [fine_end] in F1.
  cbn [mean_block]. apply run_bnd. apply (around_same oplib (S n) (rw_settings w) d pl Q1 F1 S0 C0); [exact HS|exact HC| |split; [exact R1|exact O1]].
  apply (call_same oplib n (rw_settings w) d m c C Mx Lt (params (h :: hs)) E cs ts U P A L pl).
  - exact (own_none oplib (S n) pre pl0 w pl w1 eq_refl Epre).
  - exact F1.
  - rewrite Sh. exact (defined_known oplib (S n) pre1 h hs [SResult E] pre2 pl0 w pl w1 eq_refl N Epre).
  - revert K. apply Forall_impl. intros [x| |x| | | | | |]; cbn [known valued]; try contradiction; [trivial|]. intros [e I].
    exact (assigned_known oplib (S n) pre x e pl0 w pl w1 eq_refl I Epre).
Qed.
