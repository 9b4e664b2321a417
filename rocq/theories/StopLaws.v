(** A program that raises the depth limit in every call never stops. *)
From Coq Require Import String Ascii List ZArith Bool Arith Lia.
From Verif Require Import PyBase Num Val RVModel UtilModel Obj AtModel CastModel DispModel RollModel RollerModel
  LibModel SettingsModel SettingsFacts LexModel ParseModel SynSpec SynInd NameSpec Runtime RunModel MeanSpec RunSpec StopSpec StopFacts.
Import ListNotations.
Open Scope string_scope.
Open Scope nat_scope.
Open Scope list_scope.
Open Scope run_scope.

Definition grow_shape : shape := [Some "grow"; None].
Definition grow_def : fdef :=
  mkDef [("N", Some (PName "n"))]
    [ SSet (PAny "maximum function depth") [] (ETerm (TVar "N"));
      SResult (ETerm (TCall [CWord (WName "grow"); CArg (EBin OAdd (ETerm (TVar "N")) (ETerm (TNum "1")))])) ].
Definition settings_at (d m : Z) : settings :=
  [("RV_TRUNC", SBool false); ("RV_IGNORE_ZERO_PROBS", SBool false); ("DEFAULT_OUTPUT_WIDTH", SInt 180);
   ("DEFAULT_PRINT_FN", print_fn); ("INTERNAL_CURR_DEPTH", SInt d); ("INTERNAL_CURR_DEPTH_WARNING_PRINTED", SBool false);
   ("position order", SText "highest first"); ("explode depth", SInt 2); ("maximum function depth", SInt m)].
Definition world_at (d m : Z) : world := mkWorld (settings_at d m) [] [] 0.

Lemma bnd_none {A B} (m : Run A) (f : A -> Run B) w : m w = None -> bnd m f w = None.
Proof. intro E. unfold bnd. rewrite E. reflexivity. Qed.
Lemma bnd_ok {A B} (m : Run A) (f : A -> Run B) w a w' : m w = Some (Ok a, w') -> bnd m f w = f a w'.
Proof. intro E. unfold bnd. rewrite E. reflexivity. Qed.

Lemma grow_runs oplib gs fs : find_function grow_shape fs = Ok (Defined grow_def) ->
  forall n d z, (0 <= d)%Z -> (d + 1 < z)%Z ->
    call_defined library oplib n gs fs grow_def [oint z] (world_at d (z - 1)) = None.
Proof.
  intro F. induction n as [|n IH]; intros d z Hd Hz; [reflexivity|].
  cbn [call_defined rt_call library].
  rewrite (bnd_ok _ _ _ [Some KN] (world_at d (z - 1))) by reflexivity.
  unfold run_call.
  rewrite (bnd_ok _ _ _ d (world_at d (z - 1))) by reflexivity.
  rewrite (bnd_ok _ _ _ (z - 1)%Z (world_at d (z - 1))) by reflexivity.
  replace (z - 1 <=? d)%Z with false by (symmetry; apply Z.leb_gt; lia).
  rewrite (bnd_ok _ _ _ Datatypes.tt (world_at (d + 1) (z - 1))) by reflexivity.
  apply bnd_none. unfold run_cast.
  rewrite (bnd_ok _ _ _ (PDirect [(KPos 0, oint z)]) (world_at (d + 1) (z - 1))) by reflexivity.
  cbn [map snd]. unfold mean_body. cbn [grow_def d_params give_all option_map fst d_body].
  apply bnd_none. cbn [mean_block]. unfold grow_def. cbn [d_body mean_block].
  rewrite (bnd_ok _ _ _ (Onward (mkPlace gs fs (Some [("N", oint z)]))) (world_at (d + 1) z)).
  2:{ cbn [mean_s]. rewrite (bnd_ok _ _ _ "maximum function depth" (world_at (d + 1) (z - 1))) by reflexivity.
      rewrite (bnd_ok _ _ _ (oint z) (world_at (d + 1) (z - 1))) by reflexivity.
      rewrite (bnd_ok _ _ _ ONone (world_at (d + 1) z)); [reflexivity|].
      cbn [rt_set rt_text library]. unfold set_setting. cbn [String.eqb Ascii.eqb Bool.eqb orb].
      unfold settings_set. replace (checked "maximum function depth" (setting_value (oint z))) with (@Ok value (SInt z)); [reflexivity|].
      unfold checked. cbn. replace (0 <? z)%Z with true by (symmetry; apply Z.ltb_lt; lia). reflexivity. }
  apply bnd_none. cbn [mean_s]. apply bnd_none. cbn [mean_e mean_t].
  rewrite (bnd_ok _ _ _ (Defined grow_def) (world_at (d + 1) z)) by (unfold lift; change (call_shape _) with grow_shape; cbn [pl_functions]; rewrite F; reflexivity).
  rewrite (bnd_ok _ _ _ [oint (z + 1)] (world_at (d + 1) z)).
  2:{ destruct oplib; reflexivity. }
  cbn [pl_globals pl_functions]. replace z with (z + 1 - 1)%Z at 2 by lia. apply IH; lia.
Qed.

Definition growing : program :=
  [ SFunction (HWord (WName "grow")) [HTyped "N" (PName "n")]
      [ SSet (PAny "maximum function depth") [] (ETerm (TVar "N"));
        SResult (ETerm (TCall [CWord (WName "grow"); CArg (EBin OAdd (ETerm (TVar "N")) (ETerm (TNum "1")))])) ];
    SOutput (ETerm (TCall [CWord (WName "grow"); CArg (ETerm (TNum "11"))])) ].

Theorem growing_never_stops : forall oplib lib n, mean_program library oplib lib n growing fresh_world = None.
Proof.
  intros oplib lib n. unfold mean_program. apply bnd_none. unfold growing. cbn [mean_block].
  set (fs0 := if lib then library_functions else []).
  rewrite (bnd_ok _ _ _ (Onward (mkPlace [] ((grow_shape, Defined grow_def) :: fs0) None)) fresh_world) by reflexivity.
  apply bnd_none. cbn [mean_s]. apply bnd_none. cbn [mean_e mean_t].
  rewrite (bnd_ok _ _ _ (Defined grow_def) fresh_world) by reflexivity.
  rewrite (bnd_ok _ _ _ [oint 11] fresh_world) by reflexivity.
  cbn [pl_globals pl_functions]. change fresh_world with (world_at 0 (11 - 1)). apply grow_runs; [reflexivity|lia|lia].
Qed.
