(** Generated programs that start with variables run as the dice programs mean. *)
From Coq Require Import String Ascii List ZArith Bool Arith Lia.
From Verif Require Import PyBase LexModel LexSpec LexFacts ParseModel SynSpec SynInd ParseSound ParseLaws NameSpec ResolveModel ResolveGen
  HeaderFacts ResolveFacts CompileFacts PySpec PyDet PyTrans PyProg PyCompile PyProgLaws Runtime PySem ExecModel MeanSpec RunSpec SemFacts
  SemStmt SemRun SemLaws StartSpec.
Import ListNotations.
Open Scope string_scope.
Open Scope list_scope.
Open Scope run_scope.

Lemma variable_name_ok x : variable_name x = true -> var_ok x.
Proof.
  unfold variable_name. intro H. apply andb_true_iff in H as [H T]. apply andb_true_iff in H as [N C]. split; [split|].
  - intros ->. discriminate N.
  - unfold all_chars. rewrite forallb_forall in C. apply Forall_forall. intros c I. specialize (C c I).
    apply existsb_exists in C as [d [J E]]. apply Ascii.eqb_eq in E. subst d. unfold upper_letter. cbn in J |- *. tauto.
  - intro J. apply SemFacts.mem_in in J. unfold mem in T. rewrite J in T. discriminate.
Qed.
Definition preset {V} (gs : list (string * V)) : @env V := map (fun g => (fst g, PyObj (snd g))) gs.
Lemma assoc_app {A} x (l m : list (string * A)) : assoc x (l ++ m) = match assoc x l with Some a => Some a | None => assoc x m end.
Proof. induction l as [|[y a] l IH]; [reflexivity|]. cbn [app assoc]. destruct (String.eqb x y); [reflexivity|exact IH]. Qed.
Lemma assoc_preset {V} x (gs : list (string * V)) : assoc x (preset gs) = option_map PyObj (variable_in x gs).
Proof. induction gs as [|[y v] gs IH]; [reflexivity|]. cbn. destruct (String.eqb x y); [reflexivity|exact IH]. Qed.
Lemma variable_in_name {V} x (gs : list (string * V)) v : variable_in x gs = Some v -> In x (map fst gs).
Proof.
  induction gs as [|[y u] gs IH]; [discriminate|]. cbn [variable_in map fst In]. destruct (String.eqb_spec x y) as [->|]; [now left|].
  intro E. right. exact (IH E).
Qed.

Section start.
  Context {V : Type}.
  Variables (fl : flags) (outer : list string) (gs : list (string * V)).
  Hypothesis names : Forall (fun g => variable_name (fst g) = true) gs.
  Hypothesis inside : forall x, In x (map fst gs) -> In x outer.

  Lemma not_preset x : (forall y, var_ok y -> x <> y) -> assoc x (preset gs) = None.
  Proof.
    intro H. rewrite assoc_preset. destruct (variable_in x gs) as [v|] eqn:E; [|reflexivity]. exfalso.
    apply variable_in_name, in_map_iff in E as [g [<- I]]. rewrite Forall_forall in names.
    exact (H _ (variable_name_ok _ (names g I)) eq_refl).
  Qed.
  Lemma preset_agree : agree (V := V) fl outer (well fl outer) (preset gs ++ lib_env) gs
    (if negb (fl_prefix fl) then library_functions else []).
  Proof.
    pose proof (start_agree (V := V) fl outer) as [Av Af Ae Ah _ Ad]. constructor.
    - intros x X. rewrite assoc_app, assoc_preset, (Av x X). destruct (variable_in x gs); reflexivity.
    - intros s S. rewrite assoc_app, not_preset; [exact (Af s S)|]. intros y [Y _] E. subst y.
      exact (var_no_lower _ Y (fun_lower fl s (proj1 S) (proj1 (proj2 S)))).
    - exact Ae.
    - intros x I. rewrite assoc_app, not_preset; [exact (Ah x I)|]. intros y [Y T] E. subst y.
      apply T. assert (L : In x taken_variables \/ has_char lower_letter x).
      { cbn [In helpers] in I.
        decompose [or] I; subst; try contradiction; try (left; cbn; tauto); right;
          try (eexists; split; [left; reflexivity|cbn; tauto]). }
      destruct L as [L|L]; [exact L|]. exfalso. exact (var_no_lower _ Y L).
    - intros x v E. apply inside. exact (variable_in_name x gs v E).
    - exact Ad.
  Qed.
End start.

Lemma self_contained_app a b f : self_contained a f = true -> self_contained b f = true -> self_contained (a ++ b) f = true.
Proof.
  unfold self_contained. rewrite !andb_true_iff. intros [[K F] A] [_ B]. split; [now split|].
  rewrite forallb_forall in *. intros x I. specialize (A x I). specialize (B x I). apply orb_true_iff in A, B. apply orb_true_iff.
  destruct A as [A|A]; [now left|]. destruct B as [B|B]; [now left|]. right. unfold mem in *. rewrite existsb_app.
  apply negb_true_iff in A, B. rewrite A, B. reflexivity.
Qed.

Theorem runs_with : forall fl src text, fl_check fl = true -> fl_prefix fl = false -> compile fl src = Ok text ->
  exists p fl', wf p = true /\ scan src = Some (toks p) /\ settled fl p fl' /\
    (keeps fl' p = true -> results_inside p = true -> tame fl' p = true ->
     (exists q, py_program text q) /\
     forall q, py_program text q ->
     forall (V W : Type) (rt : runtime V W) gs, Forall (fun g => variable_name (fst g) = true) gs ->
       leaves_alone (map fst gs) p = true -> forall fuel w,
       unsafe_exec_with rt fuel gs q w = mean_with rt (fl_oplib fl) (negb (fl_prefix fl')) fuel gs p w).
Proof.
  intros fl src text C P E. pose proof (proj1 (compile_exact fl src text C P) E) as X.
  destruct X as [p [Wp [Sc H]]].
  assert (Z : exists fl', settled fl p fl' /\ text = squeeze (program_text fl' p) /\ accepted (negb (fl_prefix fl')) p
              /\ fl_oplib fl' = fl_oplib fl).
  { destruct H as [[N [A T]]|[Y [A T]]].
    - exists fl. split; [now left|]. split; [exact T|]. rewrite P. split; [exact A|reflexivity].
    - exists (with_prefix fl). split; [now right|]. split; [exact T|]. split; [exact A|reflexivity]. }
  destruct Z as [fl' [St [T [A O]]]]. exists p, fl'. split; [exact Wp|]. split; [exact Sc|]. split; [exact St|].
  intros K R Tm. pose proof (scan_good _ _ Sc) as G.
  pose proof (program_reads fl' p G Wp K R) as Q. rewrite <- T in Q. split; [exists (py_prog fl' p); exact Q|].
  intros q Q' V W rt gs Ng La fuel w. rewrite (py_program_det _ _ _ Q' Q). clear q Q' Q.
  unfold tame in Tm. apply andb_true_iff in Tm. destruct Tm as [Tm T4]. apply andb_true_iff in Tm. destruct Tm as [Tm T3].
  apply andb_true_iff in Tm. destruct Tm as [T1 T2]. apply negb_true_iff in T1.
  pose proof (defs_ok fl p fl' G P St T3) as Dk.
  pose proof (calls_ok fl' p G (proj2 (proj2 A)) Dk) as Ck.
  set (outer := map fst gs ++ given p).
  unfold unsafe_exec_with, py_prog. rewrite T1. cbn [app]. fold (preset gs).
  rewrite (sim_program fl' T1 outer rt fuel (preset gs ++ lib_env) gs (if negb (fl_prefix fl') then library_functions else [])).
  - unfold mean_with. rewrite O. reflexivity.
  - apply preset_agree; [exact Ng|]. intros x I. apply in_app_iff. now left.
  - assert (QL : Forall (Q_s fl' outer) p) by (apply Forall_forall; intros s _; exact (proj1 (tame_stmt fl' outer) s)).
    refine (proj2 (Q_list fl' outer p QL _) None _).
    + split; [exact G|]. split.
      * apply Forall_forall. intros x I. rewrite forallb_forall in T4. specialize (T4 x I). intros J.
        apply SemFacts.mem_in in J. unfold mem in T4. rewrite J in T4. discriminate.
      * split; [exact Ck|]. split; [exact Dk|]. apply Forall_forall. intros f I. rewrite forallb_forall in T2.
        unfold leaves_alone in La. rewrite forallb_forall in La. apply self_contained_app; [exact (La f I)|exact (T2 f I)].
    + apply Forall_forall. intros x I. apply in_app_iff. now right.
Qed.

(** ** Laws *)

Section laws.
  Context {V W : Type} (rt : runtime V W).
  Variables (oplib lib : bool) (n : nat).

  Lemma with_nothing p w : mean_with rt oplib lib n [] p w = mean_program rt oplib lib n p w.
  Proof. reflexivity. Qed.
  Lemma with_assign gs x e p w :
    mean_with rt oplib lib n gs (SAssign x e :: p) w =
    (v <== mean_e rt oplib (call_defined rt oplib n) (mkPlace gs (if lib then library_functions else []) None) e ;;
     mean_with rt oplib lib n ((x, v) :: gs) p) w.
  Proof.
    unfold mean_with. cbn [mean_block mean_s]. unfold bnd.
    destruct (mean_e rt oplib (call_defined rt oplib n) (mkPlace gs (if lib then library_functions else []) None) e w) as [[[v|er] w']|]; reflexivity.
  Qed.
End laws.
