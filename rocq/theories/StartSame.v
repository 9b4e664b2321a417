(** Of the variables a program starts with, only those in the program count. *)
From Coq Require Import String Ascii List ZArith Bool Arith Lia.
From Verif Require Import PyBase LexModel ParseModel SynSpec SynInd NameSpec ResolveModel Runtime MeanSpec PySem RunSpec
  ExecModel SemFacts SemStmt SemRun SemLaws StartSpec ScopeSame.
Import ListNotations.
Open Scope string_scope.
Open Scope list_scope.
Open Scope run_scope.

Definition inside (xs : list string) (f : list (string * option ptype) * list stmt) : Prop := incl (flat_map vars_s (snd f)) xs.

Lemma inside_more xs ys l : incl xs ys -> Forall (inside xs) l -> Forall (inside ys) l.
Proof. intros I F. eapply Forall_impl; [|exact F]. intros f J x K. exact (I x (J x K)). Qed.
Lemma inside_list l : Forall (fun s => Forall (inside (vars_s s)) (functions_s s)) l ->
  Forall (inside (flat_map vars_s l)) (flat_map functions_s l).
Proof.
  intro F. induction F as [|s l H F IH]; [constructor|]. cbn [flat_map]. apply Forall_app. split.
  - exact (inside_more _ _ _ (incl_appl _ (incl_refl _)) H).
  - exact (inside_more _ _ _ (incl_appr _ (incl_refl _)) IH).
Qed.
Lemma functions_inside : (forall s, Forall (inside (vars_s s)) (functions_s s)) /\ (forall b, Forall (inside (vars_b b)) (functions_b b)).
Proof.
  apply stmt_ind2; try (intros; constructor).
  - intros x J. change (In x (map fst (params (h :: hs)) ++ flat_map vars_s body)). apply in_app_iff. now right.
  - change (Forall (inside (map fst (params (h :: hs)) ++ flat_map vars_s body)) (flat_map functions_s body)).
    refine (inside_more _ _ _ (incl_appr _ (incl_refl _)) (inside_list body _)). assumption.
  - intros x e body IH. change (Forall (inside (x :: vars_e e ++ flat_map vars_s body)) (flat_map functions_s body)).
    refine (inside_more _ _ _ _ (inside_list body IH)). apply incl_tl. apply incl_appr. apply incl_refl.
  - intros b bs els Hb Hbs Hels.
    change (Forall (inside (vars_b b ++ flat_map vars_b bs ++ match els with None => [] | Some body => flat_map vars_s body end))
      (functions_b b ++ flat_map functions_b bs ++ match els with None => [] | Some body => flat_map functions_s body end)).
    apply Forall_app. split; [|apply Forall_app; split].
    + exact (inside_more _ _ _ (incl_appl _ (incl_refl _)) Hb).
    + refine (inside_more (flat_map vars_b bs) _ _ _ _); [apply incl_appr, incl_appl, incl_refl|]. clear - Hbs.
      induction Hbs as [|b bs H F IH]; [constructor|]. cbn [flat_map]. apply Forall_app. split.
      * exact (inside_more _ _ _ (incl_appl _ (incl_refl _)) H).
      * exact (inside_more _ _ _ (incl_appr _ (incl_refl _)) IH).
    + destruct els as [body|]; [|constructor]. refine (inside_more _ _ _ _ (inside_list body Hels)). apply incl_appr, incl_appr, incl_refl.
  - intros c body IH. change (Forall (inside (vars_e c ++ flat_map vars_s body)) (flat_map functions_s body)).
    exact (inside_more _ _ _ (incl_appr _ (incl_refl _)) (inside_list body IH)).
Qed.

Section same.
  Context {V W : Type} (rt : runtime V W).
  Variable oplib : bool.
  Let fl : flags := mkFlags false oplib false true.
  Variable xs : list string.
  Let P := inside xs.
  Let X (x : string) : Prop := In x xs.

  Record near (pl pl' : @place V) : Prop := {
    nr_own : pl_own pl = pl_own pl';
    nr_globals : forall x, X x -> variable_in x (pl_globals pl) = variable_in x (pl_globals pl') }.
  Lemma near_give x v pl pl' : near pl pl' -> near (give x v pl) (give x v pl').
  Proof.
    destruct pl as [g f o], pl' as [g' f' o']. intros [O G]. cbn in O, G. subst o'. unfold give. cbn [pl_own pl_globals pl_functions].
    destruct o as [o|]; split; cbn [pl_own pl_globals]; try reflexivity; [exact G|]. intros y Y. cbn [variable_in].
    destruct (String.eqb y x); [reflexivity|exact (G y Y)].
  Qed.
  Lemma near_define s f pl pl' : near pl pl' -> near (define s f pl) (define s f pl').
  Proof. intros [O G]. now split. Qed.
  Lemma near_find x pl pl' : near pl pl' -> X x -> find_variable x pl = find_variable x pl'.
  Proof. intros [O G] H. unfold find_variable. rewrite O, (G x H). reflexivity. Qed.

  Theorem calls_near : forall fuel (pl pl' : @place V) fs f l, near pl pl' -> only_all P fs -> only_def P f ->
    forall w, call_defined rt oplib fuel (pl_globals pl) fs f l w = call_defined rt oplib fuel (pl_globals pl') fs f l w.
  Proof.
    induction fuel as [|n IH]; intros pl pl' fs f l N A D w; [reflexivity|]. cbn [call_defined].
    unfold bnd, lift. destruct (kinds_of (d_params f)) as [ks|e]; [|reflexivity].
    apply rt_call_ext. clear l w. intros l w. unfold mean_body.
    destruct (give_all (d_params f) l) as [own|] eqn:E; [|reflexivity].
    revert w. apply sim_eq. destruct D as [D1 D2].
    assert (U : uses_l P X (d_body f)) by (split; [apply Forall_forall; exact D1|exact D2]).
    assert (N' : near (mkPlace (pl_globals pl) fs (Some own)) (mkPlace (pl_globals pl') fs (Some own))).
    { split; [reflexivity|exact (nr_globals _ _ N)]. }
    eapply sim_bnd.
    - refine (block_same rt fl P (call_defined rt oplib n) (call_defined rt oplib n) near X (d_body f) _ U _ _ _).
      + apply Forall_forall. intros s _.
        exact (proj1 (stmt_same rt fl P (call_defined rt oplib n) (call_defined rt oplib n) near near_give near_define IH X) s).
      + split; [reflexivity|exact A|exact N'|]. intros x I. exact (near_find x _ _ N' I).
    - intros [p|p] [q|q] R; try contradiction; [now apply sim_ret|]. cbn in R. subst. now apply sim_ret.
  Qed.
End same.

Theorem starts_same : forall (V W : Type) (rt : runtime V W) oplib lib fuel gs gs' p w,
  (forall x, In x (flat_map vars_s p) -> variable_in x gs = variable_in x gs') ->
  mean_with rt oplib lib fuel gs p w = mean_with rt oplib lib fuel gs' p w.
Proof.
  intros V W rt oplib lib fuel gs gs' p w H. revert w. apply sim_eq. unfold mean_with.
  set (xs := flat_map vars_s p). set (fs := if lib then library_functions else []).
  assert (N : near xs (mkPlace gs fs None) (mkPlace gs' fs None)) by (split; [reflexivity|exact H]).
  eapply sim_bnd; [|intros a b _; apply sim_refl].
  refine (block_same rt (mkFlags false oplib false true) (inside xs) (call_defined rt oplib fuel) (call_defined rt oplib fuel) (near xs)
    (fun x => In x xs) p _ _ _ _ _).
  - apply Forall_forall. intros s _.
    exact (proj1 (stmt_same rt (mkFlags false oplib false true) (inside xs) (call_defined rt oplib fuel) (call_defined rt oplib fuel)
      (near xs) (near_give xs) (near_define xs) (calls_near rt oplib xs fuel) (fun x => In x xs)) s).
  - split; [apply Forall_forall; intros x I; exact I|]. apply inside_list. apply Forall_forall. intros s _. exact (proj1 functions_inside s).
  - split; [reflexivity| |exact N|intros x I; exact (near_find xs x _ _ N I)]. intros s f E. exfalso. cbn [pl_functions] in E.
    unfold fs in E. destruct lib; [exact (library_only s f E)|discriminate].
Qed.
