(** Running a program generated with the variables in a dictionary, and the meaning of the
    dice program, compared: calls, and whole programs. *)
From Coq Require Import String Ascii List ZArith Bool Arith Lia.
From Verif Require Import PyBase LexModel LexSpec LexFacts ParseModel SynSpec SynInd ParseSound ParseLaws NameSpec ResolveModel ResolveGen
  HeaderFacts ResolveFacts CompileFacts PySpec PyDet PyTrans PyProg PyCompile PyProgLaws Runtime PySem ExecModel MeanSpec RunSpec ScopeSpec
  SemFacts SemStmt SemRun SemLaws ScopeFacts ScopeStmt.
Import ListNotations.
Open Scope string_scope.
Open Scope list_scope.
Open Scope run_scope.

(** ** Functions that are defined well *)

Section defs.
  Variable fl : flags.
  Hypothesis in_vars : fl_vars fl = true.

  Definition local_list (f : fdef) : list string :=
    (map fst (names_of f) ++ ["vars"]) ++ "vars" :: flat_map loops_s (d_body f).

  Record proper (f : fdef) : Prop := mkProper {
    p_body : good_l fl none (Some (local_list f)) (d_body f);
    p_params : Forall (fun p => var_ok (fst p)) (d_params f);
    p_loops : Forall var_ok (flat_map loops_s (d_body f));
    p_flat : flat_map functions_s (d_body f) = [];
    p_kinds : exists ks, kinds_of (d_params f) = Ok ks }.

  Lemma good_mono :
    (forall s, forall names, good_s fl none (Some names) s -> good_s fl proper (Some names) s) /\
    (forall b, forall names, good_b fl none (Some names) b -> good_b fl proper (Some names) b).
  Proof.
    assert (L : forall (A : Type) (P Q : A -> Prop) l, Forall (fun x => P x -> Q x) l ->
      fold_right (fun x R => P x /\ R) True l -> fold_right (fun x R => Q x /\ R) True l).
    { intros A P Q l F. induction F as [|x l Hx F IH]; [auto|]. cbn [fold_right]. tauto. }
    apply stmt_ind2.
    - auto.
    - auto.
    - intros h hs body _ names [N _]. discriminate.
    - intros x e body IH names [H1 [H2 H3]]. split; [exact H1|]. split; [exact H2|].
      refine (L _ _ _ body _ H3). eapply Forall_impl; [|exact IH]. intros s Hs. exact (Hs names).
    - auto.
    - auto.
    - auto.
    - intros b bs els Hb Hbs He names [H1 [H2 H3]]. split; [exact (Hb names H1)|]. split.
      + refine (L _ _ _ bs _ H2). eapply Forall_impl; [|exact Hbs]. intros s Hs. exact (Hs names).
      + destruct els as [body|]; [|exact H3]. refine (L _ _ _ body _ H3).
        eapply Forall_impl; [|exact He]. intros s Hs. exact (Hs names).
    - intros c body IH names [H1 H2]. split; [exact H1|]. refine (L _ _ _ body _ H2).
      eapply Forall_impl; [|exact IH]. intros s Hs. exact (Hs names).
  Qed.
  Lemma good_proper : forall names l, good_l fl none (Some names) l -> good_l fl proper (Some names) l.
  Proof.
    intros names l. induction l as [|s l IH]; [auto|]. intros [H1 H2].
    split; [exact (proj1 good_mono s names H1)|exact (IH H2)].
  Qed.

  (** The names bound in a translated block. *)
  Lemma over_bound_list : forall body, Forall (fun s => functions_s s = [] -> bound_names (py_s fl s) = loops_s s) body ->
    flat_map functions_s body = [] ->
    flat_map bound_names (body_or_pass (map (py_s fl) body)) = flat_map loops_s body.
  Proof.
    intros body IH N. rewrite bound_pass. apply flat_nil in N. induction IH as [|s body Hs IH IH']; [reflexivity|].
    cbn [map flat_map]. rewrite (Hs (Forall_inv N)), (IH' (Forall_inv_tail N)). reflexivity.
  Qed.
  Lemma over_bound :
    (forall s, functions_s s = [] -> bound_names (py_s fl s) = loops_s s) /\
    (forall b, functions_b b = [] -> flat_map bound_names (snd (py_b fl b)) = loops_b b).
  Proof.
    apply stmt_ind2; try reflexivity.
    - intros h hs body _ N. discriminate.
    - intros x e body IH N. change (functions_s (SLoop x e body)) with (flat_map functions_s body) in N.
      change (py_s fl (SLoop x e body)) with
        (PFor x (py_e fl e) ((if fl_vars fl then [PAssign (vars_at x) (PySpec.PName x)] else [])
                             ++ body_or_pass (map (py_s fl) body))).
      rewrite in_vars. cbn [app].
      change (x :: flat_map bound_names (body_or_pass (map (py_s fl) body)) = x :: flat_map loops_s body).
      now rewrite (over_bound_list body IH N).
    - intros x e _. cbn [py_s]. unfold variable. now rewrite in_vars.
    - intros b bs els Hb Hbs He N.
      change (functions_b b ++ flat_map functions_b bs
              ++ match els with None => [] | Some body => flat_map functions_s body end = []) in N.
      apply app_eq_nil in N. destruct N as [N1 N]. apply app_eq_nil in N. destruct N as [N2 N3].
      change (bound_names (py_s fl (SIf b bs els)) = loops_b b ++ flat_map loops_b bs
              ++ match els with None => [] | Some body => flat_map loops_s body end).
      set (E := fold_right (fun b els => let '(c, body) := py_b fl b in Some [PIf c body els])
             (match els with None => None | Some body => Some (body_or_pass (map (py_s fl) body)) end) bs).
      replace (py_s fl (SIf b bs els)) with (PIf (fst (py_b fl b)) (snd (py_b fl b)) E) by (destruct b; reflexivity).
      change (flat_map bound_names (snd (py_b fl b)) ++ match E with Some l => flat_map bound_names l | None => [] end
              = loops_b b ++ flat_map loops_b bs ++ match els with None => [] | Some body => flat_map loops_s body end).
      rewrite (Hb N1). f_equal. subst E. apply flat_nil in N2.
      induction Hbs as [|b' bs Hb' Hbs IH].
      + cbn [fold_right flat_map app]. destruct els as [body|]; [exact (over_bound_list body He N3)|reflexivity].
      + cbn [fold_right flat_map]. specialize (IH (Forall_inv_tail N2)). specialize (Hb' (Forall_inv N2)).
        destruct (py_b fl b') as [c body]. cbn [snd] in Hb'.
        cbn [flat_map bound_names app]. rewrite app_nil_r, <- app_assoc, <- IH, <- Hb'. reflexivity.
    - intros c body IH N. exact (over_bound_list body IH N).
  Qed.

  Lemma over_locals : forall f, proper f -> pf_locals (over_py fl f) = local_list f.
  Proof.
    intros f H. unfold over_py, local_list. cbn [pf_locals]. f_equal.
    rewrite flat_map_app. unfold enter. rewrite in_vars. cbn [flat_map bound_names app]. f_equal.
    assert (E : flat_map bound_names (map (fun p => PAssign (vars_at (fst p)) (PySpec.PName (fst p))) (names_of f)) = []).
    { induction (names_of f) as [|p l IH]; [reflexivity|exact IH]. }
    rewrite E. apply over_bound_list; [|exact (p_flat f H)].
    apply Forall_forall. intros s _. exact (proj1 over_bound s).
  Qed.

  Lemma inner_locals : forall f, proper f -> inner fl (local_list f).
  Proof.
    intros f H.
    assert (NM : forall x, In x (local_list f) -> x = "vars" \/ var_ok x \/ exists j, x = dummy j).
    { intros x I. unfold local_list in I. rewrite !in_app_iff in I. destruct I as [[I|I]|[<-|I]].
      - right. destruct (own_only _ _ _ _ I) as [J|J]; [left|now right]. apply in_map_iff in J. destruct J as [p [<- J]].
        exact (proj1 (Forall_forall _ _) (p_params f H) p J).
      - destruct I as [<-|[]]. now left.
      - now left.
      - right. left. exact (proj1 (Forall_forall _ _) (p_loops f H) x I). }
    constructor.
    - unfold local_list. rewrite !in_app_iff. left. right. now left.
    - intros s S I. destruct (NM _ I) as [E|[X|[j E]]].
      + exact (fun_not_vars fl s S E).
      + exact (var_not_fun fl _ s X S eq_refl).
      + exact (dummy_not_fun fl j s (proj1 S) (eq_sym E)).
    - intros x X I. destruct (NM _ I) as [->|[Y|[j ->]]].
      + cbn in X. decompose [or] X; try discriminate; assumption.
      + exact (var_not_helper x Y X).
      + exact (dummy_not_helper j X).
  Qed.

  (** The names of the parameters differ. *)
  Lemma names_differ : forall ps i seen, Forall (fun p => a_word upper_letter (fst p)) ps ->
    NoDup (map fst (own_names i seen ps)).
  Proof.
    induction ps as [|[x ty] ps IH]; intros i seen F; [constructor|].
    cbn [own_names map fst]. constructor; [|exact (IH (S i) (x :: seen) (Forall_inv_tail F))].
    intros H. rewrite own_renamed in H. apply renamed_in in H. pose proof (Forall_inv F) as U. cbn [fst] in U.
    destruct (existsb (String.eqb x) seen).
    - destruct H as [[A _]|[k [A B]]].
      + unfold pnames in A. apply in_map_iff in A. destruct A as [q [E J]]. apply Forall_inv_tail in F.
        rewrite Forall_forall in F. pose proof (F q J) as V. rewrite E in V. exact (dummy_not_upper _ _ V eq_refl).
      + apply dummy_inj in B. lia.
    - destruct H as [[_ A]|[k [A B]]].
      + apply A. now left.
      + exact (dummy_not_upper k x U (eq_sym B)).
  Qed.

  Context {V W : Type} (rt : runtime V W).
  Hypothesis more : lenient rt.

  (** *** Entering a function *)

  Lemma bind_over : forall (qs : list string) (l : list V) (d : list (string * V)),
    bind_params (qs ++ ["vars"]) l (Some d)
    = option_map (fun own => own ++ [("vars", PyDict false d)]) (bind_params qs l None).
  Proof.
    induction qs as [|y qs IH]; intros [|v l] d; cbn [app bind_params]; try reflexivity.
    - now destruct l.
    - destruct (qs ++ ["vars"]) eqn:E; [|reflexivity]. now destruct qs.
    - rewrite IH. destruct (bind_params qs l None); reflexivity.
  Qed.

  Lemma pairs_in : forall (A B : Type) (P Q : A -> B -> Prop) l m, (forall a b, In a l -> P a b -> Q a b) ->
    Forall2 P l m -> Forall2 Q l m.
  Proof.
    intros A B P Q l m H F. induction F as [|a b l m Hab F IH]; constructor.
    - apply H; [now left|exact Hab].
    - apply IH. intros x y J. apply H. now right.
  Qed.
  Arguments pairs_in {A B} P Q l m _ _.
  Lemma bind_finds : forall (qs : list string) (l : list V) own rest, bind_params qs l None = Some own -> NoDup qs ->
    Forall2 (fun q v => assoc q (own ++ rest) = Some (PyObj v)) qs l.
  Proof.
    induction qs as [|y qs IH]; intros [|v l] own rest E N; cbn [bind_params] in E; try discriminate; [constructor|].
    destruct (bind_params qs l None) as [own'|] eqn:E'; [|discriminate]. injection E as <-.
    inversion N as [|? ? N1 N2]; subst. constructor.
    - cbn [app assoc]. now rewrite String.eqb_refl.
    - refine (pairs_in _ _ _ _ _ (IH l own' rest E' N2)). intros q u J H. cbn [app assoc].
      destruct (String.eqb_spec q y) as [->|_]; [contradiction|exact H].
  Qed.

  (** The dictionary after [vars["A"] = A] for all parameters. *)
  Fixpoint entered (qs : list string) (l : list V) (d : list (string * V)) : list (string * V) :=
    match qs, l with
    | q :: qs', v :: l' => entered qs' l' ((q, v) :: d)
    | _, _ => d
    end.

  Lemma enter_sets : forall callf g names qs (l : list V) own d,
    Forall2 (fun q v => assoc q own = Some (PyObj v)) qs l ->
    Forall (fun q => In q names /\ q <> "vars") qs ->
    assoc "vars" own = Some (PyDict true d) ->
    exists own', assoc "vars" own' = Some (PyDict true (entered qs l d)) /\
      forall rest w, exec_block rt callf (map (fun q => PAssign (vars_at q) (PySpec.PName q)) qs ++ rest) (InFunction g names own) w
                = exec_block rt callf rest (InFunction g names own') w.
  Proof.
    intros callf g names qs l own d F. revert own d F. revert l. induction qs as [|q qs IH]; intros l own d F N E.
    - exists own. inversion F; subst. split; [exact E|reflexivity].
    - inversion F as [|? v ? l' Hq F']; subst. destruct (Forall_inv N) as [Nq Dq].
      destruct (IH l' (("vars", PyDict true ((q, v) :: d)) :: own) ((q, v) :: d)) as [own' [E' X]].
      + clear - F' N. apply Forall_inv_tail in N. induction F' as [|p u qs l H F' IH]; constructor.
        * cbn [assoc]. destruct (String.eqb_spec p "vars") as [->|_]; [|exact H]. destruct (Forall_inv N) as [_ D]. congruence.
        * exact (IH (Forall_inv_tail N)).
      + exact (Forall_inv_tail N).
      + reflexivity.
      + exists own'. split; [exact E'|]. intros rest w. cbn [map app exec_block]. unfold vars_at at 1.
        rewrite <- X. cbn [exec]. unfold bnd at 1 2. unfold eval_value, bnd at 1. cbn [eval].
        unfold lift. cbn [find]. rewrite (proj2 (mem_in q names) Nq), Hq.
        cbn [value]. unfold ret at 1. cbn [set_entry]. unfold bnd at 1. rewrite E. reflexivity.
  Qed.

  Definition first_of (a b : option V) : option V := match a with Some v => Some v | None => b end.

  Lemma entered_finds : forall ps i seen (l : list V) own d, give_all ps l = Some own ->
    forall x, a_word upper_letter x ->
      (In x seen -> assoc x (entered (map fst (own_names i seen ps)) l d) = assoc x d) /\
      (~ In x seen -> assoc x (entered (map fst (own_names i seen ps)) l d) = first_of (variable_in x own) (assoc x d)).
  Proof.
    induction ps as [|[y ty] ps IH]; intros i seen [|v l] own d E x X; cbn [give_all] in E; try discriminate.
    - injection E as <-. cbn [own_names map entered]. split; reflexivity.
    - destruct (give_all ps l) as [own'|] eqn:E'; [|discriminate]. cbn [fst option_map] in E. injection E as <-.
      cbn [own_names map fst entered].
      set (q := if existsb (String.eqb y) seen then _ else y).
      destruct (IH (S i) (y :: seen) l own' ((q, v) :: d) E' x X) as [H1 H2].
      assert (Q : x = q -> x = y /\ ~ In x seen).
      { intros Eq. subst q. destruct (existsb (String.eqb y) seen) eqn:M.
        - exfalso. exact (dummy_not_upper i x X (eq_sym Eq)).
        - split; [exact Eq|]. intros J. subst y. apply mem_in in J. congruence. }
      cbn [variable_in]. split.
      + intros J. rewrite (H1 (or_intror J)). cbn [assoc]. destruct (String.eqb_spec x q) as [Eq|_]; [|reflexivity].
        exfalso. exact (proj2 (Q Eq) J).
      + intros N. destruct (String.eqb_spec x y) as [->|D].
        * rewrite (H1 (or_introl eq_refl)). cbn [assoc].
          assert (Eq : q = y). { subst q. destruct (existsb (String.eqb y) seen) eqn:M; [|reflexivity]. apply mem_in in M. contradiction. }
          rewrite Eq, String.eqb_refl. reflexivity.
        * rewrite H2; [|intros [J|J]; [congruence|contradiction]]. cbn [assoc].
          destruct (String.eqb_spec x q) as [Eq|_]; [|reflexivity]. destruct (Q Eq) as [Z _]. contradiction.
  Qed.

  Lemma bind_given_all : forall ps i seen (l : list V),
    match bind_params (map fst (own_names i seen ps)) l None, give_all ps l with
    | Some _, Some _ | None, None => True
    | _, _ => False
    end.
  Proof.
    induction ps as [|[y ty] ps IH]; intros i seen [|v l]; cbn [own_names map fst bind_params give_all]; try exact Logic.I.
    specialize (IH (S i) (y :: seen) l).
    destruct (bind_params _ l None), (give_all ps l); try contradiction; exact Logic.I.
  Qed.

  Lemma variable_app : forall x (a b : @variables V), variable_in x (a ++ b) = first_of (variable_in x a) (variable_in x b).
  Proof.
    intros x a b. induction a as [|[y v] a IH]; [reflexivity|]. cbn [app variable_in]. destruct (String.eqb x y); [reflexivity|exact IH].
  Qed.

  Lemma kinds_length : forall ps ks, kinds_of ps = Ok ks -> List.length ks = List.length ps.
  Proof.
    unfold kinds_of. induction ps as [|p ps IH]; intros ks E; cbn [mapM] in E; [injection E as <-; reflexivity|].
    destruct (match snd p with None => _ | Some ty => _ end); [|discriminate]. cbn [bind] in E.
    destruct (mapM _ ps) as [ks'|]; [|discriminate]. injection E as <-. cbn [List.length]. now rewrite (IH ks' eq_refl).
  Qed.
  (** *** Calls *)

  Notation known := (known (V := V) fl proper).

  Theorem over_calls : forall fuel g d vs fs f l, known g fs -> same d vs -> proper f -> List.length l = List.length (d_params f) ->
    forall w, call_fun rt fuel g (over_py fl f) l (Some d) w = call_over rt (fl_oplib fl) fuel vs fs f l w.
  Proof.
    induction fuel as [|n IH]; intros g d vs fs f l K S H Len w; [reflexivity|]. cbn [call_fun call_over].
    destruct (p_kinds f H) as [ks Ek]. unfold bnd, lift. rewrite Ek.
    replace (pf_kinds (over_py fl f)) with (ks ++ [None]) by (unfold over_py; cbn [pf_kinds]; now rewrite Ek).
    rewrite last_last, removelast_last, app_length, (kinds_length _ _ Ek), Len. cbn [List.length].
    rewrite Nat.add_1_r, Nat.eqb_refl.
    apply rt_call_ext. clear l w Len. intros l w. unfold run_body, body_over.
    change (pf_params (over_py fl f)) with (map fst (names_of f) ++ ["vars"]).
    rewrite bind_over. pose proof (bind_given_all (d_params f) 0 [] l) as O. fold (names_of f) in O.
    destruct (bind_params (map fst (names_of f)) l None) as [own|] eqn:Eo, (give_all (d_params f) l) as [own'|] eqn:Eg;
      try contradiction; [|reflexivity].
    cbn [option_map]. rewrite (over_locals f H).
    assert (NP : Forall (fun p => a_word upper_letter (fst p)) (d_params f)).
    { eapply Forall_impl; [|exact (p_params f H)]. intros p X. exact (proj1 X). }
    pose proof (bind_finds _ _ _ [("vars", PyDict false d)] Eo (names_differ _ 0 [] NP)) as F.
    assert (NV : Forall (fun q => In q (local_list f) /\ q <> "vars") (map fst (names_of f))).
    { apply Forall_forall. intros q Q. split.
      - unfold local_list. rewrite !in_app_iff. left. now left.
      - destruct (own_only _ _ _ _ Q) as [J|[j ->]]; [|discriminate].
        apply in_map_iff in J. destruct J as [p [<- J]]. rewrite Forall_forall in NP. exact (upper_not_vars _ (NP p J)). }
    assert (DV : assoc "vars" (own ++ [("vars", PyDict false d)]) = Some (PyDict false d)).
    { clear - Eo NV. revert l own Eo NV. generalize (map fst (names_of f)) as qs. induction qs as [|q qs IHq]; intros [|v l] own Eo NV; try discriminate.
      - injection Eo as <-. reflexivity.
      - cbn [bind_params] in Eo. destruct (bind_params qs l None) as [own1|] eqn:E1; [|discriminate]. injection Eo as <-.
        cbn [app assoc]. destruct (String.eqb_spec "vars" q) as [<-|_]; [destruct (Forall_inv NV) as [_ N]; congruence|].
        exact (IHq l own1 E1 (Forall_inv_tail NV)). }
    destruct (enter_sets (call_fun rt n) g (local_list f) (map fst (names_of f)) l
      (("vars", PyDict true d) :: own ++ [("vars", PyDict false d)]) d) as [own2 [E2 X]]; [|exact NV|reflexivity|].
    { refine (pairs_in _ _ _ _ _ F). intros q u Q E. cbn [assoc].
      destruct (String.eqb_spec q "vars") as [->|_]; [|exact E].
      rewrite Forall_forall in NV. destruct (NV _ Q) as [_ N]. congruence. }
    change (pf_body (over_py fl f)) with (enter fl (names_of f) ++ body_or_pass (map (py_s fl) (d_body f))).
    unfold enter. rewrite in_vars. rewrite <- (map_map fst (fun q => PAssign (vars_at q) (PySpec.PName q))).
    assert (Z : forall rest w, exec_block rt (call_fun rt n)
        ((PAssign (PySpec.PName "vars") (PCall (PAttr (PySpec.PName "vars") "copy") []) ::
          map (fun q => PAssign (vars_at q) (PySpec.PName q)) (map fst (names_of f))) ++ rest)
        (InFunction g (local_list f) (own ++ [("vars", PyDict false d)])) w
      = exec_block rt (call_fun rt n) rest (InFunction g (local_list f) own2) w).
    { intros rest u. rewrite <- X. cbn [app]. cbn [exec_block]. unfold bnd at 1. cbn [exec].
      unfold bnd at 1. rewrite eval_call. unfold bnd at 1. cbn [eval]. unfold bnd at 1, lift. cbn [find].
      rewrite (proj2 (mem_in "vars" (local_list f)) (in_dict _ _ (inner_locals f H))), DV. reflexivity. }
    revert w. apply sim_eq. apply (sim_bnd (ends fl proper (Some (local_list f)))).
    - eapply sim_eq_l; [intros u; exact (Z _ u)|].
      refine (over_block rt fl proper (call_fun rt n) (call_over rt (fl_oplib fl) n) (d_body f) (Some (local_list f)) _
        (good_proper _ _ (p_body f H)) _ (mkPlace (own' ++ vs) fs None) _).
      + apply Forall_forall. intros s _.
        exact (proj1 (over_stmt rt fl in_vars more proper (call_fun rt n) (call_over rt (fl_oplib fl) n) IH) s (Some (local_list f))).
      + split; [|reflexivity]. split; [reflexivity|]. split; [exact K|]. split; [exact (inner_locals f H)|].
        exists (entered (map fst (names_of f)) l d). split; [exact E2|]. intros x X1. cbn [pl_globals].
        rewrite variable_app, <- (S x X1). exact (proj2 (entered_finds _ 0 [] l own' d Eg x X1) (fun Q => Q)).
    - intros [sc|v] [pl|v'] R; try contradiction; [apply sim_ret; reflexivity|]. cbn in R. subst. now apply sim_ret.
  Qed.

  (** *** Programs *)

  Theorem over_program : forall fuel g fs p, known g fs -> good_l fl proper None p ->
    forall w, run_module rt fuel g (PAssign (PySpec.PName "vars") PDict :: body_or_pass (map (py_s fl) p)) w
              = (r <== mean_block rt (fl_oplib fl) (call_over rt (fl_oplib fl) fuel) p (mkPlace [] fs None) ;; ret Datatypes.tt) w.
  Proof.
    intros fuel g fs p K F. apply sim_eq. unfold run_module.
    apply (sim_bnd (ends fl proper None)).
    - apply sim_eq_l with (n := exec_block rt (call_fun rt fuel) (body_or_pass (map (py_s fl) p))
        (InModule (("vars", PyDict true []) :: g))); [reflexivity|].
      refine (over_block rt fl proper (call_fun rt fuel) (call_over rt (fl_oplib fl) fuel) p None _ F _ (mkPlace [] fs None) _).
      + apply Forall_forall. intros s _.
        exact (proj1 (over_stmt rt fl in_vars more proper (call_fun rt fuel) (call_over rt (fl_oplib fl) fuel) (over_calls fuel)) s None).
      + split; [|reflexivity]. split; [reflexivity|]. cbn [globals_of pl_functions pl_globals]. split.
        * destruct K as [Kf Ke Kh Kl Kd]. constructor; try assumption.
          -- intros s Hs. cbn [assoc]. destruct (String.eqb_spec (fun_name fl s) "vars") as [E|_]; [|exact (Kf s Hs)].
             exfalso. exact (fun_not_vars fl s Hs E).
          -- intros y Y. cbn [assoc]. destruct (String.eqb_spec y "vars") as [->|_]; [|exact (Kh y Y)].
             exfalso. cbn in Y. decompose [or] Y; try discriminate; assumption.
        * exists []. split; [reflexivity|]. intros x _. reflexivity.
    - intros _ _ _. now apply sim_ret.
  Qed.
End defs.
