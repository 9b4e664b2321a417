(** Programs with functions that use only their parameters mean the same, whether
    functions see the variables of their callers or not. *)
From Coq Require Import String Ascii List ZArith Bool Arith Lia.
From Verif Require Import PyBase LexModel ParseModel SynSpec SynInd NameSpec ResolveModel Runtime MeanSpec PySem RunSpec ScopeSpec
  ExecModel SemFacts SemStmt SemRun SemLaws ScopeRun.
Import ListNotations.
Open Scope string_scope.
Open Scope list_scope.
Open Scope run_scope.

Section same.
  Context {V W : Type} (rt : runtime V W).
  Variable fl : flags.

  Variable P : list (string * option ptype) * list stmt -> Prop.
  Definition only_def (f : fdef) : Prop := P (d_params f, d_body f) /\ Forall P (flat_map functions_s (d_body f)).
  Definition only_all (fs : functions) : Prop := forall s f, find_function s fs = Ok (Defined f) -> only_def f.

  Variables callm callm' : @variables V -> functions -> fdef -> list V -> M W V.
  Variable near : @place V -> @place V -> Prop.
  Hypothesis near_give : forall x v pl pl', near pl pl' -> near (give x v pl) (give x v pl').
  Hypothesis near_define : forall s f pl pl', near pl pl' -> near (define s f pl) (define s f pl').
  Hypothesis calls : forall pl pl' fs f l, near pl pl' -> only_all fs -> only_def f ->
    forall w, callm (pl_globals pl) fs f l w = callm' (pl_globals pl') fs f l w.

  Variable X : string -> Prop.
  Record alike (pl pl' : @place V) : Prop := {
    ak_functions : pl_functions pl = pl_functions pl';
    ak_only : only_all (pl_functions pl);
    ak_near : near pl pl';
    ak_find : forall x, X x -> find_variable x pl = find_variable x pl' }.

  Lemma text_same : forall ps pl pl', alike pl pl' -> Forall X (flat_map part_vars ps) -> simM eq (text rt pl ps) (text rt pl' ps).
  Proof.
    intros ps pl pl' A. induction ps as [|p ps IH]; intros F; [now apply sim_ret|]. cbn [flat_map] in F.
    apply Forall_app in F. destruct F as [F1 F2]. specialize (IH F2). destruct p as [s|s|x]; cbn [text].
    - eapply sim_bnd; [exact IH|]. intros a b ->. now apply sim_ret.
    - eapply sim_bnd; [exact IH|]. intros a b ->. now apply sim_ret.
    - rewrite (ak_find _ _ A x (Forall_inv F1)). apply sim_bnd_same. intros v. apply sim_bnd_same. intros s.
      eapply sim_bnd; [exact IH|]. intros a b ->. now apply sim_ret.
  Qed.

  Notation me c := (mean_e rt (fl_oplib fl) c).
  Notation mt c := (mean_t rt (fl_oplib fl) c).
  Notation ml c := (mean_l rt (fl_oplib fl) c).
  Notation mc c := (mean_c rt (fl_oplib fl) c).

  Theorem expr_same :
    (forall e, forall pl pl', alike pl pl' -> Forall X (vars_e e) -> simM eq (me callm pl e) (me callm' pl' e)) /\
    (forall t, forall pl pl', alike pl pl' -> Forall X (vars_t t) -> simM eq (mt callm pl t) (mt callm' pl' t)) /\
    (forall x, forall pl pl', alike pl pl' -> Forall X (vars_l x) -> simM eq (ml callm pl x) (ml callm' pl' x)) /\
    (forall c, forall pl pl', alike pl pl' -> Forall X (vars_c c) -> simM eq (mc callm pl c) (mc callm' pl' c)).
  Proof.
    apply syn_ind.
    - intros o l r Hl Hr pl pl' A F. cbn [vars_e] in F. apply Forall_app in F. destruct F as [F1 F2]. cbn [mean_e].
      eapply sim_bnd; [exact (Hl pl pl' A F1)|]. intros a b ->. eapply sim_bnd; [exact (Hr pl pl' A F2)|]. intros c d ->. apply sim_refl.
    - intros n d Hn Hd pl pl' A F. cbn [vars_e] in F. apply Forall_app in F. destruct F as [F1 F2]. cbn [mean_e].
      eapply sim_bnd; [exact (Hn pl pl' A F1)|]. intros a b ->. eapply sim_bnd; [exact (Hd pl pl' A F2)|]. intros c d' ->. apply sim_refl.
    - intros d Hd pl pl' A F. cbn [mean_e]. eapply sim_bnd; [exact (Hd pl pl' A F)|]. intros a b ->. apply sim_refl.
    - intros t Ht pl pl' A F. exact (Ht pl pl' A F).
    - intros s pl pl' A F. apply sim_refl.
    - intros a b pl pl' A F. apply sim_refl.
    - intros x pl pl' A F. cbn [mean_t]. rewrite (ak_find _ _ A x (Forall_inv F)). apply sim_refl.
    - intros p ps pl pl' A F. cbn [mean_t]. eapply sim_bnd; [exact (text_same (p :: ps) pl pl' A F)|]. intros a b ->. now apply sim_ret.
    - intros es IH pl pl' A F.
      change (mt callm pl (TSeq es)) with (l <== element_list rt fl callm pl es ;; rt_seq rt (rt_list rt l)).
      change (mt callm' pl' (TSeq es)) with (l <== element_list rt fl callm' pl' es ;; rt_seq rt (rt_list rt l)).
      apply (sim_bnd eq); [|intros a b ->; apply sim_refl]. cbn [vars_t] in F.
      induction IH as [|x es Hx IH IHs]; [now apply sim_ret|]. cbn [flat_map] in F. apply Forall_app in F. destruct F as [F1 F2].
      cbn [element_list]. eapply sim_bnd; [exact (Hx pl pl' A F1)|]. intros a b ->. eapply sim_bnd; [exact (IHs F2)|]. intros c d ->. now apply sim_ret.
    - intros e He pl pl' A F. exact (He pl pl' A F).
    - intros cs IH pl pl' A F.
      change (mt callm pl (TCall cs)) with
        (f <== lift (find_function (call_shape cs) (pl_functions pl)) ;; l <== argument_list rt fl callm pl cs ;;
         match f with Defined d => callm (pl_globals pl) (pl_functions pl) d l | Library g => rt_lib rt g l end).
      change (mt callm' pl' (TCall cs)) with
        (f <== lift (find_function (call_shape cs) (pl_functions pl')) ;; l <== argument_list rt fl callm' pl' cs ;;
         match f with Defined d => callm' (pl_globals pl') (pl_functions pl') d l | Library g => rt_lib rt g l end).
      rewrite <- (ak_functions _ _ A). destruct (find_function (call_shape cs) (pl_functions pl)) as [f|err] eqn:E; [|intros w; split; reflexivity].
      match goal with |- simM _ (bnd _ ?k) (bnd _ ?k') => change (simM eq (k f) (k' f)); cbv beta end.
      apply (sim_bnd eq).
      + clear E. cbn [vars_t] in F. induction IH as [|x es Hx IH IHs]; [now apply sim_ret|].
        cbn [flat_map] in F. apply Forall_app in F. destruct F as [F1 F2]. cbn [argument_list].
        eapply sim_bnd; [exact (Hx pl pl' A F1)|]. intros a b ->. eapply sim_bnd; [exact (IHs F2)|]. intros c d ->. now apply sim_ret.
      + intros l l' <-. destruct f as [f|g]; [|apply sim_refl].
        apply eq_sim. intros w. exact (calls _ _ _ f l (ak_near _ _ A) (ak_only _ _ A) (ak_only _ _ A _ f E) w).
    - intros u t Ht pl pl' A F. cbn [mean_t]. eapply sim_bnd; [exact (Ht pl pl' A F)|]. intros a b ->. apply sim_refl.
    - intros t Ht pl pl' A F. cbn [mean_t]. eapply sim_bnd; [exact (Ht pl pl' A F)|]. intros a b ->. apply sim_refl.
    - intros e He pl pl' A F. exact (He pl pl' A F).
    - intros a b Ha Hb pl pl' A F. cbn [vars_l] in F. apply Forall_app in F. destruct F as [F1 F2]. cbn [mean_l].
      eapply sim_bnd; [exact (Ha pl pl' A F1)|]. intros x y ->. eapply sim_bnd; [exact (Hb pl pl' A F2)|]. intros c d ->. apply sim_refl.
    - intros w pl pl' A F. apply sim_refl.
    - intros e He pl pl' A F. cbn [mean_c]. eapply sim_bnd; [exact (He pl pl' A F)|]. intros x y ->. now apply sim_ret.
  Qed.

  (** *** Statements *)

  Definition end_alike (a b : @ending V) : Prop :=
    match a, b with
    | Onward pl, Onward pl' => alike pl pl'
    | Result v, Result v' => v = v'
    | _, _ => False
    end.
  Definition uses_s (s : stmt) : Prop := Forall X (vars_s s) /\ Forall P (functions_s s).
  Definition uses_b (b : branch) : Prop := Forall X (vars_b b) /\ Forall P (functions_b b).
  Definition uses_l (l : list stmt) : Prop :=
    Forall X (flat_map vars_s l) /\ Forall P (flat_map functions_s l).

  Lemma find_give : forall y x v (pl : @place V), find_variable y (give x v pl) = if String.eqb y x then Ok v else find_variable y pl.
  Proof.
    intros y x v [gs fs [own|]]; unfold give, find_variable; cbn [pl_own pl_globals pl_functions variable_in];
      destruct (String.eqb y x); reflexivity.
  Qed.
  Lemma give_functions : forall x v (pl : @place V), pl_functions (give x v pl) = pl_functions pl.
  Proof. intros x v [gs fs [own|]]; reflexivity. Qed.
  Lemma give_alike : forall x v pl pl', alike pl pl' -> alike (give x v pl) (give x v pl').
  Proof.
    intros x v pl pl' [E A N F]. split; rewrite ?give_functions; [exact E|exact A|exact (near_give x v pl pl' N)|].
    intros y Y. rewrite !find_give, (F y Y). reflexivity.
  Qed.
  Lemma define_alike : forall s f pl pl', only_def f -> alike pl pl' -> alike (define s f pl) (define s f pl').
  Proof.
    intros s f pl pl' D [E A N F]. split.
    - cbn [define pl_functions]. rewrite E. reflexivity.
    - cbn [define pl_functions]. intros t g. cbn [find_function]. destruct (shape_eqb t s); [intros [= <-]; exact D|exact (A t g)].
    - exact (near_define s f pl pl' N).
    - exact F.
  Qed.

  Notation ms c := (mean_s rt (fl_oplib fl) c).
  Notation mb c := (mean_b rt (fl_oplib fl) c).
  Notation mbl c := (mean_block rt (fl_oplib fl) c).

  Lemma block_same : forall l, Forall (fun s => uses_s s -> forall pl pl', alike pl pl' -> simM end_alike (ms callm s pl) (ms callm' s pl')) l ->
    uses_l l -> forall pl pl', alike pl pl' -> simM end_alike (mbl callm l pl) (mbl callm' l pl').
  Proof.
    intros l F. induction F as [|s l Hs F IH]; intros U pl pl' A; [now apply sim_ret|].
    destruct U as [U1 U2]. cbn [flat_map] in U1, U2. apply Forall_app in U1, U2. destruct U1 as [U1 U3], U2 as [U2 U4].
    cbn [mean_block]. eapply sim_bnd; [exact (Hs (conj U1 U2) pl pl' A)|].
    intros [a|a] [b|b] R; try contradiction; [exact (IH (conj U3 U4) a b R)|now apply sim_ret].
  Qed.

  Definition some_alike (a b : option (@ending V)) : Prop :=
    match a, b with Some a, Some b => end_alike a b | None, None => True | _, _ => False end.

  Theorem stmt_same :
    (forall s, uses_s s -> forall pl pl', alike pl pl' -> simM end_alike (ms callm s pl) (ms callm' s pl')) /\
    (forall b, uses_b b -> forall pl pl', alike pl pl' -> simM some_alike (mb callm b pl) (mb callm' b pl')).
  Proof.
    pose proof (proj1 expr_same) as SE.
    apply stmt_ind2.
    - intros e [U _] pl pl' A. cbn [mean_s]. eapply sim_bnd; [exact (SE e pl pl' A U)|]. intros a b ->.
      apply sim_bnd_same. intros _. now apply sim_ret.
    - intros e p ps [U _] pl pl' A.
      change (Forall X (vars_e e ++ flat_map part_vars (p :: ps))) in U. apply Forall_app in U. destruct U as [U1 U2].
      cbn [mean_s]. eapply sim_bnd; [exact (SE e pl pl' A U1)|]. intros a b ->.
      eapply sim_bnd; [exact (text_same (p :: ps) pl pl' A U2)|]. intros t u ->. apply sim_bnd_same. intros _. now apply sim_ret.
    - intros h hs body IH [U1 U2] pl pl' A.
      change (ms callm (SFunction h hs body) pl) with
        (ks <== @lift W _ (kinds_of (params (h :: hs))) ;;
         ret (Onward (define (header_shape (h :: hs)) (mkDef (params (h :: hs)) body) pl))).
      change (ms callm' (SFunction h hs body) pl') with
        (ks <== @lift W _ (kinds_of (params (h :: hs))) ;;
         ret (Onward (define (header_shape (h :: hs)) (mkDef (params (h :: hs)) body) pl'))).
      apply sim_bnd_same. intros ks. apply sim_ret. apply define_alike; [|exact A].
      change (Forall P ((params (h :: hs), body) :: flat_map functions_s body)) in U2.
      split; [exact (Forall_inv U2)|exact (Forall_inv_tail U2)].
    - intros x e body IH [U1 U2] pl pl' A.
      change (Forall X (x :: vars_e e ++ flat_map vars_s body)) in U1.
      change (Forall P (flat_map functions_s body)) in U2.
      apply Forall_inv_tail in U1. apply Forall_app in U1. destruct U1 as [U1 U3].
      rewrite !mean_for. eapply sim_bnd; [exact (SE e pl pl' A U1)|]. intros a b ->.
      apply sim_bnd_same. intros l. revert pl pl' A. induction l as [|v l IHl]; intros pl pl' A; [now apply sim_ret|].
      cbn [mean_loop]. eapply sim_bnd; [exact (block_same body IH (conj U3 U2) _ _ (give_alike x v pl pl' A))|].
      intros [p|p] [q|q] R; try contradiction; [exact (IHl p q R)|now apply sim_ret].
    - intros e [U _] pl pl' A. cbn [mean_s]. eapply sim_bnd; [exact (SE e pl pl' A U)|]. intros a b ->. now apply sim_ret.
    - intros p ps e [U _] pl pl' A.
      change (Forall X (vars_e e ++ flat_map part_vars (p :: ps))) in U. apply Forall_app in U. destruct U as [U1 U2].
      cbn [mean_s]. eapply sim_bnd; [exact (text_same (p :: ps) pl pl' A U2)|]. intros t u ->.
      eapply sim_bnd; [exact (SE e pl pl' A U1)|]. intros a b ->. apply sim_bnd_same. intros _. now apply sim_ret.
    - intros x e [U _] pl pl' A. cbn [mean_s]. eapply sim_bnd; [exact (SE e pl pl' A (Forall_inv_tail U))|]. intros a b ->.
      apply sim_ret. exact (give_alike x b pl pl' A).
    - intros b bs els Hb Hbs Hels [U1 U2] pl pl' A. rewrite !mean_if.
      change (Forall X (vars_b b ++ flat_map vars_b bs ++ match els with None => [] | Some body => flat_map vars_s body end)) in U1.
      change (Forall P (functions_b b ++ flat_map functions_b bs
              ++ match els with None => [] | Some body => flat_map functions_s body end)) in U2.
      apply Forall_app in U1, U2. destruct U1 as [U1 U3], U2 as [U2 U4]. apply Forall_app in U3, U4.
      destruct U3 as [U3 U5], U4 as [U4 U6].
      assert (O : simM end_alike (otherwise rt fl callm els bs pl) (otherwise rt fl callm' els bs pl')).
      { clear - Hbs Hels U3 U4 U5 U6 A. induction Hbs as [|b bs Hb Hbs IH]; cbn [otherwise].
        - destruct els as [body|]; [exact (block_same body Hels (conj U5 U6) pl pl' A)|now apply sim_ret].
        - cbn [flat_map] in U3, U4. apply Forall_app in U3, U4. destruct U3 as [U1 U3], U4 as [U2 U4].
          eapply sim_bnd; [exact (Hb (conj U1 U2) pl pl' A)|].
          intros [x|] [y|] R; try contradiction; [now apply sim_ret|exact (IH U3 U4)]. }
      cbn [otherwise]. eapply sim_bnd; [exact (Hb (conj U1 U2) pl pl' A)|].
      intros [x|] [y|] R; try contradiction; [now apply sim_ret|exact O].
    - intros c body IH [U1 U2] pl pl' A.
      change (Forall X (vars_e c ++ flat_map vars_s body)) in U1. apply Forall_app in U1. destruct U1 as [U1 U3].
      rewrite !mean_branch. eapply sim_bnd; [exact (SE c pl pl' A U1)|]. intros a b ->.
      apply sim_bnd_same. intros [|]; [|now apply sim_ret].
      eapply sim_bnd; [exact (block_same body IH (conj U3 U2) pl pl' A)|]. intros p q R. now apply sim_ret.
  Qed.
End same.

(** ** Calls, and programs *)

Section programs.
  Context {V W : Type} (rt : runtime V W).
  Variable oplib : bool.
  Let fl : flags := mkFlags false oplib false true.

  Lemma given_found : forall ps (l : list V) own x, give_all ps l = Some own -> In x (map fst ps) ->
    exists v, variable_in x own = Some v.
  Proof.
    induction ps as [|[y ty] ps IH]; intros [|v l] own x E I; cbn [give_all] in E; try discriminate; [destruct I|].
    destruct (give_all ps l) as [own'|] eqn:E'; [|discriminate]. injection E as <-. cbn [fst variable_in].
    destruct (String.eqb_spec x y) as [->|N]; [eexists; reflexivity|].
    apply (IH l own' x E'). destruct I as [I|I]; [cbn in I; congruence|exact I].
  Qed.

  Let P (f : list (string * option ptype) * list stmt) : Prop := alone f = true.
  Let near (_ _ : @place V) : Prop := True.

  Theorem calls_same : forall fuel (pl pl' : @place V) fs f l, near pl pl' -> only_all P fs -> only_def P f ->
    forall w, call_defined rt oplib fuel (pl_globals pl) fs f l w = call_over rt oplib fuel (pl_globals pl') fs f l w.
  Proof.
    induction fuel as [|n IH]; intros pl pl' fs f l _ A D w; [reflexivity|]. cbn [call_defined call_over].
    unfold bnd, lift. destruct (kinds_of (d_params f)) as [ks|e]; [|reflexivity].
    apply rt_call_ext. clear l w. intros l w. unfold mean_body, body_over.
    destruct (give_all (d_params f) l) as [own|] eqn:E; [|reflexivity].
    revert w. apply sim_eq.
    destruct D as [D1 D2]. unfold P, alone in D1. cbn [fst snd] in D1.
    assert (U : uses_l P (fun x => In x (map fst (d_params f))) (d_body f)).
    { split; [|exact D2]. apply Forall_forall. intros x I. rewrite forallb_forall in D1. specialize (D1 x I). now apply mem_in. }
    eapply sim_bnd.
    - refine (block_same rt fl P (call_defined rt oplib n) (call_over rt oplib n) near (fun x => In x (map fst (d_params f))) (d_body f) _ U
        (mkPlace (pl_globals pl) fs (Some own)) (mkPlace (own ++ pl_globals pl') fs None) _).
      + apply Forall_forall. intros s _.
        exact (proj1 (stmt_same rt fl P (call_defined rt oplib n) (call_over rt oplib n) near (fun _ _ _ _ H => H) (fun _ _ _ _ H => H)
          IH (fun x => In x (map fst (d_params f)))) s).
      + split; [reflexivity|exact A|exact Logic.I|]. intros x I. unfold find_variable. cbn [pl_own pl_globals].
        destruct (given_found _ _ _ x E I) as [v Ev]. rewrite variable_app, Ev. reflexivity.
    - intros [p|p] [q|q] R; try contradiction; [now apply sim_ret|]. cbn in R. subst. now apply sim_ret.
  Qed.

  Theorem programs_same : forall lib fuel p w, forallb alone (flat_map functions_s p) = true ->
    mean_over rt oplib lib fuel p w = mean_program rt oplib lib fuel p w.
  Proof.
    intros lib fuel p w H. symmetry. revert w. apply sim_eq. unfold mean_program, mean_over.
    eapply sim_bnd; [|intros a b _; apply sim_refl].
    refine (block_same rt fl P (call_defined rt oplib fuel) (call_over rt oplib fuel) near (fun _ => True) p _ _ _ _ _).
    - apply Forall_forall. intros s _.
      exact (proj1 (stmt_same rt fl P (call_defined rt oplib fuel) (call_over rt oplib fuel) near (fun _ _ _ _ H => H) (fun _ _ _ _ H => H)
        (calls_same fuel) (fun _ => True)) s).
    - split; [apply Forall_forall; intros; exact Logic.I|]. apply Forall_forall. intros f I. rewrite forallb_forall in H. exact (H f I).
    - split; [reflexivity| |exact Logic.I|reflexivity]. intros s f E. exfalso. cbn [pl_functions] in E.
      destruct lib; [exact (library_only s f E)|discriminate].
  Qed.
End programs.
