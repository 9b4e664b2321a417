(** Running a program generated with the variables in a dictionary, and the meaning of the
    dice program, compared: expressions. *)
From Coq Require Import String Ascii List ZArith Bool Arith Lia.
From Verif Require Import PyBase LexModel LexSpec ParseModel SynSpec SynInd ParseSound NameSpec ResolveModel ResolveGen
  HeaderFacts CompileFacts PySpec PyTrans Runtime PySem ExecModel MeanSpec RunSpec ScopeSpec SemFacts SemStmt.
Import ListNotations.
Open Scope string_scope.
Open Scope list_scope.
Open Scope run_scope.

(** ** Names *)

Lemma upper_not_vars : forall x, a_word upper_letter x -> x <> "vars".
Proof.
  intros x X ->. apply (var_no_lower _ X). exists "v"%char. split; [now left|cbn; tauto].
Qed.
Lemma upper_not_fun : forall fl x s, a_word upper_letter x -> shape_ok fl s -> x <> fun_name fl s.
Proof. intros fl x s X [Hs [Hp _]] ->. exact (var_no_lower _ X (fun_lower fl s Hs Hp)). Qed.
Lemma fun_not_vars : forall fl s, shape_ok fl s -> fun_name fl s <> "vars".
Proof.
  intros fl s [_ [_ H]] E. apply H. rewrite E. apply in_app_iff. right. apply mem_in. vm_compute. reflexivity.
Qed.

(** [vars['X']] in a formatted string. *)
Lemma close_upper : forall x, all_chars upper_letter x -> before_close (x ++ "']") = Some x.
Proof.
  induction x as [|c x IH]; intros H; [reflexivity|].
  change ((String c x ++ "']")%string) with (String c (x ++ "']")). cbn [before_close].
  destruct (String.eqb_spec (String c (x ++ "']")) "']") as [E|_].
  - exfalso. injection E as -> _. pose proof (Forall_inv H) as Hc. unfold upper_letter in Hc. cbn in Hc.
    decompose [or] Hc; try discriminate; assumption.
  - rewrite (IH (Forall_inv_tail H)). reflexivity.
Qed.
Lemma subscript_var : forall x, all_chars upper_letter x -> subscript_text ("vars['" ++ x ++ "']") = Some ("vars", x).
Proof.
  intros x H. change (subscript_text ("vars['" ++ x ++ "']")) with (option_map (pair "vars") (before_close (x ++ "']"))).
  rewrite (close_upper x H). reflexivity.
Qed.

Section compare.
  Context {V W : Type} (rt : runtime V W).
  Variable fl : flags.
  Hypothesis in_vars : fl_vars fl = true.
  Hypothesis more : lenient rt.

  (** A function that is called: not the one that takes no further argument. *)
  Definition call_ok (s : shape) : Prop := shape_ok fl s /\ (fl_prefix fl = true \/ s <> div_shape).
  Definition part_ok (a : atom) : Prop :=
    match a with ANum s => digits s | AVar x => a_word upper_letter x | AShape s => call_ok s end.

  (** ** Functions *)

  Definition names_of (f : fdef) : list (string * option ptype) := own_names 0 [] (d_params f).
  Definition over_py (f : fdef) : pyfun :=
    let body := enter fl (names_of f) ++ body_or_pass (map (py_s fl) (d_body f)) in
    let ps := map fst (names_of f) ++ ["vars"] in
    mkPyFun ((match kinds_of (d_params f) with Ok ks => ks | Err _ => [] end) ++ [None]) ps
            (ps ++ flat_map bound_names body) body.
  Definition callee_over (c : callee) : @pyval V :=
    match c with Defined f => PyFun (over_py f) | Library l => PyLib (GLib l) end.

  (** ** Places that correspond *)

  Variable def_ok : fdef -> Prop.

  Record known (g : @env V) (fs : functions) : Prop := mkKnown {
    kn_fun : forall s, shape_ok fl s -> assoc (fun_name fl s) g
                       = match find_function s fs with Ok c => Some (callee_over c) | Err _ => None end;
    kn_err : forall s e, find_function s fs = Err e -> e = NameErr;
    kn_help : forall x, In x helpers -> assoc x g = @helper V x;
    kn_lib : forall s l, find_function s fs = Ok (Library l) ->
                         fl_prefix fl = false /\ slots s = lib_arity l /\ (l = LDiv -> s = div_shape);
    kn_def : forall s f, find_function s fs = Ok (Defined f) -> def_ok f /\ slots s = List.length (d_params f) }.

  Definition same (d : list (string * V)) (vs : @variables V) : Prop :=
    forall x, a_word upper_letter x -> assoc x d = variable_in x vs.

  (** The dictionary of variables. *)
  Definition holds (own : @env V) (vs : @variables V) : Prop :=
    exists d, assoc "vars" own = Some (PyDict true d) /\ same d vs.

  Record inner (names : list string) : Prop := mkInner {
    in_dict : In "vars" names;
    in_fun : forall s, shape_ok fl s -> ~ In (fun_name fl s) names;
    in_help : forall x, In x helpers -> ~ In x names }.

  Definition over_sc (sc : @scope V) (pl : @place V) : Prop :=
    pl_own pl = None /\ known (globals_of sc) (pl_functions pl) /\
    match sc with
    | InModule g => holds g (pl_globals pl)
    | InFunction _ names own => inner names /\ holds own (pl_globals pl)
    end.

  Lemma find_dict : forall sc pl, over_sc sc pl ->
    exists d, find "vars" sc = Ok (PyDict true d) /\ same d (pl_globals pl).
  Proof.
    intros sc pl [_ [_ A]]. destruct sc as [g|g names own].
    - destruct A as [d [E S]]. exists d. split; [|exact S]. cbn [find]. unfold find_global. now rewrite E.
    - destruct A as [I [d [E S]]]. exists d. split; [|exact S]. cbn [find].
      rewrite (proj2 (mem_in "vars" names) (in_dict _ I)), E. reflexivity.
  Qed.

  Lemma over_fun : forall sc pl s, over_sc sc pl -> shape_ok fl s ->
    match find (fun_name fl s) sc, find_function s (pl_functions pl) with
    | Ok v, Ok c => v = callee_over c
    | Err e, Err e' => e = e'
    | _, _ => False
    end.
  Proof.
    intros sc pl s [_ [K A]] H.
    assert (G : match find_global (fun_name fl s) (globals_of sc), find_function s (pl_functions pl) with
      | Ok v, Ok c => v = callee_over c
      | Err e, Err e' => e = e'
      | _, _ => False
      end).
    { unfold find_global. rewrite (kn_fun _ _ K s H).
      destruct (find_function s (pl_functions pl)) as [c|e] eqn:E; [reflexivity|].
      rewrite (kn_err _ _ K s e E).
      destruct (builtin (fun_name fl s)) eqn:B; [|reflexivity]. exfalso. apply (proj2 (proj2 H)).
      apply in_app_iff. right. apply in_app_iff. right. unfold builtin in B.
      destruct (String.eqb_spec (fun_name fl s) "len") as [->|N]; [apply mem_in; reflexivity|].
      destruct (existsb (String.eqb (fun_name fl s)) builtin_names) eqn:X; [|discriminate]. now apply mem_in. }
    destruct sc as [g|g names own]; [exact G|].
    cbn [find]. destruct (existsb (String.eqb (fun_name fl s)) names) eqn:E; [|exact G].
    exfalso. apply mem_in in E. exact (in_fun _ (proj1 A) s H E).
  Qed.

  Lemma over_help : forall sc pl h b, over_sc sc pl -> In h helpers -> builtin_of h b -> find h sc = Ok (PyLib b).
  Proof.
    intros sc pl h b [_ [K A]] H B.
    assert (G : find_global h (globals_of sc) = Ok (PyLib b)).
    { unfold find_global. rewrite (kn_help _ _ K h H). unfold helper.
      destruct B as [E|[E E']]; rewrite E; [reflexivity|]. cbn [option_map]. now rewrite E'. }
    destruct sc as [g|g names own]; [exact G|].
    cbn [find]. destruct (existsb (String.eqb h) names) eqn:E; [|exact G].
    exfalso. apply mem_in in E. exact (in_help _ (proj1 A) h H E).
  Qed.

  (** ** Expressions *)

  Variable callp : @env V -> pyfun -> list V -> option (list (string * V)) -> M W V.
  Variable callm : @variables V -> functions -> fdef -> list V -> M W V.
  Hypothesis calls : forall g d vs fs f l, known g fs -> same d vs -> def_ok f -> List.length l = List.length (d_params f) ->
    forall w, callp g (over_py f) l (Some d) w = callm vs fs f l w.

  Notation ev := (eval rt callp).
  Notation me := (mean_e rt (fl_oplib fl) callm).
  Notation mt := (mean_t rt (fl_oplib fl) callm).
  Notation ml := (mean_l rt (fl_oplib fl) callm).
  Notation mc := (mean_c rt (fl_oplib fl) callm).
  Notation is_obj := (@is_obj V).
  Notation arg := (@arg V).

  Lemma over_call1 : forall h b sc pl e m, over_sc sc pl -> In h helpers -> builtin_of h b ->
    simM is_obj (ev sc e) m -> forall (f : V -> M W V),
    (forall v, call_lib rt b [v] [] = (r <== f v ;; ret (PyObj r))) ->
    simM is_obj (ev sc (PyTrans.call h [e])) (v <== m ;; f v).
  Proof.
    intros h b sc pl e m A H B S f K. unfold PyTrans.call. rewrite eval_call. cbn [eval map arg_list].
    rewrite (over_help sc pl h b A H B). apply sim_ret_l. apply sim_bnd_assoc.
    eapply sim_bnd; [exact S|]. intros v o ->.
    eapply sim_eq_l; [intros w; exact (apply_lib rt callp sc b [o] w)|]. rewrite K. apply sim_result.
  Qed.
  Lemma over_call2 : forall h b sc pl e e' m m', over_sc sc pl -> In h helpers -> builtin_of h b ->
    simM is_obj (ev sc e) m -> simM is_obj (ev sc e') m' -> forall (f : V -> V -> M W V),
    (forall v u, call_lib rt b [v; u] [] = (r <== f v u ;; ret (PyObj r))) ->
    simM is_obj (ev sc (PyTrans.call h [e; e'])) (v <== m ;; u <== m' ;; f v u).
  Proof.
    intros h b sc pl e e' m m' A H B S S' f K. unfold PyTrans.call. rewrite eval_call. cbn [eval map arg_list].
    rewrite (over_help sc pl h b A H B). apply sim_ret_l. apply sim_bnd_assoc.
    eapply sim_bnd; [exact S|]. intros v o ->. apply sim_bnd_assoc. apply sim_bnd_assoc.
    eapply sim_bnd; [exact S'|]. intros v o' ->.
    eapply sim_eq_l; [intros w; exact (apply_lib rt callp sc b [o; o'] w)|]. rewrite K. apply sim_result.
  Qed.

  (** A variable. *)
  Lemma over_entry : forall d pl x, same d (pl_globals pl) -> pl_own pl = None -> a_word upper_letter x ->
    simM is_obj (@entry V W (PyDict true d) x) (lift (find_variable x pl)).
  Proof.
    intros d pl x S N X w. unfold entry, find_variable. rewrite N, (S x X).
    destruct (variable_in x (pl_globals pl)); (split; [reflexivity|reflexivity]).
  Qed.
  Lemma over_var : forall sc pl x, over_sc sc pl -> a_word upper_letter x ->
    simM is_obj (ev sc (vars_at x)) (lift (find_variable x pl)).
  Proof.
    intros sc pl x A X. destruct (find_dict sc pl A) as [d [E S]]. unfold vars_at. cbn [eval]. rewrite E.
    apply sim_ret_l. exact (over_entry d pl x S (proj1 A) X).
  Qed.

  Lemma over_text : forall sc pl ps, over_sc sc pl -> Forall part_ok (flat_map part_atoms ps) ->
    simM eq (format_pieces rt sc (flat_map (part_pieces fl) ps)) (text rt pl ps).
  Proof.
    intros sc pl ps A. induction ps as [|p ps IH]; intros F; [now apply sim_ret|].
    cbn [flat_map] in F |- *. apply Forall_app in F. destruct F as [F1 F2]. specialize (IH F2).
    assert (L : forall s, simM eq (format_pieces rt sc (text_pieces s ++ flat_map (part_pieces fl) ps))
                            (t <== text rt pl ps ;; ret (s ++ t)%string)).
    { intros s. unfold text_pieces. induction s as [|c s IHs].
      - cbn [list_ascii_of_string map app]. intros w. specialize (IH w). unfold bnd.
        destruct (format_pieces rt sc _ w) as [[[a|e] v]|], (text rt pl ps w) as [[[b|e'] v']|]; exact IH.
      - cbn [list_ascii_of_string map app format_pieces].
        intros w. specialize (IHs w). unfold bnd in *.
        destruct (format_pieces rt sc _ w) as [[[a|e] v]|], (text rt pl ps w) as [[[b|e'] v']|];
          cbn in IHs |- *; try exact IHs. destruct IHs as [-> ->]. split; reflexivity. }
    destruct p as [s|s|x]; cbn [part_pieces text]; [exact (L s)|exact (L s)|].
    rewrite in_vars. cbn [app format_pieces].
    pose proof (Forall_inv F1) as X. cbn [part_ok] in X. unfold field. rewrite (subscript_var x (proj2 X)).
    destruct (find_dict sc pl A) as [d [E S]]. rewrite E.
    eapply sim_bnd; [apply sim_ret_l; exact (over_entry d pl x S (proj1 A) X)|]. intros v o ->. cbn [value].
    apply sim_ret_l. apply sim_bnd_same. intros t.
    eapply sim_bnd; [exact IH|]. intros a b ->. now apply sim_ret.
  Qed.

  Lemma last_dict : forall vs b d, split_dict (map arg vs ++ [(None, PyDict b d)]) = (map arg vs, Some d).
  Proof.
    induction vs as [|v vs IH]; intros b d; [reflexivity|]. cbn [map app]. unfold SemFacts.arg at 1 3.
    change (split_dict ((None, PyObj v) :: map arg vs ++ [(None, PyDict b d)]))
      with (let '(l2, d') := split_dict (map arg vs ++ [(None, PyDict b d)]) in ((@None string, @PyObj V v) :: l2, d')).
    rewrite IH. reflexivity.
  Qed.
  Lemma apply_over : forall sc f vs b d w,
    apply rt callp sc (PyFun f) (map arg vs ++ [(None, PyDict b d)]) w
    = (r <== callp (globals_of sc) f vs (Some d) ;; ret (PyObj r)) w.
  Proof.
    intros sc f vs b d w. unfold apply. rewrite last_dict. unfold bnd at 1. unfold SemFacts.arg. rewrite args_pos. reflexivity.
  Qed.

  Lemma apply_more : forall sc f vs b d w,
    apply rt callp sc (PyLib (GLib f)) (map arg vs ++ [(None, PyDict b d)]) w
    = (r <== rt_lib rt f (vs ++ [rt_none rt]) ;; ret (PyObj r)) w.
  Proof.
    intros sc f vs b d w. unfold apply. rewrite last_dict. unfold bnd at 1. unfold SemFacts.arg. rewrite args_pos. reflexivity.
  Qed.

  Theorem over_syntax :
    (forall e, forall sc pl, over_sc sc pl -> Forall part_ok (atoms_e e) -> simM is_obj (ev sc (py_e fl e)) (me pl e)) /\
    (forall t, forall sc pl, over_sc sc pl -> Forall part_ok (atoms_t t) -> simM is_obj (ev sc (py_t fl t)) (mt pl t)) /\
    (forall x, forall sc pl, over_sc sc pl -> Forall part_ok (atoms_l x) -> simM is_obj (ev sc (py_l fl x)) (ml pl x)) /\
    (forall c, forall sc pl, over_sc sc pl -> Forall part_ok (atoms_c c) ->
       simM (fun l vs => l = map (fun v => (None, PyObj v)) vs /\ List.length vs = slots (call_shape [c])) (arg_list rt callp sc (map (fun e => (None, e)) (py_c fl c))) (mc pl c)).
  Proof.
    apply syn_ind.
    - (* EBin *) intros o l r IHl IHr sc pl A F. cbn [atoms_e] in F. apply Forall_app in F. destruct F as [Fl Fr].
      specialize (IHl sc pl A Fl). specialize (IHr sc pl A Fr). cbn [py_e mean_e]. unfold py_bin, op_function.
      assert (INF : simM is_obj (ev sc (if is_comparison o then PCompare (py_e fl l) [(py_operator o, py_e fl r)]
                                        else PBinary (py_operator o) (py_e fl l) (py_e fl r)))
                      (a <== me pl l ;; b <== me pl r ;; rt_op rt o a b)).
      { destruct (is_comparison o) eqn:C; cbn [eval].
        - eapply sim_bnd; [exact IHl|]. intros v x ->. eapply sim_bnd; [exact IHr|]. intros v y ->.
          eapply sim_last; [apply (sim_op rt (comparison_operator (py_operator o)) o); [destruct o; (reflexivity || discriminate)|reflexivity|reflexivity]|].
          intros a b ->. now apply sim_ret.
        - eapply sim_bnd; [exact IHl|]. intros v x ->. eapply sim_bnd; [exact IHr|]. intros v y ->.
          apply sim_op; [destruct o; (reflexivity || discriminate)|reflexivity|reflexivity]. }
      unfold binary. destruct (fl_oplib fl); [|exact INF].
      destruct o; try exact INF;
        (eapply over_call2; [exact A|cbn; tauto|left; reflexivity|exact IHl|exact IHr|reflexivity]).
    - (* EDice *) intros n d IHn IHd sc pl A F. cbn [atoms_e] in F. apply Forall_app in F. destruct F as [Fn Fd].
      cbn [py_e mean_e]. eapply (over_call2 "roll"); [exact A|cbn; tauto|left; reflexivity|exact (IHn sc pl A Fn)|exact (IHd sc pl A Fd)|reflexivity].
    - (* EDie *) intros d IHd sc pl A F. cbn [py_e mean_e].
      eapply (over_call1 "roll"); [exact A|cbn; tauto|left; reflexivity|exact (IHd sc pl A F)|reflexivity].
    - (* ETerm *) intros t IH sc pl A F. exact (IH sc pl A F).
    - (* TNum *) intros s sc pl A F. cbn [py_t mean_t eval]. unfold number. rewrite (point_none s (Forall_inv F)).
      now apply sim_ret.
    - (* TDec *) intros a b sc pl A F. cbn [py_t mean_t eval]. unfold number.
      rewrite (point_some a b (Forall_inv F)).
      eapply sim_last; [apply sim_refl|]. intros v ? <-. now apply sim_ret.
    - (* TVar *) intros x sc pl A F. cbn [py_t mean_t]. unfold variable. rewrite in_vars.
      exact (over_var sc pl x A (Forall_inv F)).
    - (* TStr *) intros p ps sc pl A F. cbn [py_t mean_t]. unfold py_str. cbn [eval].
      eapply sim_bnd; [exact (over_text sc pl (p :: ps) A F)|]. intros s ? <-. now apply sim_ret.
    - (* TSeq *) intros es IH sc pl A F. change (py_t fl (TSeq es)) with (PyTrans.call "get_seq" [PList (map (py_l fl) es)]).
      change (mt pl (TSeq es)) with (l <== element_list rt fl callm pl es ;; rt_seq rt (rt_list rt l)).
      assert (L : simM (fun l vs => l = map PyObj vs) (item_list rt callp sc (map (py_l fl) es)) (element_list rt fl callm pl es)).
      { cbn [atoms_t] in F. induction IH as [|x es Hx IH IHs]; [now apply sim_ret|]. cbn [flat_map] in F.
        apply Forall_app in F. destruct F as [F1 F2]. cbn [map item_list element_list].
        eapply sim_bnd; [exact (Hx sc pl A F1)|]. intros v o ->. eapply sim_bnd; [exact (IHs F2)|].
        intros l vs ->. now apply sim_ret. }
      assert (S : simM is_obj (ev sc (PList (map (py_l fl) es))) (l <== element_list rt fl callm pl es ;; ret (rt_list rt l))).
      { change (ev sc (PList (map (py_l fl) es)))
          with (l <== item_list rt callp sc (map (py_l fl) es) ;; vs <== values l ;; ret (PyObj (rt_list rt vs))).
        eapply sim_bnd; [exact L|]. intros l vs ->. intros w. unfold bnd. rewrite values_objs. split; reflexivity. }
      pose proof (over_call1 "get_seq" GSeq sc pl _ _ A ltac:(cbn; tauto) ltac:(left; reflexivity) S (rt_seq rt) ltac:(reflexivity)) as R.
      eapply sim_eq_r; [|exact R]. intros w. unfold bnd.
      destruct (element_list rt fl callm pl es w) as [[[a|e] v]|]; reflexivity.
    - (* TGroup *) intros e IH sc pl A F. exact (IH sc pl A F).
    - (* TCall *) intros cs IH sc pl A F. cbn [atoms_t] in F. pose proof (Forall_inv F) as Hs. apply Forall_inv_tail in F.
      cbn [part_ok] in Hs. destruct Hs as [Hs Hl].
      change (py_t fl (TCall cs)) with (PyTrans.call (fun_name fl (call_shape cs))
        (flat_map (py_c fl) cs ++ if fl_vars fl then [PySpec.PName "vars"] else [])).
      rewrite in_vars. unfold PyTrans.call. rewrite eval_call.
      change (mt pl (TCall cs)) with
        (f <== lift (find_function (call_shape cs) (pl_functions pl)) ;; l <== argument_list rt fl callm pl cs ;;
         match f with Defined d => callm (pl_globals pl) (pl_functions pl) d l | Library g => rt_lib rt g l end).
      destruct (find_dict sc pl A) as [dict [Ed Sd]].
      assert (L : simM (fun l vs => l = map arg vs ++ [(None, PyDict true dict)] /\ List.length vs = slots (call_shape cs))
                    (arg_list rt callp sc (map (fun e => (None, e)) (flat_map (py_c fl) cs ++ [PySpec.PName "vars"])))
                    (argument_list rt fl callm pl cs)).
      { clear Hs Hl. induction IH as [|c cs Hc IH IHs].
        - cbn [flat_map app map arg_list eval]. rewrite Ed. now apply sim_ret.
        - cbn [flat_map] in F |- *.
          apply Forall_app in F. destruct F as [F1 F2]. cbn [argument_list]. specialize (Hc sc pl A F1). specialize (IHs F2).
          rewrite <- app_assoc, map_app. eapply sim_eq_l; [intros w; apply arg_list_app|].
          eapply sim_bnd; [exact Hc|]. intros a va [-> La]. eapply sim_bnd; [exact IHs|]. intros b vb [-> Lb].
          apply sim_ret. rewrite map_app, <- app_assoc, app_length, La, Lb. split; [reflexivity|]. destruct c; reflexivity. }
      cbn [eval].
      pose proof (over_fun sc pl _ A Hs) as X. pose proof (proj1 (proj2 A)) as K.
      destruct (find (fun_name fl (call_shape cs)) sc) as [v|e], (find_function (call_shape cs) (pl_functions pl)) as [c|e'] eqn:E;
        try contradiction.
      2:{ intros w. split; [exact X|reflexivity]. }
      apply sim_ret_l. eapply sim_eq_r; [intros w; unfold bnd at 1, lift; reflexivity|].
      eapply sim_bnd; [exact L|]. intros l vs [-> Lv]. subst v. destruct c as [f|g]; cbn [callee_over].
      + eapply sim_eq_l; [intros w; exact (apply_over sc (over_py f) vs true dict w)|].
        destruct (kn_def _ _ K _ f E) as [Df Lf]. rewrite Lf in Lv.
        eapply sim_last; [apply eq_sim; intros w; exact (calls _ dict _ _ f vs K Sd Df Lv w)|].
        intros a b ->. now apply sim_ret.
      + destruct (kn_lib _ _ K _ g E) as [P [Lg Dg]]. rewrite Lg in Lv.
        assert (N : g <> LDiv) by (intros Eg; destruct Hl as [Hl|Hl]; [congruence|exact (Hl (Dg Eg))]).
        eapply sim_eq_l; [intros w; exact (apply_more sc g vs true dict w)|].
        eapply sim_last; [apply eq_sim; intros w; exact (more g vs w N Lv)|]. intros a b ->. now apply sim_ret.
    - (* TUn *) intros u t IH sc pl A F. specialize (IH sc pl A F). cbn [py_t mean_t].
      assert (INF : forall s, unary_operator s = Some u ->
        simM is_obj (ev sc (PUnary s (py_t fl t))) (a <== mt pl t ;; rt_un rt u a)).
      { intros s E. cbn [eval]. eapply sim_bnd; [exact IH|]. intros v o ->. rewrite E. apply sim_ret_l. apply sim_result. }
      unfold unary, py_un. destruct u.
      + destruct (fl_oplib fl); exact (INF "+" eq_refl).
      + destruct (fl_oplib fl); exact (INF "-" eq_refl).
      + destruct (fl_oplib fl); [|exact (INF "~" eq_refl)].
        eapply (over_call1 "myInvert"); [exact A|cbn; tauto|left; reflexivity|exact IH|reflexivity].
    - (* THash *) intros t IH sc pl A F. specialize (IH sc pl A F). cbn [py_t mean_t]. unfold count.
      destruct (fl_oplib fl).
      + eapply (over_call1 "myLen"); [exact A|cbn; tauto|left; reflexivity|exact IH|reflexivity].
      + eapply (over_call1 "len"); [exact A|cbn; tauto|right; split; reflexivity|exact IH|reflexivity].
    - (* LOne *) intros e IH sc pl A F. exact (IH sc pl A F).
    - (* LRange *) intros a b IHa IHb sc pl A F. cbn [atoms_l] in F. apply Forall_app in F. destruct F as [Fa Fb].
      cbn [py_l mean_l]. eapply (over_call2 "myrange"); [exact A|cbn; tauto|left; reflexivity|exact (IHa sc pl A Fa)|exact (IHb sc pl A Fb)|reflexivity].
    - (* CWord *) intros w sc pl A F. now apply sim_ret.
    - (* CArg *) intros e IH sc pl A F. cbn [py_c map arg_list mean_c].
      eapply sim_bnd; [exact (IH sc pl A F)|]. intros v o ->. now apply sim_ret.
  Qed.
End compare.
