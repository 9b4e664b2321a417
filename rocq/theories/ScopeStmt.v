(** Running a program generated with the variables in a dictionary, and the meaning of the
    dice program, compared: statements. *)
From Coq Require Import String Ascii List ZArith Bool Arith Lia.
From Verif Require Import PyBase LexModel LexSpec ParseModel SynSpec SynInd ParseSound NameSpec ResolveModel ResolveGen
  HeaderFacts CompileFacts PySpec PyTrans Runtime PySem ExecModel MeanSpec RunSpec ScopeSpec SemFacts SemStmt ScopeFacts.
Import ListNotations.
Open Scope string_scope.
Open Scope list_scope.
Open Scope run_scope.

Section compare.
  Context {V W : Type} (rt : runtime V W).
  Variable fl : flags.
  Hypothesis in_vars : fl_vars fl = true.
  Hypothesis more : lenient rt.
  Variable def_ok : fdef -> Prop.
  Variable callp : @env V -> pyfun -> list V -> option (list (string * V)) -> M W V.
  Variable callm : @variables V -> functions -> fdef -> list V -> M W V.
  Hypothesis calls : forall g d vs fs f l, known fl def_ok g fs -> same d vs -> def_ok f -> List.length l = List.length (d_params f) ->
    forall w, callp g (over_py fl f) l (Some d) w = callm vs fs f l w.

  Notation ev := (eval rt callp).
  Notation ex := (exec rt callp).
  Notation me := (mean_e rt (fl_oplib fl) callm).
  Notation ms := (mean_s rt (fl_oplib fl) callm).
  Notation mb := (mean_b rt (fl_oplib fl) callm).
  Notation mbl := (mean_block rt (fl_oplib fl) callm).

  Definition over_at (inside : option (list string)) (sc : @scope V) (pl : @place V) : Prop :=
    over_sc fl def_ok sc pl /\ scope_names sc = inside.

  (** A name that a loop binds. *)
  Definition bound_ok (inside : option (list string)) (x : string) : Prop :=
    var_ok x /\ match inside with None => True | Some names => In x names end.
  Notation expr_ok e := (Forall (part_ok fl) (atoms_e e)).
  Notation text_ok p ps := (Forall (part_ok fl) (flat_map part_atoms (p :: ps))).

  Fixpoint good_s (inside : option (list string)) (s : stmt) : Prop :=
    match s with
    | SOutput e | SResult e => expr_ok e
    | SNamed e p ps | SSet p ps e => expr_ok e /\ text_ok p ps
    | SAssign x e => a_word upper_letter x /\ expr_ok e
    | SFunction h hs body =>
        inside = None /\ shape_ok fl (header_shape (h :: hs)) /\ def_ok (mkDef (params (h :: hs)) body)
        /\ exists ks, kinds_of (params (h :: hs)) = Ok ks
    | SLoop x e body =>
        bound_ok inside x /\ expr_ok e /\ fold_right (fun s P => good_s inside s /\ P) True body
    | SIf b bs els =>
        good_b inside b /\ fold_right (fun b P => good_b inside b /\ P) True bs
        /\ match els with None => True | Some body => fold_right (fun s P => good_s inside s /\ P) True body end
    end
  with good_b (inside : option (list string)) (b : branch) : Prop :=
    match b with Branch c body => expr_ok c /\ fold_right (fun s P => good_s inside s /\ P) True body end.

  Definition good_l (inside : option (list string)) (l : list stmt) : Prop :=
    fold_right (fun s P => good_s inside s /\ P) True l.

  Definition ends (inside : option (list string)) (f : @flow V) (e : @ending V) : Prop :=
    match f, e with
    | Next sc, Onward pl => over_at inside sc pl
    | Return v, Result v' => v = v'
    | _, _ => False
    end.

  (** *** Places after a statement *)

  Lemma same_give : forall d vs x v, same d vs -> @same V ((x, v) :: d) ((x, v) :: vs).
  Proof.
    intros d vs x v S y Y. cbn [assoc variable_in]. destruct (String.eqb y x); [reflexivity|exact (S y Y)].
  Qed.

  (** A name other than [vars], a helper or a function gets a value. *)
  Lemma bind_other : forall inside sc pl x v, over_at inside sc pl -> var_ok x ->
    over_at inside (bind_name x v sc) pl.
  Proof.
    intros inside sc pl x v [[N [K A]] E] X.
    assert (D : "vars" <> x) by (intros <-; exact (upper_not_vars _ (proj1 X) eq_refl)).
    split; [|destruct sc; exact E]. split; [exact N|]. destruct sc as [g|g names own]; cbn [bind_name globals_of] in *.
    - split.
      + destruct K as [Kf Ke Kh Kl Kd]. constructor; try assumption.
        * intros s S. cbn [assoc]. destruct (String.eqb_spec (fun_name fl s) x) as [F|_]; [|exact (Kf s S)].
          exfalso. exact (upper_not_fun fl x s (proj1 X) S (eq_sym F)).
        * intros y Y. cbn [assoc]. destruct (String.eqb_spec y x) as [->|_]; [|exact (Kh y Y)].
          exfalso. exact (var_not_helper x X Y).
      + destruct A as [d [A S]]. exists d. split; [|exact S]. cbn [assoc].
        destruct (String.eqb_spec "vars" x); [contradiction|exact A].
    - split; [exact K|]. destruct A as [I [d [A S]]]. split; [exact I|]. exists d. split; [|exact S]. cbn [assoc].
      destruct (String.eqb_spec "vars" x); [contradiction|exact A].
  Qed.

  Lemma set_ok : forall inside sc pl x v, over_at inside sc pl ->
    exists sc', (forall w, @set_entry V W "vars" x v sc w = ret sc' w) /\ over_at inside sc' (give x v pl).
  Proof.
    intros inside sc pl x v [[N [K A]] E]. destruct pl as [gs fs own']. cbn [pl_own pl_globals pl_functions] in *. subst own'.
    destruct sc as [g|g names own]; cbn [set_entry].
    - destruct A as [d [A S]]. rewrite A. eexists. split; [reflexivity|]. split; [|exact E].
      split; [reflexivity|]. cbn [bind_name globals_of pl_globals pl_functions give pl_own]. split.
      + destruct K as [Kf Ke Kh Kl Kd]. constructor; try assumption.
        * intros s Hs. cbn [assoc]. destruct (String.eqb_spec (fun_name fl s) "vars") as [F|_]; [|exact (Kf s Hs)].
          exfalso. exact (fun_not_vars fl s Hs F).
        * intros y Y. cbn [assoc]. destruct (String.eqb_spec y "vars") as [->|_]; [|exact (Kh y Y)].
          exfalso. cbn in Y. decompose [or] Y; try discriminate; assumption.
      + exists ((x, v) :: d). split; [reflexivity|]. exact (same_give d gs x v S).
    - destruct A as [I [d [A S]]]. rewrite A. eexists. split; [reflexivity|]. split; [|exact E].
      split; [reflexivity|]. cbn [bind_name globals_of pl_globals pl_functions give pl_own]. split; [exact K|].
      split; [exact I|]. exists ((x, v) :: d). split; [reflexivity|]. exact (same_give d gs x v S).
  Qed.

  Lemma define_over : forall sc pl s f, over_at None sc pl -> shape_ok fl s -> def_ok f -> slots s = List.length (d_params f) ->
    over_at None (bind_name (fun_name fl s) (PyFun (over_py fl f)) sc) (define s f pl).
  Proof.
    intros sc pl s f [[N [K A]] E] S D Ls. destruct pl as [gs fs own']. unfold define. cbn [pl_own pl_globals pl_functions] in *.
    subst own'. destruct sc as [g|g names own]; [|discriminate].
    split; [|reflexivity]. split; [reflexivity|]. cbn [bind_name globals_of pl_globals pl_functions] in *.
    destruct K as [Kf Ke Kh Kl Kd]. split; [constructor|].
    - intros t T. cbn [assoc find_function]. destruct (String.eqb_spec (fun_name fl t) (fun_name fl s)) as [F|F].
      + apply (mangle_inj fl t s (proj1 T) (proj1 S)) in F. subst t.
        destruct (shape_eqb_spec s s) as [_|C]; [reflexivity|congruence].
      + destruct (shape_eqb_spec t s) as [->|_]; [congruence|exact (Kf t T)].
    - intros t e. cbn [find_function]. destruct (shape_eqb t s); [discriminate|exact (Ke t e)].
    - intros y Y. cbn [assoc]. destruct (String.eqb_spec y (fun_name fl s)) as [->|_]; [|exact (Kh y Y)].
      exfalso. exact (fun_not_helper fl s S Y).
    - intros t l. cbn [find_function]. destruct (shape_eqb t s); [discriminate|exact (Kl t l)].
    - intros t f'. cbn [find_function]. destruct (shape_eqb_spec t s) as [->|_]; [|exact (Kd t f')].
      intros [= <-]. split; [exact D|exact Ls].
    - destruct A as [d [A Sd]]. exists d. split; [|exact Sd]. cbn [assoc].
      destruct (String.eqb_spec "vars" (fun_name fl s)) as [F|_]; [|exact A].
      exfalso. exact (fun_not_vars fl s S (eq_sym F)).
  Qed.

  (** *** Blocks *)

  Lemma over_block : forall l inside,
    Forall (fun s => good_s inside s -> forall sc pl, over_at inside sc pl ->
      simM (ends inside) (ex (py_s fl s) sc) (ms s pl)) l -> good_l inside l ->
    forall sc pl, over_at inside sc pl ->
    simM (ends inside) (exec_block rt callp (body_or_pass (map (py_s fl) l)) sc) (mbl l pl).
  Proof.
    intros l inside F.
    assert (B : good_l inside l -> forall sc pl, over_at inside sc pl ->
      simM (ends inside) (exec_block rt callp (map (py_s fl) l) sc) (mbl l pl)).
    { induction F as [|s l Hs F IH]; intros G sc pl A; [now apply sim_ret|]. destruct G as [G1 G2].
      cbn [map exec_block mean_block]. eapply sim_bnd; [exact (Hs G1 sc pl A)|].
      intros [sc'|v] [pl'|v'] R; try contradiction; [exact (IH G2 sc' pl' R)|now apply sim_ret]. }
    intros G sc pl A. destruct l as [|s l]; [now apply sim_ret|exact (B G sc pl A)].
  Qed.

  Lemma over_value_of : forall inside e sc pl, over_at inside sc pl -> expr_ok e ->
    simM eq (eval_value rt callp sc (py_e fl e)) (me pl e).
  Proof.
    intros inside e sc pl [A _] E. unfold eval_value.
    eapply sim_last; [exact (proj1 (over_syntax rt fl in_vars more def_ok callp callm calls) e sc pl A E)|].
    intros v o ->. now apply sim_ret.
  Qed.

  (** *** Kinds of parameters *)

  Lemma over_kind : forall ty k (sc : @scope V) pl, over_sc fl def_ok sc pl -> kind_of ty = Ok k ->
    find (annotation ty) sc = Ok (PyLib (GKind k)).
  Proof.
    intros ty k sc pl A E.
    assert (H : annotation ty = match k with KN => "T_N" | KS => "T_S" | KD => "T_D" end).
    { destruct ty as [|s]; cbn in E |- *; [injection E as <-; reflexivity|].
      repeat match type of E with
      | match ?s with _ => _ end = _ => destruct s; try discriminate
      | (if ?b then _ else _) = _ => destruct b; try discriminate
      end; injection E as <-; reflexivity. }
    rewrite H. destruct k; eapply over_help; try exact A; try (cbn; tauto); left; reflexivity.
  Qed.

  Lemma over_kinds : forall (sc : @scope V) pl ps qs ks, over_sc fl def_ok sc pl -> map snd qs = map snd ps ->
    kinds_of ps = Ok ks ->
    forall w, eval_kinds rt callp sc (map (fun p => (fst p, option_map (fun ty => PySpec.PName (annotation ty)) (snd p))) qs
                                      ++ [("vars", None)]) w
              = ret (ks ++ [None]) w.
  Proof.
    intros sc pl ps. induction ps as [|[x ty] ps IH]; intros qs ks A Q E w; destruct qs as [|[y ty'] qs]; try discriminate.
    - injection E as <-. reflexivity.
    - injection Q as -> Q. unfold kinds_of in E. cbn [mapM snd] in E. 
      cbn [map app fst snd eval_kinds]. destruct ty as [ty|]; cbn [option_map].
      + destruct (kind_of ty) as [k|e] eqn:K; [|discriminate]. cbn [rmap bind] in E.
        destruct (mapM _ ps) as [ks'|e] eqn:E'; [|discriminate]. injection E as <-.
        unfold bnd at 1 2. cbn [eval]. unfold bnd at 1, lift at 1. rewrite (over_kind ty k sc pl A K).
        unfold ret at 1. unfold bnd. rewrite (IH qs ks' A Q E' w). reflexivity.
      + cbn [bind] in E. destruct (mapM _ ps) as [ks'|e] eqn:E'; [|discriminate]. injection E as <-.
        unfold bnd at 1. unfold ret at 1. unfold bnd. rewrite (IH qs ks' A Q E' w). reflexivity.
  Qed.

  (** *** All statements *)

  Lemma exec_block_cons : forall s l sc w, exec_block rt callp (s :: l) sc w
    = (r <== ex s sc ;; match r with Next sc' => exec_block rt callp l sc' | Return v => ret (Return v) end) w.
  Proof. reflexivity. Qed.

  (** [vars['X'] = e] *)
  Lemma exec_set : forall inside sc pl x e (m : M W V), over_at inside sc pl ->
    simM (@is_obj V) (ev sc e) m ->
    simM (ends inside) (ex (PAssign (vars_at x) e) sc) (v <== m ;; ret (Onward (give x v pl))).
  Proof.
    intros inside sc pl x e m A S. unfold vars_at. cbn [exec]. unfold eval_value. apply sim_bnd_assoc.
    eapply sim_bnd; [exact S|]. intros v o E. red in E. subst v. cbn [value]. apply sim_ret_l.
    destruct (set_ok inside sc pl x o A) as [sc' [E A']].
    apply sim_eq_l with (n := ret (Next sc')); [intros w; unfold bnd; rewrite E; reflexivity|]. now apply sim_ret.
  Qed.

  Theorem over_stmt :
    (forall s, forall inside, good_s inside s -> forall sc pl, over_at inside sc pl ->
       simM (ends inside) (ex (py_s fl s) sc) (ms s pl)) /\
    (forall b, forall inside, good_b inside b -> forall els eb sc pl, over_at inside sc pl ->
       simM (ends inside) (match els with Some l => exec_block rt callp l sc | None => ret (Next sc) end) eb ->
       simM (ends inside) (ex (let '(c, body) := py_b fl b in PIf c body els) sc)
         (r <== mb b pl ;; match r with Some end_ => ret end_ | None => eb end)).
  Proof.
    pose proof (proj1 (over_syntax rt fl in_vars more def_ok callp callm calls)) as SE.
    apply stmt_ind2.
    - (* SOutput *) intros e inside F sc pl A. cbn [py_s mean_s exec].
      pose proof (over_call1 rt fl def_ok callp "output" GOutput sc pl _ _ (proj1 A) ltac:(cbn; tauto) ltac:(left; reflexivity)
        (SE e sc pl (proj1 A) F) (fun v => rt_output rt v None) ltac:(reflexivity)) as S.
      apply sim_eq_r with (n' := (r <== (v <== me pl e ;; rt_output rt v None) ;; ret (Onward pl))).
      { intros w. unfold bnd. destruct (me pl e w) as [[[a|err] v]|]; reflexivity. }
      eapply sim_bnd; [exact S|]. intros _ _ _. now apply sim_ret.
    - (* SNamed *) intros e p ps inside [Fe Ft] sc pl A.
      change (py_s fl (SNamed e p ps)) with
        (PExpr (PCall (PySpec.PName "output") [(None, py_e fl e); (Some "named", py_str fl (p :: ps))])).
      change (ms (SNamed e p ps) pl) with
        (v <== me pl e ;; t <== text rt pl (p :: ps) ;; r <== rt_output rt v (Some (rt_text rt t)) ;; ret (Onward pl)).
      cbn [exec]. rewrite eval_call. cbn [eval]. apply sim_bnd_assoc.
      rewrite (over_help fl def_ok sc pl "output" GOutput (proj1 A) ltac:(cbn; tauto) ltac:(left; reflexivity)).
      apply sim_ret_l. cbn [arg_list]. apply sim_bnd_assoc. apply sim_bnd_assoc.
      eapply sim_bnd; [exact (SE e sc pl (proj1 A) Fe)|]. intros v o ->.
      apply sim_bnd_assoc. apply sim_bnd_assoc. unfold py_str. cbn [eval]. apply sim_bnd_assoc.
      eapply sim_bnd; [exact (over_text rt fl in_vars def_ok sc pl (p :: ps) (proj1 A) Ft)|].
      intros t ? <-. apply sim_eq_l with (n := (r <== rt_output rt o (Some (rt_text rt t)) ;; ret (Next sc))).
      { intros w. unfold bnd, ret, apply. cbn [split_dict]. unfold bnd, named_args, bnd, value, ret. cbn [call_lib].
        unfold bnd, ret. destruct (rt_output rt o (Some (rt_text rt t)) w) as [[[a|err] w']|]; reflexivity. }
      apply sim_bnd_same. intros _. now apply sim_ret.
    - (* SFunction *) intros h hs body IH inside [-> [Hs [Hd [ks Hk]]]] sc pl A.
      change (ms (SFunction h hs body) pl) with
        (ks <== @lift W _ (kinds_of (params (h :: hs))) ;;
         ret (Onward (define (header_shape (h :: hs)) (mkDef (params (h :: hs)) body) pl))).
      change (py_s fl (SFunction h hs body)) with
        (PDef (PyTrans.call "anydice_casting" []) (fun_name fl (header_shape (h :: hs)))
           (py_params fl (own_names 0 [] (params (h :: hs))))
           (enter fl (own_names 0 [] (params (h :: hs))) ++ body_or_pass (map (py_s fl) body))).
      set (qs := own_names 0 [] (params (h :: hs))) in *. set (f := mkDef (params (h :: hs)) body) in *.
      unfold py_params. rewrite in_vars.
      destruct sc as [g|g names own]; [|destruct A as [_ A]; discriminate].
      assert (E : forall w, ex (PDef (PyTrans.call "anydice_casting" []) (fun_name fl (header_shape (h :: hs)))
           (map (fun p => (fst p, option_map (fun ty => PySpec.PName (annotation ty)) (snd p))) qs ++ [("vars", None)])
           (enter fl qs ++ body_or_pass (map (py_s fl) body))) (InModule g) w
         = ret (Next (bind_name (fun_name fl (header_shape (h :: hs))) (PyFun (over_py fl f)) (InModule g))) w).
      { intros w.
        assert (D : ev (InModule g) (PyTrans.call "anydice_casting" []) w = Some (Ok PyDecorator, w)).
        { unfold PyTrans.call. rewrite eval_call. cbn [eval map arg_list].
          rewrite (over_help fl def_ok (InModule g) pl "anydice_casting" GCasting (proj1 A) ltac:(cbn; tauto) ltac:(left; reflexivity)).
          reflexivity. }
        cbn [exec]. unfold bnd at 1. rewrite D. unfold bnd at 1.
        rewrite (over_kinds (InModule g) pl (params (h :: hs)) qs ks (proj1 A)); [|unfold qs; apply own_snd|exact Hk].
        unfold ret. unfold over_py, names_of, f. cbn [d_params d_body]. rewrite Hk. fold qs.
        rewrite !map_app, map_map. cbn [fst map]. reflexivity. }
      eapply sim_eq_l; [exact E|]. rewrite Hk. apply sim_ret. exact (define_over _ pl _ f A Hs Hd (eq_sym (header_slots (h :: hs)))).
    - (* SLoop *) intros x e body IH inside F sc pl A. destruct F as [Fx [Fe Fb]].
      change (py_s fl (SLoop x e body)) with
        (PFor x (py_e fl e) ((if fl_vars fl then [PAssign (vars_at x) (PySpec.PName x)] else [])
                             ++ body_or_pass (map (py_s fl) body))).
      rewrite in_vars, exec_for, mean_for. cbn [app].
      eapply sim_bnd; [exact (over_value_of inside e sc pl A Fe)|]. intros v ? <-.
      apply sim_bnd_same. intros l. revert sc pl A. induction l as [|o l IHl]; intros sc pl A; [now apply sim_ret|].
      cbn [py_loop mean_loop]. apply (sim_bnd (ends inside)).
      + pose proof (bind_other inside sc pl x (PyObj o) A (proj1 Fx)) as A1.
        assert (S : simM (@is_obj V) (ev (bind_name x (PyObj o) sc) (PySpec.PName x)) (@ret W V o)).
        { cbn [eval]. assert (E : find x (bind_name x (PyObj o) sc) = Ok (PyObj o)).
          { destruct Fx as [X I]. destruct A as [_ N]. destruct sc as [g|g names own]; cbn [bind_name find scope_names] in *.
            - unfold find_global. cbn [assoc]. rewrite String.eqb_refl. reflexivity.
            - subst inside. rewrite (proj2 (mem_in x names) I). cbn [assoc]. rewrite String.eqb_refl. reflexivity. }
          rewrite E. now apply sim_ret. }
        pose proof (exec_set inside _ pl x _ _ A1 S) as X1.
        eapply sim_eq_l; [intros w; apply exec_block_cons|].
        apply sim_eq_r with (n' := (r <== (v <== ret o ;; ret (Onward (give x v pl))) ;;
          match r with Onward pl' => mbl body pl' | Result v => ret (Result v) end)); [reflexivity|].
        eapply sim_bnd; [exact X1|]. intros [sc'|u] [pl'|u'] R; try contradiction; [|now apply sim_ret].
        refine (over_block body inside _ Fb _ _ R).
        eapply Forall_impl; [|exact IH]. intros s Hs. exact (Hs inside).
      + intros [sc'|u] [pl'|u'] R; try contradiction; [exact (IHl sc' pl' R)|now apply sim_ret].
    - (* SResult *) intros e inside F sc pl A. cbn [py_s mean_s exec].
      eapply sim_bnd; [exact (over_value_of inside e sc pl A F)|]. intros v ? <-. now apply sim_ret.
    - (* SSet *) intros p ps e inside [Fe Ft] sc pl A.
      change (py_s fl (SSet p ps e)) with (PExpr (PyTrans.call "settings_set" [py_str fl (p :: ps); py_e fl e])).
      change (ms (SSet p ps e) pl) with
        (t <== text rt pl (p :: ps) ;; v <== me pl e ;; r <== rt_set rt (rt_text rt t) v ;; ret (Onward pl)).
      cbn [exec].
      assert (T : simM (@is_obj V) (ev sc (py_str fl (p :: ps))) (t <== text rt pl (p :: ps) ;; ret (rt_text rt t))).
      { unfold py_str. cbn [eval]. eapply sim_bnd; [exact (over_text rt fl in_vars def_ok sc pl (p :: ps) (proj1 A) Ft)|].
        intros t ? <-. now apply sim_ret. }
      pose proof (over_call2 rt fl def_ok callp "settings_set" GSet sc pl _ _ _ _ (proj1 A) ltac:(cbn; tauto)
        ltac:(left; reflexivity) T (SE e sc pl (proj1 A) Fe) (rt_set rt) ltac:(reflexivity)) as S.
      apply sim_eq_r with (n' := (r <== (v <== (t <== text rt pl (p :: ps) ;; ret (rt_text rt t)) ;;
        u <== me pl e ;; rt_set rt v u) ;; ret (Onward pl))).
      { intros w. unfold bnd. destruct (text rt pl (p :: ps) w) as [[[a|err] v]|]; try reflexivity.
        cbn [ret]. destruct (me pl e v) as [[[b|err] v']|]; reflexivity. }
      eapply sim_bnd; [exact S|]. intros _ _ _. now apply sim_ret.
    - (* SAssign *) intros x e inside [Fx Fe] sc pl A. cbn [py_s mean_s]. unfold variable. rewrite in_vars.
      exact (exec_set inside sc pl x _ _ A (SE e sc pl (proj1 A) Fe)).
    - (* SIf *) intros b bs els Hb Hbs Hels inside F sc pl A. destruct F as [Fb [Fbs Fe]].
      rewrite mean_if.
      set (E := fold_right (fun b els => let '(c, body) := py_b fl b in Some [PIf c body els])
             (match els with None => None | Some body => Some (body_or_pass (map (py_s fl) body)) end) bs).
      replace (py_s fl (SIf b bs els)) with (let '(c, body) := py_b fl b in PIf c body E) by (destruct b; reflexivity).
      apply (Hb inside Fb E (otherwise rt fl callm els bs pl) sc pl A). subst E.
      induction Hbs as [|b' bs Hb' Hbs IH].
      + cbn [fold_right otherwise]. destruct els as [body|]; [|now apply sim_ret].
        refine (over_block body inside _ Fe sc pl A). eapply Forall_impl; [|exact Hels]. intros s Hs. exact (Hs inside).
      + destruct Fbs as [Fb' Fbs]. cbn [fold_right otherwise].
        specialize (Hb' inside Fb' _ _ sc pl A (IH Fbs)). destruct (py_b fl b') as [c body].
        cbn [exec_block]. eapply sim_last; [exact Hb'|].
        intros [sc'|u] [pl'|u'] R; try contradiction; now apply sim_ret.
    - (* Branch *) intros c body IH inside F els eb sc pl A S. destruct F as [Fc Fb].
      change (py_b fl (Branch c body)) with (py_e fl c, body_or_pass (map (py_s fl) body)).
      cbv beta iota. rewrite exec_if, mean_branch. apply sim_eq_r with
        (n' := (v <== me pl c ;; t <== rt_truth rt v ;; if t : bool then mbl body pl else eb)).
      { intros w. unfold bnd. destruct (me pl c w) as [[[a|e] v]|]; try reflexivity.
        destruct (rt_truth rt a v) as [[[[|]|e] v']|]; try reflexivity.
        destruct (mbl body pl v') as [[[x|e] v2]|]; reflexivity. }
      eapply sim_bnd; [exact (over_value_of inside c sc pl A Fc)|]. intros v ? <-.
      apply sim_bnd_same. intros [|].
      + refine (over_block body inside _ Fb sc pl A). eapply Forall_impl; [|exact IH]. intros s Hs. exact (Hs inside).
      + exact S.
  Qed.
End compare.
