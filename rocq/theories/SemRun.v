(** Running a generated program and the meaning of the dice program, compared:
    calls, and whole programs. *)
From Coq Require Import String Ascii List ZArith Bool Arith Lia.
From Verif Require Import PyBase LexModel LexSpec LexFacts ParseModel SynSpec SynInd ParseSound ParseLaws NameSpec ResolveModel ResolveGen
  HeaderFacts ResolveFacts CompileFacts PySpec PyTrans PyCompile PyProgLaws Runtime PySem ExecModel MeanSpec RunSpec SemFacts SemStmt.
Import ListNotations.
Open Scope string_scope.
Open Scope list_scope.
Open Scope run_scope.

(** ** Functions that are defined well *)

Section defs.
  Variable fl : flags.
  Hypothesis no_vars : fl_vars fl = false.
  Variable outer : list string.

  Definition own_list (f : fdef) : list string := SemFacts.def_names f ++ flat_map given_s (d_body f).
  (** In a function there are no functions. *)
  Definition none (f : fdef) : Prop := False.

  Record well (f : fdef) : Prop := mkWell {
    w_body : fine fl outer none (Some (own_list f)) (d_body f);
    w_params : Forall (fun p => var_ok (fst p)) (d_params f);
    w_given : Forall var_ok (flat_map given_s (d_body f));
    w_outer : forall x, In x (flat_map given_s (d_body f)) -> In x (map fst (d_params f)) \/ ~ In x outer;
    w_flat : flat_map functions_s (d_body f) = [];
    w_kinds : exists ks, kinds_of (d_params f) = Ok ks }.

  Lemma fine_mono :
    (forall s, forall names, fine_s fl outer none (Some names) s -> fine_s fl outer well (Some names) s) /\
    (forall b, forall names, fine_b fl outer none (Some names) b -> fine_b fl outer well (Some names) b).
  Proof.
    assert (L : forall (A : Type) (P Q : A -> Prop) l, Forall (fun x => P x -> Q x) l ->
      fold_right (fun x R => P x /\ R) True l -> fold_right (fun x R => Q x /\ R) True l).
    { intros A P Q l F. induction F as [|x l Hx F IH]; [auto|]. cbn [fold_right]. tauto. }
    apply stmt_ind2.
    - auto.
    - auto.
    - intros h hs body _ names [N _]. discriminate.
    - intros x e body IH names [H1 [H2 H3]]. split; [exact H1|]. split; [exact H2|].
      refine (L _ _ _ body _ H3). eapply Forall_impl; [|exact IH]. intros s Hs. exact (Hs names).
    - auto.
    - auto.
    - auto.
    - intros b bs els Hb Hbs He names [H1 [H2 H3]]. split; [exact (Hb names H1)|]. split.
      + refine (L _ _ _ bs _ H2). eapply Forall_impl; [|exact Hbs]. intros s Hs. exact (Hs names).
      + destruct els as [body|]; [|exact H3]. refine (L _ _ _ body _ H3).
        eapply Forall_impl; [|exact He]. intros s Hs. exact (Hs names).
    - intros c body IH names [H1 H2]. split; [exact H1|]. refine (L _ _ _ body _ H2).
      eapply Forall_impl; [|exact IH]. intros s Hs. exact (Hs names).
  Qed.
  Lemma fine_well : forall names l, fine fl outer none (Some names) l -> fine fl outer well (Some names) l.
  Proof.
    intros names l. induction l as [|s l IH]; [auto|]. intros [H1 H2].
    split; [exact (proj1 fine_mono s names H1)|exact (IH H2)].
  Qed.

  (** The names bound in a translated block. *)
  Lemma flat_nil : forall (A B : Type) (f : A -> list B) l, flat_map f l = [] -> Forall (fun x => f x = []) l.
  Proof.
    intros A B f l. induction l as [|x l IH]; intros E; constructor; cbn in E; apply app_eq_nil in E; [exact (proj1 E)|exact (IH (proj2 E))].
  Qed.
  Lemma bound_pass : forall ss, flat_map bound_names (body_or_pass ss) = flat_map bound_names ss.
  Proof. intros [|s ss]; reflexivity. Qed.
  Lemma bound_list : forall body, Forall (fun s => functions_s s = [] -> bound_names (py_s fl s) = given_s s) body ->
    flat_map functions_s body = [] ->
    flat_map bound_names (body_or_pass (map (py_s fl) body)) = flat_map given_s body.
  Proof.
    intros body IH N. rewrite bound_pass. apply flat_nil in N. induction IH as [|s body Hs IH IH']; [reflexivity|].
    cbn [map flat_map]. rewrite (Hs (Forall_inv N)), (IH' (Forall_inv_tail N)). reflexivity.
  Qed.
  Lemma bound_given :
    (forall s, functions_s s = [] -> bound_names (py_s fl s) = given_s s) /\
    (forall b, functions_b b = [] -> flat_map bound_names (snd (py_b fl b)) = given_b b).
  Proof.
    apply stmt_ind2; try reflexivity.
    - intros h hs body _ N. discriminate.
    - intros x e body IH N. change (functions_s (SLoop x e body)) with (flat_map functions_s body) in N.
      change (py_s fl (SLoop x e body)) with
        (PFor x (py_e fl e) ((if fl_vars fl then [PAssign (vars_at x) (PySpec.PName x)] else [])
                             ++ body_or_pass (map (py_s fl) body))).
      rewrite no_vars. cbn [app].
      change (x :: flat_map bound_names (body_or_pass (map (py_s fl) body)) = x :: flat_map given_s body).
      now rewrite (bound_list body IH N).
    - intros x e _. cbn [py_s]. unfold variable. now rewrite no_vars.
    - intros b bs els Hb Hbs He N.
      change (functions_b b ++ flat_map functions_b bs
              ++ match els with None => [] | Some body => flat_map functions_s body end = []) in N.
      apply app_eq_nil in N. destruct N as [N1 N]. apply app_eq_nil in N. destruct N as [N2 N3].
      change (bound_names (py_s fl (SIf b bs els)) = given_b b ++ flat_map given_b bs
              ++ match els with None => [] | Some body => flat_map given_s body end).
      set (E := fold_right (fun b els => let '(c, body) := py_b fl b in Some [PIf c body els])
             (match els with None => None | Some body => Some (body_or_pass (map (py_s fl) body)) end) bs).
      replace (py_s fl (SIf b bs els)) with (PIf (fst (py_b fl b)) (snd (py_b fl b)) E) by (destruct b; reflexivity).
      change (flat_map bound_names (snd (py_b fl b)) ++ match E with Some l => flat_map bound_names l | None => [] end
              = given_b b ++ flat_map given_b bs ++ match els with None => [] | Some body => flat_map given_s body end).
      rewrite (Hb N1). f_equal. subst E. apply flat_nil in N2.
      induction Hbs as [|b' bs Hb' Hbs IH].
      + cbn [fold_right flat_map app]. destruct els as [body|]; [exact (bound_list body He N3)|reflexivity].
      + cbn [fold_right flat_map]. specialize (IH (Forall_inv_tail N2)). specialize (Hb' (Forall_inv N2)).
        destruct (py_b fl b') as [c body]. cbn [snd] in Hb'.
        cbn [flat_map bound_names app]. rewrite app_nil_r, <- app_assoc, <- IH, <- Hb'. reflexivity.
    - intros c body IH N. exact (bound_list body IH N).
  Qed.

  Lemma locals : forall f, well f -> pf_locals (def_py fl f) = own_list f.
  Proof.
    intros f H. unfold def_py, own_list. cbn [pf_locals]. f_equal. apply bound_list; [|exact (w_flat f H)].
    apply Forall_forall. intros s _. exact (proj1 bound_given s).
  Qed.

  (** *** Parameters *)

  Lemma own_kept : forall ps i seen x, In x (map fst ps) -> ~ In x seen -> In x (map fst (own_names i seen ps)).
  Proof.
    induction ps as [|[y ty] ps IH]; intros i seen x I N; [contradiction|]. cbn [own_names map fst] in *.
    destruct (String.eqb_spec x y) as [->|D].
    - left. destruct (existsb (String.eqb y) seen) eqn:E; [|reflexivity]. apply mem_in in E. contradiction.
    - right. destruct I as [E|I]; [congruence|]. apply IH; [exact I|]. intros [E|J]; [congruence|contradiction].
  Qed.
  Lemma own_only : forall ps i seen x, In x (map fst (own_names i seen ps)) -> In x (map fst ps) \/ exists j, x = dummy j.
  Proof.
    induction ps as [|[y ty] ps IH]; intros i seen x I; [contradiction|]. cbn [own_names map fst] in *.
    destruct I as [E|I].
    - destruct (existsb (String.eqb y) seen); [right; exists i; exact (eq_sym E)|left; now left].
    - destruct (IH _ _ _ I) as [J|J]; [left; now right|now right].
  Qed.

  Context {V W : Type} (rt : runtime V W).

  Lemma bind_give : forall ps i seen (l : list V),
    match bind_params (map fst (own_names i seen ps)) l None, give_all ps l with
    | Some own, Some own' => 
        (forall x, var_ok x -> ~ In x seen -> assoc x own = option_map PyObj (variable_in x own')) /\
        (forall x, variable_in x own' = None <-> ~ In x (map fst ps))
    | None, None => True
    | _, _ => False
    end.
  Proof.
    induction ps as [|[y ty] ps IH]; intros i seen [|v l]; cbn [own_names map fst bind_params give_all]; try exact Logic.I.
    - split; [reflexivity|]. intros x. cbn. tauto.
    - specialize (IH (S i) (y :: seen) l).
      destruct (bind_params _ l None) as [own|], (give_all ps l) as [own'|]; try contradiction; [|exact Logic.I].
      cbn [option_map]. destruct IH as [IH1 IH2]. split.
      + intros x X N. cbn [assoc variable_in]. destruct (String.eqb_spec x y) as [->|D].
        * destruct (existsb (String.eqb y) seen) eqn:E; [apply mem_in in E; contradiction|].
          rewrite String.eqb_refl. reflexivity.
        * destruct (String.eqb_spec x (if existsb (String.eqb y) seen then ("dummy" ++ show i)%string else y)) as [E|_].
          -- destruct (existsb (String.eqb y) seen); [|contradiction].
             exfalso. exact (dummy_not_upper i x (proj1 X) (eq_sym E)).
          -- apply IH1; [exact X|]. intros [E|I]; [congruence|contradiction].
      + intros x. cbn [variable_in In]. destruct (String.eqb_spec x y) as [->|D].
        * split; [discriminate|]. intros N. exfalso. apply N. now left.
        * rewrite IH2. split; [intros N [E|I]; [congruence|contradiction]|tauto].
  Qed.

  Notation agree := (agree (V := V) fl outer well).

  Lemma own_agree : forall f l, well f ->
    match bind_params (SemFacts.def_names f) l None, give_all (d_params f) l with
    | Some own, Some own' => agree_own (V := V) fl outer (own_list f) own own'
    | None, None => True
    | _, _ => False
    end.
  Proof.
    intros f l H. pose proof (bind_give (d_params f) 0 [] l) as B. unfold SemFacts.def_names.
    destruct (bind_params _ l None) as [own|], (give_all (d_params f) l) as [own'|]; try contradiction; [|exact Logic.I].
    destruct B as [B1 B2].
    assert (NM : forall x, In x (own_list f) -> var_ok x \/ exists j, x = dummy j).
    { intros x I. unfold own_list in I. apply in_app_iff in I. destruct I as [I|I].
      - destruct (own_only _ _ _ _ I) as [J|J]; [left|now right]. apply in_map_iff in J. destruct J as [p [<- J]].
        exact (proj1 (Forall_forall _ _) (w_params f H) p J).
      - left. exact (proj1 (Forall_forall _ _) (w_given f H) x I). }
    constructor.
    - intros x X _. exact (B1 x X (fun F => F)).
    - intros x X N. apply B2. intros I. apply N. unfold own_list. apply in_app_iff. left.
      exact (own_kept _ 0 [] x I (fun F => F)).
    - intros x X I N. apply B2 in N. unfold own_list in I. apply in_app_iff in I. destruct I as [I|I].
      + destruct (own_only _ _ _ _ I) as [J|[j ->]]; [contradiction|]. exfalso. exact (dummy_not_upper j _ (proj1 X) eq_refl).
      + destruct (w_outer f H x I) as [J|J]; [contradiction|exact J].
    - intros s S I. destruct (NM _ I) as [X|[j E]].
      + exact (var_not_fun fl _ s X S eq_refl).
      + exact (dummy_not_fun fl j s (proj1 S) (eq_sym E)).
    - intros x X I. destruct (NM _ I) as [Y|[j ->]]; [exact (var_not_helper x Y X)|exact (dummy_not_helper j X)].
  Qed.

  (** *** Calls *)

  Theorem sim_calls : forall fuel g gs fs f l, agree g gs fs -> well f ->
    forall w, call_fun rt fuel g (def_py fl f) l None w = call_defined rt (fl_oplib fl) fuel gs fs f l w.
  Proof.
    induction fuel as [|n IH]; intros g gs fs f l A H w; [reflexivity|]. cbn [call_fun call_defined].
    destruct (w_kinds f H) as [ks K]. unfold bnd, lift. rewrite K.
    replace (pf_kinds (def_py fl f)) with ks by (unfold def_py; cbn [pf_kinds]; now rewrite K).
    apply rt_call_ext. clear l w. intros l w. unfold run_body, mean_body.
    change (pf_params (def_py fl f)) with (SemFacts.def_names f).
    pose proof (own_agree f l H) as O. destruct (bind_params _ l None) as [own|], (give_all (d_params f) l) as [own'|];
      try contradiction; [|reflexivity].
    rewrite (locals f H). revert w. apply sim_eq. change (pf_body (def_py fl f)) with (body_or_pass (map (py_s fl) (d_body f))).
    eapply sim_bnd.
    - refine (sim_block rt fl outer well (call_fun rt n) (call_defined rt (fl_oplib fl) n) (d_body f) (Some (own_list f)) _ (fine_well _ _ (w_body f H))
        (InFunction g (own_list f) own) (mkPlace gs fs (Some own')) _).
      + apply Forall_forall. intros s _. 
        exact (proj1 (sim_stmt rt fl no_vars outer well (call_fun rt n) (call_defined rt (fl_oplib fl) n) IH) s (Some (own_list f))).
      + split; [|reflexivity]. split; [exact A|exact O].
    - intros [sc|v] [pl|v'] R; try contradiction; [apply sim_ret; reflexivity|]. cbn in R. subst. now apply sim_ret.
  Qed.

  (** *** Programs *)

  Theorem sim_program : forall fuel g gs fs p, agree g gs fs -> fine fl outer well None p ->
    forall w, run_module rt fuel g (body_or_pass (map (py_s fl) p)) w
              = (r <== mean_block rt (fl_oplib fl) (call_defined rt (fl_oplib fl) fuel) p (mkPlace gs fs None) ;; ret Datatypes.tt) w.
  Proof.
    intros fuel g gs fs p A F. apply sim_eq. unfold run_module. eapply sim_bnd.
    - refine (sim_block rt fl outer well (call_fun rt fuel) (call_defined rt (fl_oplib fl) fuel) p None _ F (InModule g) (mkPlace gs fs None) _).
      + apply Forall_forall. intros s _.
        exact (proj1 (sim_stmt rt fl no_vars outer well (call_fun rt fuel) (call_defined rt (fl_oplib fl) fuel) (sim_calls fuel)) s None).
      + split; [exact A|reflexivity].
    - intros _ _ _. now apply sim_ret.
  Qed.
End defs.

(** ** Programs that satisfy the conditions *)

Section tame.
  Variable fl : flags.
  Variable outer : list string.

  Definition untaken (x : string) : Prop := ~ In x taken_variables.

  Lemma upper_good : forall x, good (tUPPERNAME, x) -> a_word upper_letter x.
  Proof.
    intros x G. inversion G as [| | | | | | | | | | | | | | | | | | | | | | | | |s H| |s t H| | | |]; subst; [exact H|inversion H].
  Qed.
  Lemma number_good : forall x, good (tNUMBER, x) -> digits x.
  Proof.
    intros x G. inversion G as [| | | | | | | | | | | | | | | | | | | | | | | |s H| | |s t H| | | |]; subst; [exact (proj2 H)|inversion H].
  Qed.
  Lemma bracket_inj : forall v w, ("[" ++ v ++ "]")%string = ("[" ++ w ++ "]")%string -> v = w.
  Proof.
    intros v w E. injection E as E. revert w E. induction v as [|c v IH]; intros [|d w] E; cbn in E.
    - reflexivity.
    - injection E as <- E. destruct w; discriminate.
    - injection E as -> E. destruct v; discriminate.
    - injection E as <- E. f_equal. exact (IH w E).
  Qed.
  Lemma part_good : forall v, good (tINSTRING_VAR, ("[" ++ v ++ "]")%string) -> a_word upper_letter v.
  Proof.
    intros v G. unfold good in G. cbn [fst snd] in G.
    remember ("[" ++ v ++ "]")%string as t eqn:E. remember tINSTRING_VAR as k eqn:K.
    destruct G as [| | | | | | | | | | | | | | | | | | | | | | | | | | |s t H| | | |]; try discriminate.
    - subst t. inversion H.
    - apply bracket_inj in E. now subst.
  Qed.

  Lemma parts_ok : forall ps, Forall good (map part_tok ps) -> Forall untaken (flat_map part_vars ps) ->
    Forall (atom_ok fl) (flat_map part_atoms ps).
  Proof.
    induction ps as [|p ps IH]; intros G T; [constructor|]. cbn [map flat_map] in *.
    apply Forall_app in T. destruct T as [T1 T2]. apply Forall_app. split; [|exact (IH (Forall_inv_tail G) T2)].
    apply Forall_inv in G. destruct p as [s|s|v]; try constructor; [|constructor].
    split; [exact (part_good v G)|exact (Forall_inv T1)].
  Qed.

  Theorem atoms_fine :
    (forall e, Forall good (toks_e e) -> Forall untaken (vars_e e) -> Forall (shape_ok fl) (calls_e e) ->
       Forall (atom_ok fl) (atoms_e e)) /\
    (forall t, Forall good (toks_t t) -> Forall untaken (vars_t t) -> Forall (shape_ok fl) (calls_t t) ->
       Forall (atom_ok fl) (atoms_t t)) /\
    (forall x, Forall good (toks_l x) -> Forall untaken (vars_l x) -> Forall (shape_ok fl) (calls_l x) ->
       Forall (atom_ok fl) (atoms_l x)) /\
    (forall c, Forall good (toks_c c) -> Forall untaken (vars_c c) -> Forall (shape_ok fl) (calls_c c) ->
       Forall (atom_ok fl) (atoms_c c)).
  Proof.
    apply syn_ind.
    - intros o l r Hl Hr G T C. cbn [toks_e vars_e calls_e atoms_e] in *.
      apply Forall_app in G. destruct G as [G1 G2]. apply Forall_app in G2. destruct G2 as [_ G2].
      apply Forall_app in T. apply Forall_app in C. apply Forall_app. destruct T, C. split; auto.
    - intros n d Hn Hd G T C. cbn [toks_e vars_e calls_e atoms_e] in *.
      apply Forall_app in G. destruct G as [G1 G2]. apply Forall_inv_tail in G2.
      apply Forall_app in T. apply Forall_app in C. apply Forall_app. destruct T, C. split; auto.
    - intros d Hd G T C. exact (Hd (Forall_inv_tail G) T C).
    - intros t Ht G T C. exact (Ht G T C).
    - intros s G _ _. constructor; [|constructor]. exact (number_good s (Forall_inv G)).
    - intros a b G _ _. constructor; [exact (number_good a (Forall_inv G))|]. constructor; [|constructor].
      exact (number_good b (Forall_inv (Forall_inv_tail (Forall_inv_tail G)))).
    - intros x G T _. constructor; [|constructor]. split; [exact (upper_good x (Forall_inv G))|exact (Forall_inv T)].
    - intros p ps G T _. exact (parts_ok (p :: ps) G T).
    - intros es F G T C. cbn [toks_t vars_t calls_t atoms_t] in *. apply Forall_inv_tail in G. apply Forall_app in G. destruct G as [G _].
      apply sepby_good in G. apply (proj1 (Forall_map toks_l (Forall good) es)) in G. induction F as [|x es Hx F IH]; [constructor|].
      cbn [flat_map] in *. apply Forall_app in T. apply Forall_app in C. destruct T as [T1 T2], C as [C1 C2].
      apply Forall_app. split; [exact (Hx (Forall_inv G) T1 C1)|exact (IH (Forall_inv_tail G) T2 C2)].
    - intros e He G T C. cbn [toks_t] in G. apply Forall_inv_tail in G. apply Forall_app in G. exact (He (proj1 G) T C).
    - intros cs F G T C. cbn [toks_t vars_t calls_t atoms_t] in *. apply Forall_inv_tail in G. apply Forall_app in G. destruct G as [G _].
      apply Forall_app in C. destruct C as [C Cs]. constructor; [exact (Forall_inv Cs)|]. clear Cs.
      apply flat_map_good in G. induction F as [|x es Hx F IH]; [constructor|].
      cbn [flat_map] in *. apply Forall_app in T. apply Forall_app in C. destruct T as [T1 T2], C as [C1 C2].
      apply Forall_app. split; [exact (Hx (Forall_inv G) T1 C1)|exact (IH (Forall_inv_tail G) T2 C2)].
    - intros u t Ht G T C. exact (Ht (Forall_inv_tail G) T C).
    - intros t Ht G T C. exact (Ht (Forall_inv_tail G) T C).
    - intros e He G T C. exact (He G T C).
    - intros a b Ha Hb G T C. cbn [toks_l vars_l calls_l atoms_l] in *.
      apply Forall_app in G. destruct G as [G1 G2]. apply Forall_inv_tail in G2.
      apply Forall_app in T. apply Forall_app in C. apply Forall_app. destruct T, C. split; auto.
    - intros w _ _ _. constructor.
    - intros e He G T C. exact (He G T C).
  Qed.
  Definition AF := proj1 atoms_fine.

  (** What is asked of a statement, and of a list. *)
  Definition conds (toks : list tok) (vars : list string) (calls defs : list shape)
      (fs : list (list (string * option ptype) * list stmt)) : Prop :=
    Forall good toks /\ Forall untaken vars /\ Forall (shape_ok fl) calls /\ Forall (shape_ok fl) defs /\
    Forall (fun f => self_contained outer f = true) fs.
  Definition conds_s (s : stmt) : Prop := conds (toks_s s) (vars_s s) (calls_s s) (defs_s s) (functions_s s).
  Definition conds_b (b : branch) : Prop := conds (toks_b b) (vars_b b) (calls_b b) (defs_b b) (functions_b b).
  Definition conds_l (l : list stmt) : Prop :=
    conds (flat_map toks_s l) (flat_map vars_s l) (flat_map calls_s l) (flat_map defs_s l) (flat_map functions_s l).

  Lemma conds_app : forall t1 t2 v1 v2 c1 c2 d1 d2 f1 f2,
    conds (t1 ++ t2) (v1 ++ v2) (c1 ++ c2) (d1 ++ d2) (f1 ++ f2) <-> conds t1 v1 c1 d1 f1 /\ conds t2 v2 c2 d2 f2.
  Proof. intros. unfold conds. rewrite !Forall_app. tauto. Qed.

  Definition may (inside : option (list string)) (given : list string) (fs : list (list (string * option ptype) * list stmt)) : Prop :=
    match inside with
    | None => Forall (fun x => In x outer) given
    | Some names => fs = [] /\ Forall (fun x => In x names) given
    end.
  Lemma may_app : forall inside g1 g2 f1 f2, may inside (g1 ++ g2) (f1 ++ f2) -> may inside g1 f1 /\ may inside g2 f2.
  Proof.
    intros [names|] g1 g2 f1 f2 H; cbn in *.
    - destruct H as [E H]. apply app_eq_nil in E. apply Forall_app in H. tauto.
    - apply Forall_app in H. exact H.
  Qed.

  Definition kept (inside : option (list string)) : fdef -> Prop :=
    match inside with None => well fl outer | Some _ => none end.

  Definition Q_s (s : stmt) : Prop := conds_s s ->
    Forall var_ok (given_s s) /\
    forall inside, may inside (given_s s) (functions_s s) -> fine_s fl outer (kept inside) inside s.
  Definition Q_b (b : branch) : Prop := conds_b b ->
    Forall var_ok (given_b b) /\
    forall inside, may inside (given_b b) (functions_b b) -> fine_b fl outer (kept inside) inside b.

  Lemma Q_list : forall l, Forall Q_s l -> conds_l l ->
    Forall var_ok (flat_map given_s l) /\
    forall inside, may inside (flat_map given_s l) (flat_map functions_s l) -> fine fl outer (kept inside) inside l.
  Proof.
    intros l F. induction F as [|s l Hs F IH]; intros C.
    - split; [constructor|]. intros inside _. exact Logic.I.
    - apply conds_app in C. destruct C as [C1 C2]. destruct (Hs C1) as [A1 B1], (IH C2) as [A2 B2]. split.
      + cbn [flat_map]. apply Forall_app. now split.
      + intros inside M. apply may_app in M. split; [exact (B1 inside (proj1 M))|exact (B2 inside (proj2 M))].
  Qed.

  Lemma params_good : forall hs, Forall good (flat_map toks_h hs) ->
    Forall (fun p => a_word upper_letter (fst p)) (params hs).
  Proof.
    induction hs as [|h hs IH]; intros G; [constructor|]. cbn [flat_map] in G. apply Forall_app in G. destruct G as [G1 G2].
    unfold params. cbn [flat_map]. apply Forall_app. split; [|exact (IH G2)].
    destruct h; cbn [param_of]; try apply Forall_nil; (constructor; [exact (upper_good _ (Forall_inv G1))|constructor]).
  Qed.

  Lemma known_kinds : forall ps, forallb known_type ps = true -> exists ks, kinds_of ps = Ok ks.
  Proof.
    induction ps as [|[x ty] ps IH]; intros H; [exists []; reflexivity|]. cbn [forallb] in H. apply andb_true_iff in H.
    destruct H as [H1 H2]. destruct (IH H2) as [ks E]. unfold kinds_of in *. cbn [mapM snd].
    assert (K : exists k, match ty with None => Ok None | Some ty => rmap Some (kind_of ty) end = Ok k).
    { destruct ty as [[|s]|]; try (eexists; reflexivity). unfold known_type in H1. cbn [snd] in H1.
      apply mem_in in H1. cbn in H1. decompose [or] H1; subst; try contradiction; eexists; reflexivity. }
    destruct K as [k K]. rewrite K. cbn [bind]. rewrite E. eexists. reflexivity.
  Qed.

  Theorem tame_stmt : (forall s, Q_s s) /\ (forall b, Q_b b).
  Proof.
    apply stmt_ind2.
    - intros e C. split; [constructor|]. intros inside _. destruct C as [G [T [C _]]].
      exact (AF e (Forall_inv_tail G) T C).
    - intros e p ps C. split; [constructor|]. intros inside _. destruct C as [G [T [C _]]].
      change (Forall good (kwt kOutput :: toks_e e ++ kwt kNamed :: map part_tok (p :: ps))) in G.
      apply Forall_inv_tail in G. apply Forall_app in G. destruct G as [G1 G2]. apply Forall_inv_tail in G2.
      change (Forall untaken (vars_e e ++ flat_map part_vars (p :: ps))) in T. apply Forall_app in T. destruct T as [T1 T2].
      split; [exact (AF e G1 T1 C)|exact (parts_ok (p :: ps) G2 T2)].
    - intros h hs body IH C. split; [constructor|].
      intros inside M. destruct inside as [names|]; [destruct M as [M _]; discriminate|].
      destruct C as [G [T [C [D F]]]].
      change (Forall good (kwt kFunction :: colon :: flat_map toks_h (h :: hs) ++ braces (flat_map toks_s body))) in G.
      do 2 apply Forall_inv_tail in G. apply Forall_app in G. destruct G as [G1 G2]. apply good_braces in G2.
      change (Forall untaken (map fst (params (h :: hs)) ++ flat_map vars_s body)) in T. apply Forall_app in T. destruct T as [T1 T2].
      change (Forall (shape_ok fl) (flat_map calls_s body)) in C.
      change (Forall (shape_ok fl) (header_shape (h :: hs) :: flat_map defs_s body)) in D.
      change (Forall (fun f => self_contained outer f = true) ((params (h :: hs), body) :: flat_map functions_s body)) in F.
      pose proof (Forall_inv F) as SC. apply Forall_inv_tail in F. unfold self_contained in SC. cbn [fst snd] in SC.
      apply andb_true_iff in SC. destruct SC as [SC S3]. apply andb_true_iff in SC. destruct SC as [S1 S2].
      assert (NF : flat_map functions_s body = []) by (destruct (flat_map functions_s body); [reflexivity|discriminate]).
      destruct (Q_list body IH (conj G2 (conj T2 (conj C (conj (Forall_inv_tail D) F))))) as [A B].
      destruct (known_kinds _ S1) as [ks K].
      cbn [fine_s kept]. split; [reflexivity|]. split; [exact (Forall_inv D)|]. split; [|exists ks; exact K].
      constructor; cbn [d_params d_body].
      + apply (B (Some (own_list (mkDef (params (h :: hs)) body)))). split; [exact NF|].
        apply Forall_forall. intros x I. unfold own_list. cbn [d_body]. apply in_app_iff. now right.
      + pose proof (params_good _ G1) as P. rewrite Forall_forall in P, T1 |- *. intros p I. split; [exact (P p I)|].
        apply T1. now apply in_map.
      + exact A.
      + intros x I. rewrite forallb_forall in S3. specialize (S3 x I). apply orb_true_iff in S3. destruct S3 as [S3|S3].
        * left. now apply mem_in.
        * right. apply negb_true_iff in S3. intros J. apply mem_in in J. unfold mem in S3. congruence.
      + exact NF.
      + exists ks. exact K.
    - intros x e body IH C. destruct C as [G [T [C [D F]]]].
      change (Forall good (kwt kLoop :: (tUPPERNAME, x) :: kwt kOver :: toks_e e ++ braces (flat_map toks_s body))) in G.
      apply Forall_inv_tail in G. pose proof (upper_good x (Forall_inv G)) as X. do 2 apply Forall_inv_tail in G.
      apply Forall_app in G. destruct G as [G1 G2]. apply good_braces in G2.
      change (Forall untaken (x :: vars_e e ++ flat_map vars_s body)) in T. pose proof (Forall_inv T) as TX.
      apply Forall_inv_tail in T. apply Forall_app in T. destruct T as [T1 T2].
      change (Forall (shape_ok fl) (calls_e e ++ flat_map calls_s body)) in C. apply Forall_app in C. destruct C as [C1 C2].
      destruct (Q_list body IH (conj G2 (conj T2 (conj C2 (conj D F))))) as [A B].
      change (given_s (SLoop x e body)) with (x :: flat_map given_s body).
      change (functions_s (SLoop x e body)) with (flat_map functions_s body).
      split; [constructor; [split; assumption|exact A]|].
      intros inside M. cbn [fine_s].
      assert (M' : match inside with None => In x outer | Some names => In x names end
                   /\ may inside (flat_map given_s body) (flat_map functions_s body)).
      { destruct inside as [names|]; cbn in *.
        - destruct M as [M1 M2]. split; [exact (Forall_inv M2)|split; [exact M1|exact (Forall_inv_tail M2)]].
        - split; [exact (Forall_inv M)|exact (Forall_inv_tail M)]. }
      destruct M' as [M1 M2]. split; [split; [split; assumption|exact M1]|]. split; [exact (AF e G1 T1 C1)|exact (B inside M2)].
    - intros e C. split; [constructor|]. intros inside _. destruct C as [G [T [C _]]].
      exact (AF e (Forall_inv_tail (Forall_inv_tail G)) T C).
    - intros p ps e C. split; [constructor|]. intros inside _. destruct C as [G [T [C _]]].
      change (Forall good (kwt kSet :: map part_tok (p :: ps) ++ kwt kTo :: toks_e e)) in G.
      apply Forall_inv_tail in G. apply Forall_app in G. destruct G as [G1 G2]. apply Forall_inv_tail in G2.
      change (Forall untaken (vars_e e ++ flat_map part_vars (p :: ps))) in T. apply Forall_app in T. destruct T as [T1 T2].
      split; [exact (AF e G2 T1 C)|exact (parts_ok (p :: ps) G1 T2)].
    - intros x e C. destruct C as [G [T [C _]]].
      change (Forall good ((tUPPERNAME, x) :: colon :: toks_e e)) in G.
      change (Forall untaken (x :: vars_e e)) in T.
      assert (X : var_ok x) by (split; [exact (upper_good x (Forall_inv G))|exact (Forall_inv T)]).
      split; [constructor; [exact X|constructor]|]. intros inside M.
      change (given_s (SAssign x e)) with [x] in M. cbn [fine_s]. split.
      + split; [exact X|]. destruct inside as [names|]; cbn in M; [exact (Forall_inv (proj2 M))|exact (Forall_inv M)].
      + exact (AF e (Forall_inv_tail (Forall_inv_tail G)) (Forall_inv_tail T) C).
    - intros b bs els Hb Hbs He C. destruct C as [G [T [C [D F]]]].
      change (Forall good (kwt kIf :: toks_b b ++ flat_map (fun b => kwt kElse :: kwt kIf :: toks_b b) bs
              ++ match els with None => [] | Some body => kwt kElse :: braces (flat_map toks_s body) end)) in G.
      apply Forall_inv_tail in G. apply Forall_app in G. destruct G as [G1 G]. apply Forall_app in G. destruct G as [G2 G3].
      change (Forall untaken (vars_b b ++ flat_map vars_b bs
              ++ match els with None => [] | Some body => flat_map vars_s body end)) in T.
      apply Forall_app in T. destruct T as [T1 T]. apply Forall_app in T. destruct T as [T2 T3].
      change (Forall (shape_ok fl) (calls_b b ++ flat_map calls_b bs
              ++ match els with None => [] | Some body => flat_map calls_s body end)) in C.
      apply Forall_app in C. destruct C as [C1 C]. apply Forall_app in C. destruct C as [C2 C3].
      change (Forall (shape_ok fl) (defs_b b ++ flat_map defs_b bs
              ++ match els with None => [] | Some body => flat_map defs_s body end)) in D.
      apply Forall_app in D. destruct D as [D1 D]. apply Forall_app in D. destruct D as [D2 D3].
      change (Forall (fun f => self_contained outer f = true) (functions_b b ++ flat_map functions_b bs
              ++ match els with None => [] | Some body => flat_map functions_s body end)) in F.
      apply Forall_app in F. destruct F as [F1 F]. apply Forall_app in F. destruct F as [F2 F3].
      destruct (Hb (conj G1 (conj T1 (conj C1 (conj D1 F1))))) as [A1 B1].
      assert (BS : Forall var_ok (flat_map given_b bs) /\
        forall inside, may inside (flat_map given_b bs) (flat_map functions_b bs) ->
          fold_right (fun b P => fine_b fl outer (kept inside) inside b /\ P) True bs).
      { clear - Hbs G2 T2 C2 D2 F2. induction Hbs as [|b bs Hb Hbs IH].
        - split; [constructor|]. intros; exact Logic.I.
        - cbn [flat_map] in *. apply Forall_app in G2, T2, C2, D2, F2.
          destruct G2 as [G G2], T2 as [T T2], C2 as [C C2], D2 as [D D2], F2 as [F F2].
          destruct (Hb (conj (Forall_inv_tail (Forall_inv_tail G)) (conj T (conj C (conj D F))))) as [A B].
          destruct (IH G2 T2 C2 D2 F2) as [A' B']. split; [apply Forall_app; now split|].
          intros inside M. apply may_app in M. split; [exact (B inside (proj1 M))|exact (B' inside (proj2 M))]. }
      assert (EL : Forall var_ok (match els with None => [] | Some body => flat_map given_s body end) /\
        forall inside, may inside (match els with None => [] | Some body => flat_map given_s body end)
            (match els with None => [] | Some body => flat_map functions_s body end) ->
          match els with None => True | Some body => fine fl outer (kept inside) inside body end).
      { destruct els as [body|]; [|split; [constructor|intros; exact Logic.I]].
        apply Forall_inv_tail in G3. apply good_braces in G3.
        exact (Q_list body He (conj G3 (conj T3 (conj C3 (conj D3 F3))))). }
      destruct BS as [A2 B2], EL as [A3 B3].
      change (given_s (SIf b bs els)) with (given_b b ++ flat_map given_b bs
              ++ match els with None => [] | Some body => flat_map given_s body end).
      change (functions_s (SIf b bs els)) with (functions_b b ++ flat_map functions_b bs
              ++ match els with None => [] | Some body => flat_map functions_s body end).
      split; [repeat (apply Forall_app; split); assumption|].
      intros inside M. apply may_app in M. destruct M as [M1 M]. apply may_app in M. destruct M as [M2 M3].
      split; [exact (B1 inside M1)|]. split; [exact (B2 inside M2)|exact (B3 inside M3)].
    - intros c body IH C. destruct C as [G [T [C [D F]]]].
      change (Forall good (toks_e c ++ braces (flat_map toks_s body))) in G. apply Forall_app in G. destruct G as [G1 G2].
      apply good_braces in G2.
      change (Forall untaken (vars_e c ++ flat_map vars_s body)) in T. apply Forall_app in T. destruct T as [T1 T2].
      change (Forall (shape_ok fl) (calls_e c ++ flat_map calls_s body)) in C. apply Forall_app in C. destruct C as [C1 C2].
      destruct (Q_list body IH (conj G2 (conj T2 (conj C2 (conj D F))))) as [A B].
      split; [exact A|]. intros inside M. split; [exact (AF c G1 T1 C1)|exact (B inside M)].
  Qed.
End tame.
