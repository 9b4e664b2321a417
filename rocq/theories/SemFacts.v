(** Running a generated program and the meaning of the dice program, compared:
    expressions. *)
From Coq Require Import String Ascii List ZArith Bool Arith Lia.
From Verif Require Import PyBase LexModel LexSpec ParseModel SynSpec SynInd ParseSound NameSpec ResolveModel ResolveGen
  HeaderFacts CompileFacts PySpec PyTrans Runtime PySem ExecModel MeanSpec RunSpec.
Import ListNotations.
Open Scope string_scope.
Open Scope list_scope.
Open Scope run_scope.

(** ** Runs that agree, up to a relation of their results *)

Section sim.
  Context {W : Type}.
  Definition simM {A B : Type} (R : A -> B -> Prop) (m : M W A) (m' : M W B) : Prop :=
    forall w, match m w, m' w with
              | Some (Ok a, v), Some (Ok b, v') => R a b /\ v = v'
              | Some (Err e, v), Some (Err e', v') => e = e' /\ v = v'
              | None, None => True
              | _, _ => False
              end.
  Lemma sim_bnd {A B A' B'} (R : A -> B -> Prop) (R' : A' -> B' -> Prop) m m' f f' :
    simM R m m' -> (forall a b, R a b -> simM R' (f a) (f' b)) -> simM R' (bnd m f) (bnd m' f').
  Proof.
    intros H F w. unfold bnd. specialize (H w).
    destruct (m w) as [[[a|e] v]|], (m' w) as [[[b|e'] v']|]; try contradiction; try exact Logic.I.
    - destruct H as [H ->]. exact (F a b H v').
    - exact H.
  Qed.
  Lemma sim_ret {A B} (R : A -> B -> Prop) a b : R a b -> simM R (ret a) (ret b).
  Proof. intros H w. exact (conj H eq_refl). Qed.
  Lemma sim_raise {A B} (R : A -> B -> Prop) e : simM R (raise e) (raise e).
  Proof. intros w. exact (conj eq_refl eq_refl). Qed.
  Lemma sim_lift {A B} (R : A -> B -> Prop) (r : res A) (r' : res B) :
    match r, r' with Ok a, Ok b => R a b | Err e, Err e' => e = e' | _, _ => False end ->
    simM R (lift r) (lift r').
  Proof. intros H w. unfold lift. destruct r, r'; try contradiction; exact (conj H eq_refl). Qed.
  Lemma sim_refl {A} (m : M W A) : simM eq m m.
  Proof. intros w. destruct (m w) as [[[a|e] v]|]; try exact Logic.I; split; reflexivity. Qed.
  Lemma sim_eq {A} (m m' : M W A) : simM eq m m' -> forall w, m w = m' w.
  Proof.
    intros H w. specialize (H w). destruct (m w) as [[[a|e] v]|], (m' w) as [[[b|e'] v']|]; try contradiction.
    - destruct H as [-> ->]. reflexivity.
    - destruct H as [-> ->]. reflexivity.
    - reflexivity.
  Qed.
  Lemma eq_sim {A} (m m' : M W A) : (forall w, m w = m' w) -> simM eq m m'.
  Proof. intros H w. rewrite H. exact (sim_refl m' w). Qed.
  Lemma sim_impl {A B} (R R' : A -> B -> Prop) m m' : (forall a b, R a b -> R' a b) -> simM R m m' -> simM R' m m'.
  Proof.
    intros I H w. specialize (H w). destruct (m w) as [[[a|e] v]|], (m' w) as [[[b|e'] v']|]; try exact H.
    destruct H as [H ->]. split; [exact (I a b H)|reflexivity].
  Qed.
  (** The right-hand side has a last step less. *)
  Lemma sim_last {A B A'} (R : A -> B -> Prop) (R' : A' -> B -> Prop) m m' (f : A -> M W A') :
    simM R m m' -> (forall a b, R a b -> simM R' (f a) (ret b)) -> simM R' (bnd m f) m'.
  Proof.
    intros H F w. unfold bnd. specialize (H w).
    destruct (m w) as [[[a|e] v]|], (m' w) as [[[b|e'] v']|] eqn:E; try contradiction; try exact Logic.I.
    - destruct H as [H ->]. exact (F a b H v').
    - exact H.
  Qed.
  Lemma sim_bnd_same {A A' B'} (R' : A' -> B' -> Prop) (m : M W A) f f' :
    (forall a, simM R' (f a) (f' a)) -> simM R' (bnd m f) (bnd m f').
  Proof. intros F. apply (sim_bnd eq); [apply sim_refl|]. intros a b <-. exact (F a). Qed.
  Lemma sim_bnd_assoc {A B C D} (R : C -> D -> Prop) (m : M W A) (f : A -> M W B) (g : B -> M W C) m' :
    simM R (bnd m (fun a => bnd (f a) g)) m' -> simM R (bnd (bnd m f) g) m'.
  Proof. intros H w. specialize (H w). unfold bnd in *. destruct (m w) as [[[a|e] v]|]; exact H. Qed.
  Lemma sim_ret_l {A B C} (R : B -> C -> Prop) (a : A) (f : A -> M W B) m' :
    simM R (f a) m' -> simM R (bnd (ret a) f) m'.
  Proof. intros H. exact H. Qed.
  Lemma sim_eq_l {A B} (R : A -> B -> Prop) (m n : M W A) (m' : M W B) :
    (forall w, m w = n w) -> simM R n m' -> simM R m m'.
  Proof. intros E H w. rewrite E. exact (H w). Qed.
  Lemma sim_eq_r {A B} (R : A -> B -> Prop) (m : M W A) (m' n' : M W B) :
    (forall w, m' w = n' w) -> simM R m n' -> simM R m m'.
  Proof. intros E H w. rewrite E. exact (H w). Qed.
End sim.

(** ** What occurs in an expression *)

Inductive atom : Set := ANum (s : string) | AVar (x : string) | AShape (s : shape).

Definition part_atoms (p : part) : list atom := map AVar (part_vars p).

Fixpoint atoms_e (e : expr) : list atom :=
  match e with
  | EBin _ l r => atoms_e l ++ atoms_e r
  | EDice n d => atoms_t n ++ atoms_t d
  | EDie d => atoms_t d
  | ETerm t => atoms_t t
  end
with atoms_t (t : term) : list atom :=
  match t with
  | TNum s => [ANum s]
  | TDec a b => [ANum a; ANum b]
  | TVar x => [AVar x]
  | TStr p ps => flat_map part_atoms (p :: ps)
  | TSeq es => flat_map atoms_l es
  | TGroup e => atoms_e e
  | TCall cs => AShape (call_shape cs) :: flat_map atoms_c cs
  | TUn _ t | THash t => atoms_t t
  end
with atoms_l (x : element) : list atom :=
  match x with LOne e => atoms_e e | LRange a b => atoms_e a ++ atoms_e b end
with atoms_c (c : citem) : list atom :=
  match c with CWord _ => [] | CArg e => atoms_e e end.

Definition digits (s : string) : Prop := all_chars digit s.

Lemma point_none : forall s, digits s -> at_point s = None.
Proof.
  induction s as [|c s IH]; intros H; [reflexivity|]. cbn [at_point].
  pose proof (Forall_inv H) as Hc. destruct (Ascii.eqb_spec c ".") as [->|N].
  - exfalso. unfold digit in Hc. cbn in Hc. decompose [or] Hc; try discriminate; assumption.
  - rewrite (IH (Forall_inv_tail H)). reflexivity.
Qed.
Lemma point_some : forall a b, digits a -> at_point (a ++ "." ++ b) = Some (a, b).
Proof.
  induction a as [|c a IH]; intros b H; [reflexivity|].
  change ((String c a ++ "." ++ b)%string) with (String c (a ++ "." ++ b)). cbn [at_point].
  pose proof (Forall_inv H) as Hc. destruct (Ascii.eqb_spec c ".") as [->|N].
  - exfalso. unfold digit in Hc. cbn in Hc. decompose [or] Hc; try discriminate; assumption.
  - rewrite (IH b (Forall_inv_tail H)). reflexivity.
Qed.

Lemma shape_eqb_spec : forall s t, reflect (s = t) (shape_eqb s t).
Proof.
  induction s as [|a s IH]; intros [|b t]; cbn [shape_eqb]; try (constructor; congruence).
  assert (E : reflect (a = b) (word_eqb a b)).
  { destruct a as [x|], b as [y|]; cbn; try (constructor; congruence).
    destruct (String.eqb_spec x y); constructor; congruence. }
  destruct E as [->|N]; cbn [andb]; [|constructor; congruence].
  destruct (IH t) as [->|N]; constructor; congruence.
Qed.

(** The helpers a generated program finds, that no function of it may replace. *)
Definition helpers : list string :=
  ["get_seq"; "anydice_casting"; "roll"; "myrange"; "settings_set"; "output"; "len"; "T_N"; "T_S"; "T_D";
   "myMatmul"; "myLen"; "myInvert"; "myAnd"; "myOr"].

Section compare.
  Context {V W : Type} (rt : runtime V W).
  Variable fl : flags.
  Hypothesis no_vars : fl_vars fl = false.
  (** The variables given values outside of functions. *)
  Variable outer : list string.

  Definition var_ok (x : string) : Prop := a_word upper_letter x /\ ~ In x taken_variables.
  Definition has_word (s : shape) : Prop := exists w, In (Some w) s.
  Definition shape_ok (s : shape) : Prop :=
    shape_words s /\ (fl_prefix fl = true \/ has_word s) /\
    ~ In (fun_name fl s) (helpers ++ relied_names).

  Definition atom_ok (a : atom) : Prop :=
    match a with ANum s => digits s | AVar x => var_ok x | AShape s => shape_ok s end.

  (** ** Functions *)

  Definition def_names (f : fdef) : list string := map fst (own_names 0 [] (d_params f)).
  Definition def_py (f : fdef) : pyfun :=
    let body := body_or_pass (map (py_s fl) (d_body f)) in
    mkPyFun (match kinds_of (d_params f) with Ok ks => ks | Err _ => [] end) (def_names f)
            (def_names f ++ flat_map bound_names body) body.
  Definition callee_py (c : callee) : @pyval V :=
    match c with Defined f => PyFun (def_py f) | Library l => PyLib (GLib l) end.

  (** ** Places that correspond *)

  Variable def_ok : fdef -> Prop.

  Definition helper (x : string) : option (@pyval V) := option_map PyLib (assoc x get_lib).

  Record agree (g : @env V) (gs : @variables V) (fs : functions) : Prop := mkAgree {
    ag_var : forall x, var_ok x -> assoc x g = option_map PyObj (variable_in x gs);
    ag_fun : forall s, shape_ok s -> assoc (fun_name fl s) g
                       = match find_function s fs with Ok c => Some (callee_py c) | Err _ => None end;
    ag_err : forall s e, find_function s fs = Err e -> e = NameErr;
    ag_help : forall x, In x helpers -> assoc x g = helper x;
    ag_outer : forall x v, variable_in x gs = Some v -> In x outer;
    ag_def : forall s f, find_function s fs = Ok (Defined f) -> def_ok f }.

  Record agree_own (names : list string) (own : @env V) (own' : @variables V) : Prop := mkOwn {
    ao_var : forall x, var_ok x -> In x names -> assoc x own = option_map PyObj (variable_in x own');
    ao_none : forall x, var_ok x -> ~ In x names -> variable_in x own' = None;
    ao_outer : forall x, var_ok x -> In x names -> variable_in x own' = None -> ~ In x outer;
    ao_fun : forall s, shape_ok s -> ~ In (fun_name fl s) names;
    ao_help : forall x, In x helpers -> ~ In x names }.

  Definition agree_sc (sc : @scope V) (pl : @place V) : Prop :=
    match sc, pl_own pl with
    | InModule g, None => agree g (pl_globals pl) (pl_functions pl)
    | InFunction g names own, Some own' =>
        agree g (pl_globals pl) (pl_functions pl) /\ agree_own names own own'
    | _, _ => False
    end.

  Lemma mem_in : forall x l, existsb (String.eqb x) l = true <-> In x l.
  Proof.
    intros x l. rewrite existsb_exists. split.
    - intros [y [I E]]. apply String.eqb_eq in E. now subst.
    - intros I. exists x. split; [exact I|apply String.eqb_refl].
  Qed.

  Lemma upper_no_builtin : forall x, a_word upper_letter x -> builtin x = None.
  Proof.
    intros x [N H]. destruct x as [|c x]; [congruence|]. pose proof (Forall_inv H) as Hc.
    unfold builtin, builtin_names. cbn [existsb].
    assert (E : forall d s, lower_letter d -> String.eqb (String c x) (String d s) = false).
    { intros d s Hd. destruct (String.eqb_spec (String c x) (String d s)) as [E|]; [|reflexivity].
      injection E as -> _. exfalso. unfold lower_letter, upper_letter in *. cbn in Hc, Hd.
      decompose [or] Hc; subst; decompose [or] Hd; try discriminate; try assumption. }
    repeat (rewrite E; [|cbn; tauto]). reflexivity.
  Qed.

  Lemma upper_no_subscript : forall x, a_word upper_letter x -> subscript_text x = None.
  Proof.
    intros x [_ H]. unfold subscript_text. assert (E : at_bracket x = None); [|now rewrite E].
    induction x as [|c x IH]; [reflexivity|]. cbn [at_bracket].
    pose proof (Forall_inv H) as Hc. destruct (Ascii.eqb_spec c "[") as [->|N].
    - exfalso. unfold upper_letter in Hc. cbn in Hc. decompose [or] Hc; try discriminate; assumption.
    - rewrite (IH (Forall_inv_tail H)). reflexivity.
  Qed.

  Definition is_obj (v : @pyval V) (o : V) : Prop := v = PyObj o.

  Lemma find_var : forall sc pl x, agree_sc sc pl -> var_ok x ->
    match find x sc, find_variable x pl with
    | Ok v, Ok o => is_obj v o
    | Err e, Err e' => e = e'
    | _, _ => False
    end.
  Proof.
    intros sc pl x A X. destruct pl as [gs fs own']. unfold find_variable, agree_sc in *.
    cbn [pl_globals pl_functions pl_own] in *.
    assert (G : forall g, agree g gs fs ->
      match find_global x g, match variable_in x gs with Some v => Ok v | None => Err NameErr end with
      | Ok v, Ok o => is_obj v o
      | Err e, Err e' => e = e'
      | _, _ => False
      end).
    { intros g Ag. unfold find_global. rewrite (ag_var _ _ _ Ag x X).
      destruct (variable_in x gs); cbn [option_map]; [reflexivity|].
      rewrite (upper_no_builtin x (proj1 X)). reflexivity. }
    destruct sc as [g|g names own], own' as [own'|]; try contradiction; [exact (G g A)|].
    destruct A as [Ag Ao]. cbn [find]. destruct (existsb (String.eqb x) names) eqn:E.
    - apply mem_in in E. rewrite (ao_var _ _ _ Ao x X E).
      destruct (variable_in x own') eqn:E'; cbn [option_map]; [reflexivity|].
      destruct (variable_in x gs) eqn:E2; [|reflexivity].
      exact (ao_outer _ _ _ Ao x X E E' (ag_outer _ _ _ Ag x v E2)).
    - assert (N : ~ In x names) by (intros I; apply mem_in in I; congruence).
      rewrite (ao_none _ _ _ Ao x X N). exact (G g Ag).
  Qed.

  Lemma find_fun : forall sc pl s, agree_sc sc pl -> shape_ok s ->
    match find (fun_name fl s) sc, find_function s (pl_functions pl) with
    | Ok v, Ok c => v = callee_py c
    | Err e, Err e' => e = e'
    | _, _ => False
    end.
  Proof.
    intros sc pl s A H. destruct pl as [gs fs own']. unfold agree_sc in A. cbn [pl_globals pl_functions pl_own] in *.
    assert (G : forall g, agree g gs fs ->
      match find_global (fun_name fl s) g, find_function s fs with
      | Ok v, Ok c => v = callee_py c
      | Err e, Err e' => e = e'
      | _, _ => False
      end).
    { intros g Ag. unfold find_global. rewrite (ag_fun _ _ _ Ag s H).
      destruct (find_function s fs) as [c|e] eqn:E; [reflexivity|].
      rewrite (ag_err _ _ _ Ag s e E).
      destruct (builtin (fun_name fl s)) eqn:B; [|reflexivity]. exfalso. apply (proj2 (proj2 H)).
      apply in_app_iff. right. apply in_app_iff. right. unfold builtin in B.
      destruct (String.eqb_spec (fun_name fl s) "len") as [->|N]; [apply mem_in; reflexivity|].
      destruct (existsb (String.eqb (fun_name fl s)) builtin_names) eqn:X; [|discriminate]. now apply mem_in. }
    destruct sc as [g|g names own], own' as [own'|]; try contradiction; [exact (G g A)|].
    destruct A as [Ag Ao]. cbn [find]. destruct (existsb (String.eqb (fun_name fl s)) names) eqn:E; [|exact (G g Ag)].
    exfalso. apply mem_in in E. exact (ao_fun _ _ _ Ao s H E).
  Qed.

  Lemma find_help : forall sc pl x, agree_sc sc pl -> In x helpers ->
    find x sc = match assoc x get_lib with
                | Some b => Ok (PyLib b)
                | None => match builtin x with Some b => Ok (PyLib b) | None => Err NameErr end
                end.
  Proof.
    intros sc pl x A H. destruct pl as [gs fs own']. unfold agree_sc in A. cbn [pl_globals pl_functions pl_own] in *.
    assert (G : forall g, agree g gs fs -> find_global x g =
                match assoc x get_lib with
                | Some b => Ok (PyLib b)
                | None => match builtin x with Some b => Ok (PyLib b) | None => Err NameErr end
                end).
    { intros g Ag. unfold find_global. rewrite (ag_help _ _ _ Ag x H). unfold helper.
      destruct (assoc x get_lib); reflexivity. }
    destruct sc as [g|g names own], own' as [own'|]; try contradiction; [exact (G g A)|].
    destruct A as [Ag Ao]. cbn [find]. destruct (existsb (String.eqb x) names) eqn:E; [|exact (G g Ag)].
    exfalso. apply mem_in in E. exact (ao_help _ _ _ Ao x H E).
  Qed.

  (** ** Expressions *)

  Variable callp : @env V -> pyfun -> list V -> option (list (string * V)) -> M W V.
  Variable callm : @variables V -> functions -> fdef -> list V -> M W V.
  Hypothesis calls : forall g gs fs f l, agree g gs fs -> def_ok f ->
    forall w, callp g (def_py f) l None w = callm gs fs f l w.

  Notation ev := (eval rt callp).
  Notation me := (mean_e rt (fl_oplib fl) callm).
  Notation mt := (mean_t rt (fl_oplib fl) callm).
  Notation ml := (mean_l rt (fl_oplib fl) callm).
  Notation mc := (mean_c rt (fl_oplib fl) callm).

  Lemma sim_value : forall v o, is_obj v o -> simM eq (value v) (@ret W V o).
  Proof. intros v o ->. now apply sim_ret. Qed.

  (** A call of a helper by its name. *)
  Definition arg_list (sc : @scope V) := fix args (l : list (option string * pexpr)) : M W (list (option string * pyval)) :=
    match l with
    | [] => ret []
    | (k, e) :: l' => v <== ev sc e ;; vs <== args l' ;; ret ((k, v) :: vs)
    end.
  Lemma eval_call : forall sc f es, ev sc (PCall f es)
    = (g <== ev sc f ;; l <== arg_list sc es ;; apply rt callp sc g l).
  Proof. reflexivity. Qed.

  (** Positional arguments that correspond to values. *)
  Lemma sim_args : forall es sc (ms : list (M W V)), Forall2 (fun e m => simM is_obj (ev sc e) m) es ms ->
    simM (fun l vs => l = map (fun v => (None, PyObj v)) vs)
      (arg_list sc (map (fun e => (None, e)) es))
      (each (fun m => m) ms).
  Proof.
    intros es sc ms F. induction F as [|e m es ms H F IH]; cbn [map arg_list each]; [now apply sim_ret|].
    eapply sim_bnd; [exact H|]. intros v o ->. eapply sim_bnd; [exact IH|]. intros l vs ->. now apply sim_ret.
  Qed.

  Lemma args_pos : forall vs, forall w, named_args (map (fun v => (None, PyObj v)) vs) w = @ret W _ (vs, @nil (string * V)) w.
  Proof.
    induction vs as [|v vs IH]; intros w; [reflexivity|]. cbn [map named_args]. unfold bnd at 1. cbn [value ret].
    unfold bnd. rewrite IH. reflexivity.
  Qed.

  (** Calls of helpers by their names. *)
  Definition builtin_of (h : string) (b : glob) : Prop :=
    assoc h get_lib = Some b \/ (assoc h get_lib = None /\ builtin h = Some b).
  Lemma find_builtin : forall h b sc pl, agree_sc sc pl -> In h helpers -> builtin_of h b -> find h sc = Ok (PyLib b).
  Proof.
    intros h b sc pl A H [E|[E E']]; rewrite (find_help _ _ _ A H), E; [reflexivity|]. now rewrite E'.
  Qed.
  Definition arg (v : V) : option string * @pyval V := (None, PyObj v).
  Lemma no_dict : forall vs, split_dict (map arg vs) = (map arg vs, None).
  Proof.
    induction vs as [|v vs IH]; [reflexivity|]. cbn [map]. unfold arg at 1 3.
    change (split_dict ((None, PyObj v) :: map arg vs))
      with (let '(l2, d) := split_dict (map arg vs) in ((@None string, PyObj v) :: l2, d)).
    rewrite IH. reflexivity.
  Qed.
  Lemma apply_lib : forall sc b vs w, apply rt callp sc (PyLib b) (map arg vs) w = call_lib rt b vs [] w.
  Proof.
    intros sc b vs w. unfold apply. rewrite no_dict. unfold bnd at 1. unfold arg. rewrite args_pos. destruct b; reflexivity.
  Qed.
  Lemma apply_fun : forall sc f vs w,
    apply rt callp sc (PyFun f) (map arg vs) w = (r <== callp (globals_of sc) f vs None ;; ret (PyObj r)) w.
  Proof.
    intros sc f vs w. unfold apply. rewrite no_dict. unfold bnd at 1. unfold arg. rewrite args_pos. reflexivity.
  Qed.

  (** The result of a helper is an object. *)
  Lemma sim_result : forall (m : M W V), simM is_obj (r <== m ;; ret (PyObj r)) m.
  Proof.
    intros m. eapply sim_last; [apply sim_refl|]. intros a b ->. now apply sim_ret.
  Qed.

  Lemma sim_call1 : forall h b sc pl e m, agree_sc sc pl -> In h helpers -> builtin_of h b ->
    simM is_obj (ev sc e) m -> forall (f : V -> M W V),
    (forall v, call_lib rt b [v] [] = (r <== f v ;; ret (PyObj r))) ->
    simM is_obj (ev sc (PyTrans.call h [e])) (v <== m ;; f v).
  Proof.
    intros h b sc pl e m A H B S f K. unfold PyTrans.call. rewrite eval_call. cbn [eval map arg_list].
    rewrite (find_builtin h b sc pl A H B). apply sim_ret_l. apply sim_bnd_assoc.
    eapply sim_bnd; [exact S|]. intros v o ->.
    eapply sim_eq_l; [intros w; exact (apply_lib sc b [o] w)|]. rewrite K. apply sim_result.
  Qed.
  Lemma sim_call2 : forall h b sc pl e e' m m', agree_sc sc pl -> In h helpers -> builtin_of h b ->
    simM is_obj (ev sc e) m -> simM is_obj (ev sc e') m' -> forall (f : V -> V -> M W V),
    (forall v u, call_lib rt b [v; u] [] = (r <== f v u ;; ret (PyObj r))) ->
    simM is_obj (ev sc (PyTrans.call h [e; e'])) (v <== m ;; u <== m' ;; f v u).
  Proof.
    intros h b sc pl e e' m m' A H B S S' f K. unfold PyTrans.call. rewrite eval_call. cbn [eval map arg_list].
    rewrite (find_builtin h b sc pl A H B). apply sim_ret_l. apply sim_bnd_assoc.
    eapply sim_bnd; [exact S|]. intros v o ->. apply sim_bnd_assoc. apply sim_bnd_assoc.
    eapply sim_bnd; [exact S'|]. intros v o' ->.
    eapply sim_eq_l; [intros w; exact (apply_lib sc b [o; o'] w)|]. rewrite K. apply sim_result.
  Qed.

  Lemma sim_op : forall o o' a b x y, o = Some o' -> is_obj a x -> is_obj b y ->
    simM is_obj (operation rt o a b) (rt_op rt o' x y).
  Proof. intros o o' a b x y -> -> ->. exact (sim_result (rt_op rt o' x y)). Qed.

  Lemma sim_text : forall sc pl ps, agree_sc sc pl -> Forall atom_ok (flat_map part_atoms ps) ->
    simM eq (format_pieces rt sc (flat_map (part_pieces fl) ps)) (text rt pl ps).
  Proof.
    intros sc pl ps A. induction ps as [|p ps IH]; intros F; [now apply sim_ret|].
    cbn [flat_map] in F |- *. apply Forall_app in F. destruct F as [F1 F2]. specialize (IH F2).
    assert (L : forall s, simM eq (format_pieces rt sc (text_pieces s ++ flat_map (part_pieces fl) ps))
                            (t <== text rt pl ps ;; ret (s ++ t)%string)).
    { intros s. unfold text_pieces. induction s as [|c s IHs].
      - cbn [list_ascii_of_string map app]. intros w. specialize (IH w). unfold bnd.
        destruct (format_pieces rt sc _ w) as [[[a|e] v]|], (text rt pl ps w) as [[[b|e'] v']|]; exact IH.
      - cbn [list_ascii_of_string map app format_pieces].
        intros w. specialize (IHs w). unfold bnd in *.
        destruct (format_pieces rt sc _ w) as [[[a|e] v]|], (text rt pl ps w) as [[[b|e'] v']|];
          cbn in IHs |- *; try exact IHs. destruct IHs as [-> ->]. split; reflexivity. }
    destruct p as [s|s|x]; cbn [part_pieces text]; [exact (L s)|exact (L s)|].
    rewrite no_vars. cbn [app format_pieces].
    pose proof (Forall_inv F1) as X. cbn [atom_ok] in X. unfold field. rewrite (upper_no_subscript x (proj1 X)).
    eapply sim_bnd; [apply sim_lift; exact (find_var sc pl x A X)|]. intros v o ->. cbn [value].
    apply sim_ret_l. apply sim_bnd_same. intros t.
    eapply sim_bnd; [exact IH|]. intros a b ->. now apply sim_ret.
  Qed.


  Definition item_list (sc : @scope V) := fix items (l : list pexpr) : M W (list pyval) :=
    match l with
    | [] => ret []
    | e :: l' => v <== ev sc e ;; vs <== items l' ;; ret (v :: vs)
    end.
  Definition element_list (pl : @place V) := fix elements (es : list element) : M W (list V) :=
    match es with
    | [] => ret []
    | x :: es' => v <== ml pl x ;; vs <== elements es' ;; ret (v :: vs)
    end.
  Definition argument_list (pl : @place V) := fix arguments (cs : list citem) : M W (list V) :=
    match cs with
    | [] => ret []
    | c :: cs' => v <== mc pl c ;; vs <== arguments cs' ;; ret (v ++ vs)
    end.

  Lemma values_objs : forall (vs : list V) w, values (map PyObj vs) w = @ret W _ vs w.
  Proof.
    induction vs as [|v vs IH]; intros w; [reflexivity|].
    change (values (map PyObj (v :: vs)) w) with (bnd (values (map PyObj vs)) (fun ys => ret (v :: ys)) w).
    unfold bnd. rewrite IH. reflexivity.
  Qed.

  Lemma arg_list_app : forall sc l l' w,
    arg_list sc (l ++ l') w = (a <== arg_list sc l ;; b <== arg_list sc l' ;; ret (a ++ b)) w.
  Proof.
    intros sc l l'. induction l as [|[k e] l IH]; intros w.
    - cbn [app arg_list]. unfold bnd, ret. destruct (arg_list sc l' w) as [[[a|e] v]|]; reflexivity.
    - cbn [app]. change (arg_list sc ((k, e) :: ?x)) with (v <== ev sc e ;; vs <== arg_list sc x ;; ret ((k, v) :: vs)).
      unfold bnd at 1 3. unfold bnd at 2. destruct (ev sc e w) as [[[a|e'] v]|]; [|reflexivity|reflexivity].
      unfold bnd at 1. rewrite IH. unfold bnd.
      destruct (arg_list sc l v) as [[[b|e'] v']|]; [|reflexivity|reflexivity].
      unfold ret at 3. destruct (arg_list sc l' v') as [[[c|e'] v'']|]; reflexivity.
  Qed.

  Lemma help : forall h, In h helpers -> exists b, builtin_of h b.
  Proof.
    intros h H. cbn in H. decompose [or] H; subst; try contradiction;
      (eexists; left; reflexivity) || (eexists; right; split; reflexivity).
  Qed.

  Theorem sim_syntax :
    (forall e, forall sc pl, agree_sc sc pl -> Forall atom_ok (atoms_e e) -> simM is_obj (ev sc (py_e fl e)) (me pl e)) /\
    (forall t, forall sc pl, agree_sc sc pl -> Forall atom_ok (atoms_t t) -> simM is_obj (ev sc (py_t fl t)) (mt pl t)) /\
    (forall x, forall sc pl, agree_sc sc pl -> Forall atom_ok (atoms_l x) -> simM is_obj (ev sc (py_l fl x)) (ml pl x)) /\
    (forall c, forall sc pl, agree_sc sc pl -> Forall atom_ok (atoms_c c) ->
       simM (fun l vs => l = map (fun v => (None, PyObj v)) vs) (arg_list sc (map (fun e => (None, e)) (py_c fl c))) (mc pl c)).
  Proof.
    apply syn_ind.
    - (* EBin *) intros o l r IHl IHr sc pl A F. cbn [atoms_e] in F. apply Forall_app in F. destruct F as [Fl Fr].
      specialize (IHl sc pl A Fl). specialize (IHr sc pl A Fr). cbn [py_e mean_e]. unfold py_bin, op_function.
      assert (INF : simM is_obj (ev sc (if is_comparison o then PCompare (py_e fl l) [(py_operator o, py_e fl r)]
                                        else PBinary (py_operator o) (py_e fl l) (py_e fl r)))
                      (a <== me pl l ;; b <== me pl r ;; rt_op rt o a b)).
      { destruct (is_comparison o) eqn:C; cbn [eval].
        - eapply sim_bnd; [exact IHl|]. intros v x ->. eapply sim_bnd; [exact IHr|]. intros v y ->.
          eapply sim_last; [apply (sim_op (comparison_operator (py_operator o)) o); [destruct o; (reflexivity || discriminate)|reflexivity|reflexivity]|].
          intros a b ->. now apply sim_ret.
        - eapply sim_bnd; [exact IHl|]. intros v x ->. eapply sim_bnd; [exact IHr|]. intros v y ->.
          apply sim_op; [destruct o; (reflexivity || discriminate)|reflexivity|reflexivity]. }
      unfold binary. destruct (fl_oplib fl); [|exact INF].
      destruct o; try exact INF;
        (eapply sim_call2; [exact A|cbn; tauto|left; reflexivity|exact IHl|exact IHr|reflexivity]).
    - (* EDice *) intros n d IHn IHd sc pl A F. cbn [atoms_e] in F. apply Forall_app in F. destruct F as [Fn Fd].
      cbn [py_e mean_e]. eapply (sim_call2 "roll"); [exact A|cbn; tauto|left; reflexivity|exact (IHn sc pl A Fn)|exact (IHd sc pl A Fd)|reflexivity].
    - (* EDie *) intros d IHd sc pl A F. cbn [py_e mean_e].
      eapply (sim_call1 "roll"); [exact A|cbn; tauto|left; reflexivity|exact (IHd sc pl A F)|reflexivity].
    - (* ETerm *) intros t IH sc pl A F. exact (IH sc pl A F).
    - (* TNum *) intros s sc pl A F. cbn [py_t mean_t eval]. unfold number. rewrite (point_none s (Forall_inv F)).
      now apply sim_ret.
    - (* TDec *) intros a b sc pl A F. cbn [py_t mean_t eval]. unfold number.
      rewrite (point_some a b (Forall_inv F)).
      eapply sim_last; [apply sim_refl|]. intros v ? <-. now apply sim_ret.
    - (* TVar *) intros x sc pl A F. cbn [py_t mean_t]. unfold variable. rewrite no_vars. cbn [eval].
      apply sim_lift. exact (find_var sc pl x A (Forall_inv F)).
    - (* TStr *) intros p ps sc pl A F. cbn [py_t mean_t]. unfold py_str. cbn [eval].
      eapply sim_bnd; [exact (sim_text sc pl (p :: ps) A F)|]. intros s ? <-. now apply sim_ret.
    - (* TSeq *) intros es IH sc pl A F. change (py_t fl (TSeq es)) with (PyTrans.call "get_seq" [PList (map (py_l fl) es)]).
      change (mt pl (TSeq es)) with (l <== element_list pl es ;; rt_seq rt (rt_list rt l)).
      assert (L : simM (fun l vs => l = map PyObj vs) (item_list sc (map (py_l fl) es)) (element_list pl es)).
      { cbn [atoms_t] in F. induction IH as [|x es Hx IH IHs]; [now apply sim_ret|]. cbn [flat_map] in F.
        apply Forall_app in F. destruct F as [F1 F2]. cbn [map item_list element_list].
        eapply sim_bnd; [exact (Hx sc pl A F1)|]. intros v o ->. eapply sim_bnd; [exact (IHs F2)|].
        intros l vs ->. now apply sim_ret. }
      assert (S : simM is_obj (ev sc (PList (map (py_l fl) es))) (l <== element_list pl es ;; ret (rt_list rt l))).
      { change (ev sc (PList (map (py_l fl) es)))
          with (l <== item_list sc (map (py_l fl) es) ;; vs <== values l ;; ret (PyObj (rt_list rt vs))).
        eapply sim_bnd; [exact L|]. intros l vs ->. intros w. unfold bnd. rewrite values_objs. split; reflexivity. }
      pose proof (sim_call1 "get_seq" GSeq sc pl _ _ A ltac:(cbn; tauto) ltac:(left; reflexivity) S (rt_seq rt) ltac:(reflexivity)) as R.
      eapply sim_eq_r; [|exact R]. intros w. unfold bnd.
      destruct (element_list pl es w) as [[[a|e] v]|]; reflexivity.
    - (* TGroup *) intros e IH sc pl A F. exact (IH sc pl A F).
    - (* TCall *) intros cs IH sc pl A F. cbn [atoms_t] in F. pose proof (Forall_inv F) as Hs. apply Forall_inv_tail in F.
      cbn [atom_ok] in Hs.
      change (py_t fl (TCall cs)) with (PyTrans.call (fun_name fl (call_shape cs))
        (flat_map (py_c fl) cs ++ if fl_vars fl then [PySpec.PName "vars"] else [])).
      rewrite no_vars, app_nil_r. unfold PyTrans.call. rewrite eval_call.
      change (mt pl (TCall cs)) with
        (f <== lift (find_function (call_shape cs) (pl_functions pl)) ;; l <== argument_list pl cs ;;
         match f with Defined d => callm (pl_globals pl) (pl_functions pl) d l | Library g => rt_lib rt g l end).
      assert (L : simM (fun l vs => l = map (fun v => (None, PyObj v)) vs)
                    (arg_list sc (map (fun e => (None, e)) (flat_map (py_c fl) cs))) (argument_list pl cs)).
      { clear Hs. induction IH as [|c cs Hc IH IHs]; [now apply sim_ret|]. cbn [flat_map] in F |- *.
        apply Forall_app in F. destruct F as [F1 F2]. cbn [argument_list]. specialize (Hc sc pl A F1). specialize (IHs F2).
        rewrite map_app. eapply sim_eq_l; [intros w; apply arg_list_app|].
        eapply sim_bnd; [exact Hc|]. intros a va ->. eapply sim_bnd; [exact IHs|]. intros b vb ->.
        apply sim_ret. now rewrite map_app. }
      cbn [eval].
      assert (FD : forall v, find_function (call_shape cs) (pl_functions pl) = Ok v ->
                   forall f, v = Defined f -> def_ok f).
      { intros v E f ->. unfold agree_sc in A. destruct sc as [g|g names own], (pl_own pl); try contradiction.
        - exact (ag_def _ _ _ A _ _ E).
        - exact (ag_def _ _ _ (proj1 A) _ _ E). }
      assert (G : agree (globals_of sc) (pl_globals pl) (pl_functions pl)).
      { unfold agree_sc in A. destruct sc as [g|g names own], (pl_own pl); try contradiction; [exact A|exact (proj1 A)]. }
      pose proof (find_fun sc pl _ A Hs) as X.
      destruct (find (fun_name fl (call_shape cs)) sc) as [v|e], (find_function (call_shape cs) (pl_functions pl)) as [c|e'];
        try contradiction.
      2:{ intros w. split; [exact X|reflexivity]. }
      apply sim_ret_l. eapply sim_eq_r; [intros w; unfold bnd at 1, lift; reflexivity|].
      eapply sim_bnd; [exact L|]. intros l vs ->. subst v. fold arg. destruct c as [f|g]; cbn [callee_py].
      + eapply sim_eq_l; [intros w; exact (apply_fun sc (def_py f) vs w)|].
        eapply sim_last; [apply eq_sim; intros w; exact (calls _ _ _ f vs G (FD _ eq_refl f eq_refl) w)|].
        intros a b ->. now apply sim_ret.
      + eapply sim_eq_l; [intros w; exact (apply_lib sc (GLib g) vs w)|]. apply sim_result.
    - (* TUn *) intros u t IH sc pl A F. specialize (IH sc pl A F). cbn [py_t mean_t].
      assert (INF : forall s, unary_operator s = Some u ->
        simM is_obj (ev sc (PUnary s (py_t fl t))) (a <== mt pl t ;; rt_un rt u a)).
      { intros s E. cbn [eval]. eapply sim_bnd; [exact IH|]. intros v o ->. rewrite E. apply sim_ret_l. apply sim_result. }
      unfold unary, py_un. destruct u.
      + destruct (fl_oplib fl); exact (INF "+" eq_refl).
      + destruct (fl_oplib fl); exact (INF "-" eq_refl).
      + destruct (fl_oplib fl); [|exact (INF "~" eq_refl)].
        eapply (sim_call1 "myInvert"); [exact A|cbn; tauto|left; reflexivity|exact IH|reflexivity].
    - (* THash *) intros t IH sc pl A F. specialize (IH sc pl A F). cbn [py_t mean_t]. unfold count.
      destruct (fl_oplib fl).
      + eapply (sim_call1 "myLen"); [exact A|cbn; tauto|left; reflexivity|exact IH|reflexivity].
      + eapply (sim_call1 "len"); [exact A|cbn; tauto|right; split; reflexivity|exact IH|reflexivity].
    - (* LOne *) intros e IH sc pl A F. exact (IH sc pl A F).
    - (* LRange *) intros a b IHa IHb sc pl A F. cbn [atoms_l] in F. apply Forall_app in F. destruct F as [Fa Fb].
      cbn [py_l mean_l]. eapply (sim_call2 "myrange"); [exact A|cbn; tauto|left; reflexivity|exact (IHa sc pl A Fa)|exact (IHb sc pl A Fb)|reflexivity].
    - (* CWord *) intros w sc pl A F. now apply sim_ret.
    - (* CArg *) intros e IH sc pl A F. cbn [py_c map arg_list mean_c].
      eapply sim_bnd; [exact (IH sc pl A F)|]. intros v o ->. now apply sim_ret.
  Qed.
End compare.
