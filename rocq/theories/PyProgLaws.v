(** Whole programs: what Python reads, when it reads nothing, and which names a
    program defines. *)
From Coq Require Import String Ascii Bool List Arith Lia.
From Verif Require Import PyBase LexModel LexSpec LexFacts GramModel ParseModel SynSpec SynInd ParseSound ParseLaws NameSpec
  ResolveModel ResolveGen HeaderFacts CompileFacts PySpec PyDet PyTrans PyLexFacts PyReady PyToks PyRead PyLines PyStmt
  PyProg PyCompile.
Import ListNotations.
Open Scope string_scope.
Open Scope list_scope.

(** The options with which a program is compiled in the end: a function with
    the name of a helper switches to prefixed names. *)
Definition settled (fl : flags) (p : program) (fl' : flags) : Prop :=
  (~ takes_helper p /\ fl' = fl) \/ (takes_helper p /\ fl' = with_prefix fl).

Theorem compiled : forall fl src text, fl_check fl = true -> fl_prefix fl = false -> compile fl src = Ok text ->
  exists p fl', wf p = true /\ scan src = Some (toks p) /\ settled fl p fl' /\
    text = squeeze (program_text fl' p).
Proof.
  intros fl src text C P E. apply (compile_exact fl src text C P) in E. destruct E as [p [W [S H]]].
  destruct H as [[N [_ T]]|[Y [_ T]]].
  - exists p, fl. split; [exact W|split; [exact S|split; [now left|exact T]]].
  - exists p, (with_prefix fl). split; [exact W|split; [exact S|split; [now right|exact T]]].
Qed.

Theorem compiled_reads : forall fl src text, fl_check fl = true -> fl_prefix fl = false -> compile fl src = Ok text ->
  exists p fl', wf p = true /\ scan src = Some (toks p) /\ settled fl p fl' /\
    (keeps fl' p = true -> results_inside p = true -> forall q, py_program text q <-> q = py_prog fl' p).
Proof.
  intros fl src text C P E. destruct (compiled fl src text C P E) as [p [fl' [W [S [H T]]]]].
  exists p, fl'. split; [exact W|split; [exact S|split; [exact H|]]]. intros K R q. subst text.
  pose proof (program_reads fl' p (scan_good _ _ S) W K R) as Q. split.
  - intros Q'. exact (py_program_det _ _ _ Q' Q).
  - intros ->. exact Q.
Qed.

(** ** result: outside a function *)

Lemma inside_all : forall body,
  (fix all (l : list pstmt) : Prop := match l with [] => True | x :: l' => returns_inside x /\ all l' end) body
  <-> Forall returns_inside body.
Proof.
  induction body; split; intros H.
  - constructor.
  - exact Logic.I.
  - destruct H as [H1 H2]. constructor; [exact H1|]. now apply IHbody.
  - inversion H; subst. split; [assumption|]. now apply IHbody.
Qed.

Section outside.
  Variable fl : flags.

  Lemma pass_back : forall ss, Forall returns_inside (body_or_pass ss) -> Forall returns_inside ss.
  Proof. intros [|s ss] F; [constructor|exact F]. Qed.

  Lemma fold_back : forall E bs,
    match fold_right (fun b els => let '(c, body) := py_b fl b in Some [PIf c body els]) E bs with
    | Some b => Forall returns_inside b | None => True end ->
    Forall (fun b => Forall returns_inside (snd (py_b fl b))) bs /\
    match E with Some b => Forall returns_inside b | None => True end.
  Proof.
    induction bs as [|b bs IH]; intros H; [split; [constructor|exact H]|].
    cbn [fold_right] in H. destruct (py_b fl b) as [c body] eqn:B.
    inversion H as [|? ? H1 _]; subst. cbn [returns_inside] in H1. destruct H1 as [H1 H2].
    apply inside_all in H1. destruct IH as [I1 I2].
    - destruct (fold_right _ E bs) as [x|]; [now apply inside_all in H2|exact Logic.I].
    - split; [|exact I2]. constructor; [now rewrite B|exact I1].
  Qed.

  Theorem inside_back :
    (forall s, returns_inside (py_s fl s) -> results_inside_s s = true) /\
    (forall b, Forall returns_inside (snd (py_b fl b)) -> results_inside_b b = true).
  Proof.
    assert (BODY : forall body, Forall (fun s => returns_inside (py_s fl s) -> results_inside_s s = true) body ->
      Forall returns_inside (map (py_s fl) body) -> forallb results_inside_s body = true).
    { intros body F K. rewrite Forall_map in K. apply forallb_forall. rewrite Forall_forall in *. auto. }
    apply stmt_ind2; try (intros; reflexivity).
    - intros x e body F K. cbn [py_s returns_inside] in K. apply inside_all, Forall_app in K. destruct K as [_ K].
      apply pass_back in K. exact (BODY body F K).
    - intros e K. contradiction.
    - intros b bs els Hb F He K.
      change (py_s fl (SIf b bs els)) with
        (let '(c, body) := py_b fl b in
        PIf c body
          (fold_right (fun b els => let '(c, body) := py_b fl b in Some [PIf c body els])
             (match els with None => None | Some body => Some (body_or_pass (map (py_s fl) body)) end) bs)) in K.
      destruct (py_b fl b) as [c body] eqn:B. cbn [returns_inside] in K. destruct K as [K1 K2].
      apply inside_all in K1. assert (K3 := fold_back (match els with None => None | Some body => Some (body_or_pass (map (py_s fl) body)) end) bs).
      destruct (fold_right _ _ bs) as [x|].
      + apply inside_all in K2. destruct (K3 K2) as [K4 K5].
        cbn [results_inside_s]. rewrite Hb by exact K1. apply andb_true_iff. split.
        * cbn [andb]. apply forallb_forall. rewrite Forall_forall in *. auto.
        * destruct els as [eb|]; [|reflexivity]. apply pass_back in K5. exact (BODY eb He K5).
      + destruct (K3 Logic.I) as [K4 K5].
        cbn [results_inside_s]. rewrite Hb by exact K1. apply andb_true_iff. split.
        * cbn [andb]. apply forallb_forall. rewrite Forall_forall in *. auto.
        * destruct els as [eb|]; [|reflexivity]. apply pass_back in K5. exact (BODY eb He K5).
    - intros c body F K. cbn [py_b snd] in K. apply pass_back in K. exact (BODY body F K).
  Qed.

  Lemma inside_program : forall p, Forall returns_inside (py_prog fl p) -> results_inside p = true.
  Proof.
    intros p F. unfold py_prog in F. apply Forall_app in F. destruct F as [_ F]. apply pass_back in F.
    rewrite Forall_map in F. apply forallb_forall. rewrite Forall_forall in F. intros s I.
    apply (proj1 inside_back). auto.
  Qed.

  Theorem outside_unread : forall p, Forall good (toks p) -> wf p = true -> keeps fl p = true ->
    results_inside p = false -> forall q, ~ py_program (squeeze (program_text fl p)) q.
  Proof.
    intros p G W K R q [[bs [B S]] [I _]].
    destruct (program_statements fl p G W K) as [[bs' [B' S']] _].
    destruct (blocks_det _ _ _ _ B _ _ B') as [<- _].
    rewrite (proj1 statements_det _ _ S _ S') in I. apply inside_program in I. congruence.
  Qed.
End outside.

(** ** Names *)

(** The functions that a Python program defines, at any depth. *)
Fixpoint def_names (s : pstmt) : list string :=
  match s with
  | PDef _ f _ body => f :: flat_map def_names body
  | PFor _ _ body => flat_map def_names body
  | PIf _ body els =>
      flat_map def_names body ++ match els with Some b => flat_map def_names b | None => [] end
  | _ => []
  end.

Section names.
  Variable fl : flags.

  Lemma names_pass : forall ss, flat_map def_names (body_or_pass ss) = flat_map def_names ss.
  Proof. now intros [|s ss]. Qed.

  Lemma names_body : forall body,
    Forall (fun s => def_names (py_s fl s) = map (fun_name fl) (defs_s s)) body ->
    flat_map def_names (body_or_pass (map (py_s fl) body)) = map (fun_name fl) (flat_map defs_s body).
  Proof.
    intros body F. rewrite names_pass. induction F as [|s body E F IH]; [reflexivity|].
    cbn [map flat_map]. now rewrite map_app, E, IH.
  Qed.

  Theorem names_gen :
    (forall s, def_names (py_s fl s) = map (fun_name fl) (defs_s s)) /\
    (forall b, flat_map def_names (snd (py_b fl b)) = map (fun_name fl) (defs_b b)).
  Proof.
    apply stmt_ind2; try (intros; reflexivity).
    - intros h hs body F. cbn [py_s def_names defs_s map]. f_equal. rewrite flat_map_app, names_body by exact F.
      unfold enter. destruct (fl_vars fl); [|reflexivity]. cbn [flat_map def_names app].
      replace (flat_map def_names (map _ _)) with (@nil string); [reflexivity|].
      symmetry. generalize (own_names 0 [] (params (h :: hs))). intros l. induction l; [reflexivity|assumption].
    - intros x e body F. cbn [py_s def_names defs_s]. rewrite flat_map_app, names_body by exact F.
      now destruct (fl_vars fl).
    - intros b bs els Hb F He.
      change (py_s fl (SIf b bs els)) with
        (let '(c, body) := py_b fl b in
        PIf c body
          (fold_right (fun b els => let '(c, body) := py_b fl b in Some [PIf c body els])
             (match els with None => None | Some body => Some (body_or_pass (map (py_s fl) body)) end) bs)).
      destruct (py_b fl b) as [c body] eqn:B. cbn [snd] in Hb. cbn [def_names defs_s]. rewrite Hb, !map_app. f_equal.
      set (E := match els with None => None | Some body => Some (body_or_pass (map (py_s fl) body)) end).
      assert (HE : match E with Some b => flat_map def_names b | None => [] end
                   = map (fun_name fl) match els with None => [] | Some body => flat_map defs_s body end).
      { subst E. destruct els as [eb|]; [|reflexivity]. now apply names_body. }
      clear B Hb He. induction F as [|[c' b'] bs H F IH]; [exact HE|].
      cbn [fold_right]. cbn [py_b]. cbn [flat_map]. rewrite app_nil_r. cbn [def_names]. 
      cbn [py_b snd] in H. rewrite map_app, <- app_assoc. f_equal; [exact H|exact IH].
    - intros c body F. cbn [py_b snd defs_b]. now apply names_body.
  Qed.

  Theorem names_program : forall p, flat_map def_names (py_prog fl p) = map (fun_name fl) (defs p).
  Proof.
    intros p. unfold py_prog. rewrite flat_map_app, names_body.
    - now destruct (fl_vars fl).
    - apply Forall_forall. intros s _. apply (proj1 names_gen).
  Qed.
End names.

(** Functions with the name of a helper end up under another name. *)
Theorem no_helper_defined : forall fl p fl' h, Forall good (toks p) -> fl_prefix fl = false -> settled fl p fl' ->
  In h may_collide -> ~ In h (flat_map def_names (py_prog fl' p)).
Proof.
  intros fl p fl' h G P S H I. rewrite names_program in I. apply in_map_iff in I. destruct I as [c [E I]].
  pose proof (proj2 (program_words p G)) as Wd. rewrite Forall_forall in Wd. specialize (Wd c I).
  destruct S as [[N ->]|[Y ->]].
  - apply N. exists c. split; [|exact I]. apply (in_names fl c helper_shapes Wd helper_words).
    rewrite (helper_names fl P). change (mangle fl c) with (fun_name fl c). now rewrite E.
  - apply (prefixed_fresh (with_prefix fl) c helper_shapes eq_refl Wd helper_words eq_refl).
    change (mangle (with_prefix fl) c) with (fun_name (with_prefix fl) c). rewrite E. exact H.
Qed.
