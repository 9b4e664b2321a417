(** Generated programs run as the dice programs mean. *)
From Coq Require Import String Ascii List ZArith Bool Arith Lia.
From Verif Require Import PyBase LexModel LexSpec LexFacts ParseModel SynSpec SynInd ParseSound ParseLaws NameSpec ResolveModel ResolveGen
  HeaderFacts ResolveFacts CompileFacts PySpec PyDet PyTrans PyProg PyCompile PyProgLaws Runtime PySem ExecModel MeanSpec RunSpec SemFacts
  SemStmt SemRun.
Import ListNotations.
Open Scope string_scope.
Open Scope list_scope.
Open Scope run_scope.

(** ** The start *)

Lemma lib_other : forall fl s k, shape_ok fl s ->
  In k (helpers ++ relied_names ++ ["RV"; "Seq"]) -> String.eqb (fun_name fl s) k = false.
Proof.
  intros fl s k [Hs [Hw Hn]] I. destruct (String.eqb_spec (fun_name fl s) k) as [E|]; [|reflexivity]. exfalso.
  apply in_app_iff in I. destruct I as [I|I].
  - apply Hn. apply in_app_iff. left. now rewrite E.
  - apply in_app_iff in I. destruct I as [I|I].
    + apply Hn. apply in_app_iff. right. now rewrite E.
    + pose proof (fun_chars fl s Hs) as F. pose proof (fun_lower fl s Hs Hw) as [c [J L]]. rewrite E in *.
      cbn in I. destruct I as [<-|[<-|[]]].
      * cbn in J. destruct J as [<-|[<-|[]]]; unfold lower_letter in L; cbn in L; decompose [or] L; try discriminate; assumption.
      * pose proof (Forall_inv F) as X. destruct X as [X|[X|X]]; try discriminate.
        unfold lower_letter in X. cbn in X. decompose [or] X; try discriminate; assumption.
Qed.

Definition lib_list : list (shape * libfn) :=
  flat_map (fun c => match snd c with Library l => [(fst c, l)] | Defined _ => [] end) library_functions.

Lemma lib_found : forall fl s l, shape_words s -> Forall (fun c => shape_words (fst c)) l ->
  assoc (fun_name fl s) (map (fun c => (fun_name fl (fst c), GLib (snd c))) l)
  = match find_function s (map (fun c => (fst c, Library (snd c))) l) with
    | Ok (Library f) => Some (GLib f) | _ => None end.
Proof.
  intros fl s l Hs H. induction H as [|[t f] l Ht H IH]; [reflexivity|]. cbn [map assoc find_function fst snd] in *.
  destruct (String.eqb_spec (fun_name fl s) (fun_name fl t)) as [E|N].
  - apply (mangle_inj fl s t Hs Ht) in E. subst t. destruct (shape_eqb_spec s s); [reflexivity|congruence].
  - destruct (shape_eqb_spec s t) as [->|_]; [congruence|exact IH].
Qed.

Lemma assoc_map : forall (A B : Type) (f : A -> B) x l,
  assoc x (map (fun p => (fst p, f (snd p))) l) = option_map f (assoc x l).
Proof. intros A B f x l. induction l as [|[y a] l IH]; [reflexivity|]. cbn. destruct (String.eqb x y); [reflexivity|exact IH]. Qed.

Lemma lib_words : Forall (fun c => shape_words (fst c)) lib_list.
Proof.
  pose proof library_words as H. change library_shapes with (map fst lib_list) in H. exact (proj1 (Forall_map _ _ _) H).
Qed.

Lemma library_only : forall s f, find_function s library_functions <> Ok (Defined f).
Proof.
  intros s f. unfold library_functions. 
  repeat (cbn [find_function]; match goal with |- context [if ?b then _ else _] => destruct b; [discriminate|] end).
  discriminate.
Qed.
Lemma find_err : forall s fs e, find_function s fs = Err e -> e = NameErr.
Proof.
  intros s fs e. induction fs as [|[t c] fs IH]; cbn [find_function]; [now intros [= <-]|].
  destruct (shape_eqb s t); [discriminate|exact IH].
Qed.

Section start.
  Context {V : Type}.
  Variables (fl : flags) (outer : list string).

  Lemma lib_no_var : forall x, var_ok x -> assoc x (@lib_env V) = None.
  Proof.
    intros x [X T]. pose proof (var_no_lower x X) as N.
    assert (L : forall c s, lower_letter c -> String.eqb x (String c s) = false).
    { intros c s H. destruct (String.eqb_spec x (String c s)) as [->|]; [|reflexivity].
      exfalso. apply N. exists c. split; [now left|exact H]. }
    assert (L2 : forall d c s, lower_letter c -> String.eqb x (String d (String c s)) = false).
    { intros d c s H. destruct (String.eqb_spec x (String d (String c s))) as [->|]; [|reflexivity].
      exfalso. apply N. exists c. split; [right; now left|exact H]. }
    assert (L3 : forall d d' c s, lower_letter c -> String.eqb x (String d (String d' (String c s))) = false).
    { intros d d' c s H. destruct (String.eqb_spec x (String d (String d' (String c s)))) as [->|]; [|reflexivity].
      exfalso. apply N. exists c. split; [right; right; now left|exact H]. }
    assert (K : forall y, In y taken_variables -> String.eqb x y = false).
    { intros y I. destruct (String.eqb_spec x y) as [->|]; [contradiction|reflexivity]. }
    unfold lib_env, get_lib. cbn [map assoc fst snd].
    repeat (first [rewrite L by (cbn; tauto)|rewrite K by (cbn; tauto)|rewrite L2 by (cbn; tauto)|rewrite L3 by (cbn; tauto)]).
    reflexivity.
  Qed.

  Lemma lib_fun : forall s, shape_ok fl s -> assoc (fun_name fl s) (@lib_env V)
    = match find_function s (if negb (fl_prefix fl) then library_functions else []) with
      | Ok c => Some (callee_py fl c) | Err _ => None end.
  Proof.
    intros s S. pose proof (lib_other fl s) as N. destruct (fl_prefix fl) eqn:P; cbn [negb find_function].
    - assert (Z : forall k, (match k with String "f" (String c _) => Ascii.eqb c "_" | "f" => true | _ => false end) = false ->
        String.eqb (fun_name fl s) k = false).
      { intros k F. destruct (String.eqb_spec (fun_name fl s) k) as [E|]; [|reflexivity]. exfalso. subst k.
        unfold fun_name in F. rewrite P in F. destruct s as [|x s]; cbn in F; discriminate. }
      unfold lib_env, get_lib. cbn [map assoc fst snd]. rewrite !Z by reflexivity. reflexivity.
    - assert (E : forall t, fun_name fl t = String.concat "_" (map (fun x => match x with Some w => w | None => "X" end) t)).
      { intros t. unfold fun_name. rewrite P. reflexivity. }
      unfold lib_env.
      rewrite (assoc_map glob pyval PyLib (fun_name fl s) get_lib).
      assert (A : assoc (fun_name fl s) get_lib = assoc (fun_name fl s) (map (fun c => (fun_name fl (fst c), GLib (snd c))) lib_list)).
      { unfold lib_list. cbn [library_functions flat_map snd fst app map]. rewrite !E. cbn [map String.concat].
        rewrite <- E. unfold get_lib. cbn [assoc].
        repeat match goal with
               | |- context [String.eqb (fun_name fl s) ?k] => rewrite (N k S) by (apply mem_in; reflexivity)
               end. reflexivity. }
      rewrite A, (lib_found fl s lib_list (proj1 S) lib_words).
      change (map (fun c => (fst c, Library (snd c))) lib_list) with library_functions.
      destruct (find_function s library_functions) as [[f|f]|e] eqn:F; [|reflexivity|reflexivity].
      exfalso. exact (library_only s f F).
  Qed.

  Lemma start_agree : agree (V := V) fl outer (well fl outer) lib_env []
    (if negb (fl_prefix fl) then library_functions else []).
  Proof.
    constructor.
    - intros x X. cbn [variable_in option_map]. exact (lib_no_var x X).
    - exact lib_fun.
    - intros s e. apply find_err.
    - intros x I. unfold helper, lib_env. apply (assoc_map glob pyval PyLib x get_lib).
    - intros x v E. discriminate.
    - intros s f E. destruct (negb (fl_prefix fl)); [|discriminate]. exfalso. exact (library_only s f E).
  Qed.
End start.

(** ** Functions of a program that compiles *)

Lemma no_upper_name : forall fl s k, shape_words s ->
  existsb (fun c => negb (existsb (Ascii.eqb c) (chars "abcdefghijklmnopqrstuvwxyzX_"))) (chars k) = true ->
  fun_name fl s <> k.
Proof.
  intros fl s k Hs B E. apply existsb_exists in B. destruct B as [c [I N]]. rewrite <- E in I.
  pose proof (fun_chars fl s Hs) as F. unfold all_chars in F. rewrite Forall_forall in F. specialize (F c I).
  apply negb_true_iff in N. assert (M : existsb (Ascii.eqb c) (chars "abcdefghijklmnopqrstuvwxyzX_") = true); [|congruence].
  apply existsb_exists. exists c. split; [|apply Ascii.eqb_refl].
  destruct F as [F|[->| ->]]; [|cbn; tauto|cbn; tauto]. unfold lower_letter in F. cbn in F |- *. tauto.
Qed.

Theorem defs_ok : forall fl p fl', Forall good (toks p) -> fl_prefix fl = false -> settled fl p fl' ->
  forallb (free_name fl') (defs p) = true -> Forall (shape_ok fl') (defs p).
Proof.
  intros fl p fl' G P S F. rewrite Forall_forall. intros s I.
  pose proof (proj2 (program_words p G)) as Wd. rewrite Forall_forall in Wd. specialize (Wd s I).
  rewrite forallb_forall in F. specialize (F s I). unfold free_name in F. apply andb_true_iff in F. destruct F as [F1 F2].
  assert (R : ~ In (fun_name fl' s) relied_names).
  { intros J. apply mem_in in J. unfold mem in F1. rewrite J in F1. discriminate. }
  split; [exact Wd|]. split.
  - apply orb_true_iff in F2. destruct F2 as [F2|F2]; [now left|right].
    apply existsb_exists in F2. destruct F2 as [[w|] [J X]]; [exists w; exact J|discriminate].
  - intros J. apply in_app_iff in J. destruct J as [J|J]; [|contradiction].
    assert (H : forall h, In h may_collide -> fun_name fl' s <> h).
    { intros h Hh E. apply (no_helper_defined fl p fl' h G P S Hh). rewrite names_program. apply in_map_iff. now exists s. }
    cbn [In helpers] in J.
    decompose [or] J; try contradiction;
      match goal with X : ?k = fun_name fl' s |- _ => symmetry in X;
        first [ exact (H k ltac:(cbn; tauto) X)
              | exact (no_upper_name fl' s k Wd eq_refl X)
              | apply R; rewrite X; apply mem_in; reflexivity ] end.
Qed.

Theorem calls_ok : forall fl p, Forall good (toks p) ->
  (forall c, In c (calls p) -> In c (defs p) \/ (negb (fl_prefix fl) = true /\ In c library_shapes)) ->
  Forall (shape_ok fl) (defs p) -> Forall (shape_ok fl) (calls p).
Proof.
  intros fl p G A D. rewrite Forall_forall in *. intros s I. destruct (A s I) as [J|[P J]]; [exact (D s J)|].
  apply negb_true_iff in P.
  assert (L : Forall (fun s => shape_words s /\ (fl_prefix fl = true \/ has_word s)) library_shapes).
  { apply Forall_forall. intros t T. split; [exact (proj1 (Forall_forall _ _) library_words t T)|]. right.
    assert (X : existsb (fun x => match x with Some _ => true | None => false end) t = true).
    { revert t T. apply Forall_forall. repeat constructor. }
    apply existsb_exists in X. destruct X as [[w|] [K X]]; [exists w; exact K|discriminate]. }
  rewrite Forall_forall in L. destruct (L s J) as [L1 L2]. split; [exact L1|split; [exact L2|]].
  intros K. assert (M : In (fun_name fl s) library).
  { rewrite <- (library_names fl P). change (mangle fl) with (fun_name fl). now apply in_map. }
  assert (B : forallb (fun k => negb (existsb (String.eqb k) (helpers ++ relied_names))) library = true) by (vm_compute; reflexivity).
  rewrite forallb_forall in B. specialize (B _ M). apply negb_true_iff in B. apply mem_in in K. congruence.
Qed.

(** ** The theorem *)

(** The program that is written in a text, where it is accepted. *)
Theorem written_runs : forall fl src p fl', fl_check fl = true -> fl_prefix fl = false ->
  wf p = true -> scan src = Some (toks p) -> settled fl p fl' -> accepted (negb (fl_prefix fl')) p ->
  exists text, compile fl src = Ok text /\
    (keeps fl' p = true -> results_inside p = true -> tame fl' p = true ->
     (exists q, py_program text q) /\
     forall q, py_program text q ->
     forall (V W : Type) (rt : runtime V W) fuel w,
       unsafe_exec rt fuel q w = mean_program rt (fl_oplib fl) (negb (fl_prefix fl')) fuel p w).
Proof.
  intros fl src p fl' C P Wp Sc St A. exists (squeeze (program_text fl' p)). split.
  { apply (compile_exact fl src _ C P). exists p. split; [exact Wp|]. split; [exact Sc|].
    destruct St as [[N ->]|[Y ->]]; [left|right; now auto]. rewrite P in A. now auto. }
  assert (O : fl_oplib fl' = fl_oplib fl) by (destruct St as [[_ ->]|[_ ->]]; reflexivity).
  intros K R Tm. pose proof (scan_good _ _ Sc) as G.
  pose proof (program_reads fl' p G Wp K R) as Q. split; [exists (py_prog fl' p); exact Q|].
  intros q Q' V W rt fuel w. rewrite (py_program_det _ _ _ Q' Q). clear q Q' Q.
  unfold tame in Tm. apply andb_true_iff in Tm. destruct Tm as [Tm T4]. apply andb_true_iff in Tm. destruct Tm as [Tm T3].
  apply andb_true_iff in Tm. destruct Tm as [T1 T2]. apply negb_true_iff in T1.
  pose proof (defs_ok fl p fl' G P St T3) as Dk.
  pose proof (calls_ok fl' p G (proj2 (proj2 A)) Dk) as Ck.
  unfold unsafe_exec, py_prog. rewrite T1. cbn [app].
  rewrite (sim_program fl' T1 (given p) rt fuel lib_env [] (if negb (fl_prefix fl') then library_functions else [])).
  - unfold mean_program. rewrite O. reflexivity.
  - apply start_agree.
  - assert (QL : Forall (Q_s fl' (given p)) p) by (apply Forall_forall; intros s _; exact (proj1 (tame_stmt fl' (given p)) s)).
    refine (proj2 (Q_list fl' (given p) p QL _) None _).
    + split; [exact G|]. split.
      * apply Forall_forall. intros x I. rewrite forallb_forall in T4. specialize (T4 x I). intros J.
        apply mem_in in J. unfold mem in T4. rewrite J in T4. discriminate.
      * split; [exact Ck|]. split; [exact Dk|]. apply Forall_forall. intros f I. rewrite forallb_forall in T2. exact (T2 f I).
    + apply Forall_forall. intros x I. exact I.
Qed.

Theorem runs_as_meant : forall fl src text, fl_check fl = true -> fl_prefix fl = false -> compile fl src = Ok text ->
  exists p fl', wf p = true /\ scan src = Some (toks p) /\ settled fl p fl' /\
    (keeps fl' p = true -> results_inside p = true -> tame fl' p = true ->
     (exists q, py_program text q) /\
     forall q, py_program text q ->
     forall (V W : Type) (rt : runtime V W) fuel w,
       unsafe_exec rt fuel q w = mean_program rt (fl_oplib fl) (negb (fl_prefix fl')) fuel p w).
Proof.
  intros fl src text C P E. pose proof (proj1 (compile_exact fl src text C P) E) as X.
  destruct X as [p [Wp [Sc H]]].
  assert (Z : exists fl', settled fl p fl' /\ accepted (negb (fl_prefix fl')) p).
  { destruct H as [[N [A _]]|[Y [A _]]]; [exists fl|exists (with_prefix fl)]; (split; [|try rewrite P; exact A]); [now left|now right]. }
  destruct Z as [fl' [St A]]. exists p, fl'. split; [exact Wp|]. split; [exact Sc|]. split; [exact St|].
  destruct (written_runs fl src p fl' C P Wp Sc St A) as [text' [E' R]]. rewrite E in E'. injection E' as <-. exact R.
Qed.
