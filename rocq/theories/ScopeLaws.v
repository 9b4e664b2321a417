(** Generated programs with the variables in a dictionary run as the dice programs mean
    when functions work on copies. *)
From Coq Require Import String Ascii List ZArith Bool Arith Lia.
From Verif Require Import PyBase LexModel LexSpec LexFacts ParseModel SynSpec SynInd ParseSound ParseLaws NameSpec ResolveModel ResolveGen
  HeaderFacts ResolveFacts CompileFacts PySpec PyDet PyTrans PyProg PyCompile PyProgLaws Runtime PySem ExecModel MeanSpec RunSpec ScopeSpec
  SemFacts SemStmt SemRun SemLaws ScopeFacts ScopeStmt ScopeRun.
Import ListNotations.
Open Scope string_scope.
Open Scope list_scope.
Open Scope run_scope.

(** ** Programs that satisfy the conditions *)

Section tame.
  Variable fl : flags.
  Hypothesis in_vars : fl_vars fl = true.

  Lemma parts_over : forall ps, Forall good (map part_tok ps) -> Forall (part_ok fl) (flat_map part_atoms ps).
  Proof.
    induction ps as [|p ps IH]; intros G; [constructor|]. cbn [map flat_map] in *.
    apply Forall_app. split; [|exact (IH (Forall_inv_tail G))].
    apply Forall_inv in G. destruct p as [s|s|v]; try constructor; [|constructor]. exact (part_good v G).
  Qed.

  Theorem atoms_over :
    (forall e, Forall good (toks_e e) -> Forall (call_ok fl) (calls_e e) -> Forall (part_ok fl) (atoms_e e)) /\
    (forall t, Forall good (toks_t t) -> Forall (call_ok fl) (calls_t t) -> Forall (part_ok fl) (atoms_t t)) /\
    (forall x, Forall good (toks_l x) -> Forall (call_ok fl) (calls_l x) -> Forall (part_ok fl) (atoms_l x)) /\
    (forall c, Forall good (toks_c c) -> Forall (call_ok fl) (calls_c c) -> Forall (part_ok fl) (atoms_c c)).
  Proof.
    apply syn_ind.
    - intros o l r Hl Hr G C. cbn [toks_e calls_e atoms_e] in *.
      apply Forall_app in G. destruct G as [G1 G2]. apply Forall_app in G2. destruct G2 as [_ G2].
      apply Forall_app in C. apply Forall_app. destruct C. split; auto.
    - intros n d Hn Hd G C. cbn [toks_e calls_e atoms_e] in *.
      apply Forall_app in G. destruct G as [G1 G2]. apply Forall_inv_tail in G2.
      apply Forall_app in C. apply Forall_app. destruct C. split; auto.
    - intros d Hd G C. exact (Hd (Forall_inv_tail G) C).
    - intros t Ht G C. exact (Ht G C).
    - intros s G _. constructor; [|constructor]. exact (number_good s (Forall_inv G)).
    - intros a b G _. constructor; [exact (number_good a (Forall_inv G))|]. constructor; [|constructor].
      exact (number_good b (Forall_inv (Forall_inv_tail (Forall_inv_tail G)))).
    - intros x G _. constructor; [|constructor]. exact (upper_good x (Forall_inv G)).
    - intros p ps G _. exact (parts_over (p :: ps) G).
    - intros es F G C. cbn [toks_t calls_t atoms_t] in *. apply Forall_inv_tail in G. apply Forall_app in G. destruct G as [G _].
      apply sepby_good in G. apply (proj1 (Forall_map toks_l (Forall good) es)) in G. induction F as [|x es Hx F IH]; [constructor|].
      cbn [flat_map] in *. apply Forall_app in C. destruct C as [C1 C2].
      apply Forall_app. split; [exact (Hx (Forall_inv G) C1)|exact (IH (Forall_inv_tail G) C2)].
    - intros e He G C. cbn [toks_t] in G. apply Forall_inv_tail in G. apply Forall_app in G. exact (He (proj1 G) C).
    - intros cs F G C. cbn [toks_t calls_t atoms_t] in *. apply Forall_inv_tail in G. apply Forall_app in G. destruct G as [G _].
      apply Forall_app in C. destruct C as [C Cs]. constructor; [exact (Forall_inv Cs)|]. clear Cs.
      apply flat_map_good in G. induction F as [|x es Hx F IH]; [constructor|].
      cbn [flat_map] in *. apply Forall_app in C. destruct C as [C1 C2].
      apply Forall_app. split; [exact (Hx (Forall_inv G) C1)|exact (IH (Forall_inv_tail G) C2)].
    - intros u t Ht G C. exact (Ht (Forall_inv_tail G) C).
    - intros t Ht G C. exact (Ht (Forall_inv_tail G) C).
    - intros e He G C. exact (He G C).
    - intros a b Ha Hb G C. cbn [toks_l calls_l atoms_l] in *.
      apply Forall_app in G. destruct G as [G1 G2]. apply Forall_inv_tail in G2.
      apply Forall_app in C. apply Forall_app. destruct C. split; auto.
    - intros w _ _. constructor.
    - intros e He G C. exact (He G C).
  Qed.
  Definition AO := proj1 atoms_over.

  (** What is asked of a statement, and of a list. *)
  Definition wants (toks : list tok) (loops : list string) (calls defs : list shape)
      (fs : list (list (string * option ptype) * list stmt)) : Prop :=
    Forall good toks /\ Forall untaken loops /\ Forall (call_ok fl) calls /\ Forall (shape_ok fl) defs /\
    Forall (fun f => flat_function f = true) fs.
  Definition wants_s (s : stmt) : Prop := wants (toks_s s) (loops_s s) (calls_s s) (defs_s s) (functions_s s).
  Definition wants_b (b : branch) : Prop := wants (toks_b b) (loops_b b) (calls_b b) (defs_b b) (functions_b b).
  Definition wants_l (l : list stmt) : Prop :=
    wants (flat_map toks_s l) (flat_map loops_s l) (flat_map calls_s l) (flat_map defs_s l) (flat_map functions_s l).

  Lemma wants_app : forall t1 t2 v1 v2 c1 c2 d1 d2 f1 f2,
    wants (t1 ++ t2) (v1 ++ v2) (c1 ++ c2) (d1 ++ d2) (f1 ++ f2) <-> wants t1 v1 c1 d1 f1 /\ wants t2 v2 c2 d2 f2.
  Proof. intros. unfold wants. rewrite !Forall_app. tauto. Qed.

  Definition lets (inside : option (list string)) (loops : list string) (fs : list (list (string * option ptype) * list stmt)) : Prop :=
    match inside with
    | None => True
    | Some names => fs = [] /\ Forall (fun x => In x names) loops
    end.
  Lemma lets_app : forall inside g1 g2 f1 f2, lets inside (g1 ++ g2) (f1 ++ f2) -> lets inside g1 f1 /\ lets inside g2 f2.
  Proof.
    intros [names|] g1 g2 f1 f2 H; cbn in *; [|tauto].
    destruct H as [E H]. apply app_eq_nil in E. apply Forall_app in H. tauto.
  Qed.

  Definition allowed (inside : option (list string)) : fdef -> Prop :=
    match inside with None => proper fl | Some _ => none end.

  Definition R_s (s : stmt) : Prop := wants_s s ->
    Forall var_ok (loops_s s) /\
    forall inside, lets inside (loops_s s) (functions_s s) -> good_s fl (allowed inside) inside s.
  Definition R_b (b : branch) : Prop := wants_b b ->
    Forall var_ok (loops_b b) /\
    forall inside, lets inside (loops_b b) (functions_b b) -> good_b fl (allowed inside) inside b.

  Lemma R_list : forall l, Forall R_s l -> wants_l l ->
    Forall var_ok (flat_map loops_s l) /\
    forall inside, lets inside (flat_map loops_s l) (flat_map functions_s l) -> good_l fl (allowed inside) inside l.
  Proof.
    intros l F. induction F as [|s l Hs F IH]; intros C.
    - split; [constructor|]. intros inside _. exact Logic.I.
    - apply wants_app in C. destruct C as [C1 C2]. destruct (Hs C1) as [A1 B1], (IH C2) as [A2 B2]. split.
      + cbn [flat_map]. apply Forall_app. now split.
      + intros inside M. apply lets_app in M. split; [exact (B1 inside (proj1 M))|exact (B2 inside (proj2 M))].
  Qed.

  Lemma free_untaken : forall l, forallb free_variable l = true -> Forall untaken l.
  Proof.
    intros l H. apply Forall_forall. intros x I J. rewrite forallb_forall in H. specialize (H x I).
    unfold free_variable in H. apply negb_true_iff in H. apply mem_in in J. unfold mem in H. congruence.
  Qed.

  Theorem over_tame : (forall s, R_s s) /\ (forall b, R_b b).
  Proof.
    apply stmt_ind2.
    - intros e C. split; [constructor|]. intros inside _. destruct C as [G [_ [C _]]].
      exact (AO e (Forall_inv_tail G) C).
    - intros e p ps C. split; [constructor|]. intros inside _. destruct C as [G [_ [C _]]].
      change (Forall good (kwt kOutput :: toks_e e ++ kwt kNamed :: map part_tok (p :: ps))) in G.
      apply Forall_inv_tail in G. apply Forall_app in G. destruct G as [G1 G2]. apply Forall_inv_tail in G2.
      split; [exact (AO e G1 C)|exact (parts_over (p :: ps) G2)].
    - intros h hs body IH C. split; [constructor|].
      intros inside M. destruct inside as [names|]; [destruct M as [M _]; discriminate|].
      destruct C as [G [_ [C [D F]]]].
      change (Forall good (kwt kFunction :: colon :: flat_map toks_h (h :: hs) ++ braces (flat_map toks_s body))) in G.
      do 2 apply Forall_inv_tail in G. apply Forall_app in G. destruct G as [G1 G2]. apply good_braces in G2.
      change (Forall (call_ok fl) (flat_map calls_s body)) in C.
      change (Forall (shape_ok fl) (header_shape (h :: hs) :: flat_map defs_s body)) in D.
      change (Forall (fun f => flat_function f = true) ((params (h :: hs), body) :: flat_map functions_s body)) in F.
      pose proof (Forall_inv F) as SC. apply Forall_inv_tail in F. unfold flat_function in SC. cbn [fst snd] in SC.
      apply andb_true_iff in SC. destruct SC as [SC S3]. apply andb_true_iff in SC. destruct SC as [S1 S2].
      rewrite forallb_app in S3. apply andb_true_iff in S3. destruct S3 as [S3 S4].
      pose proof (free_untaken _ S3) as T1. pose proof (free_untaken _ S4) as T2.
      assert (NF : flat_map functions_s body = []) by (destruct (flat_map functions_s body); [reflexivity|discriminate]).
      destruct (R_list body IH (conj G2 (conj T2 (conj C (conj (Forall_inv_tail D) F))))) as [A B].
      destruct (known_kinds _ S1) as [ks K].
      cbn [good_s allowed]. split; [reflexivity|]. split; [exact (Forall_inv D)|]. split; [|exists ks; exact K].
      constructor; cbn [d_params d_body].
      + apply (B (Some (local_list (mkDef (params (h :: hs)) body)))). split; [exact NF|].
        apply Forall_forall. intros x I. unfold local_list. cbn [d_body]. apply in_app_iff. right. now right.
      + pose proof (params_good _ G1) as P. rewrite Forall_forall in P, T1 |- *. intros p I. split; [exact (P p I)|].
        apply T1. now apply in_map.
      + exact A.
      + exact NF.
      + exists ks. exact K.
    - intros x e body IH C. destruct C as [G [T [C [D F]]]].
      change (Forall good (kwt kLoop :: (tUPPERNAME, x) :: kwt kOver :: toks_e e ++ braces (flat_map toks_s body))) in G.
      apply Forall_inv_tail in G. pose proof (upper_good x (Forall_inv G)) as X. do 2 apply Forall_inv_tail in G.
      apply Forall_app in G. destruct G as [G1 G2]. apply good_braces in G2.
      change (Forall untaken (x :: flat_map loops_s body)) in T. pose proof (Forall_inv T) as TX. apply Forall_inv_tail in T.
      change (Forall (call_ok fl) (calls_e e ++ flat_map calls_s body)) in C. apply Forall_app in C. destruct C as [C1 C2].
      destruct (R_list body IH (conj G2 (conj T (conj C2 (conj D F))))) as [A B].
      change (loops_s (SLoop x e body)) with (x :: flat_map loops_s body).
      change (functions_s (SLoop x e body)) with (flat_map functions_s body).
      split; [constructor; [split; assumption|exact A]|].
      intros inside M. cbn [good_s].
      assert (M' : match inside with None => True | Some names => In x names end
                   /\ lets inside (flat_map loops_s body) (flat_map functions_s body)).
      { destruct inside as [names|]; cbn in *; [|tauto].
        destruct M as [M1 M2]. split; [exact (Forall_inv M2)|split; [exact M1|exact (Forall_inv_tail M2)]]. }
      destruct M' as [M1 M2]. split; [split; [split; assumption|exact M1]|]. split; [exact (AO e G1 C1)|exact (B inside M2)].
    - intros e C. split; [constructor|]. intros inside _. destruct C as [G [_ [C _]]].
      exact (AO e (Forall_inv_tail (Forall_inv_tail G)) C).
    - intros p ps e C. split; [constructor|]. intros inside _. destruct C as [G [_ [C _]]].
      change (Forall good (kwt kSet :: map part_tok (p :: ps) ++ kwt kTo :: toks_e e)) in G.
      apply Forall_inv_tail in G. apply Forall_app in G. destruct G as [G1 G2]. apply Forall_inv_tail in G2.
      split; [exact (AO e G2 C)|exact (parts_over (p :: ps) G1)].
    - intros x e C. split; [constructor|]. intros inside _. destruct C as [G [_ [C _]]].
      change (Forall good ((tUPPERNAME, x) :: colon :: toks_e e)) in G. cbn [good_s].
      split; [exact (upper_good x (Forall_inv G))|exact (AO e (Forall_inv_tail (Forall_inv_tail G)) C)].
    - intros b bs els Hb Hbs He C. destruct C as [G [T [C [D F]]]].
      change (Forall good (kwt kIf :: toks_b b ++ flat_map (fun b => kwt kElse :: kwt kIf :: toks_b b) bs
              ++ match els with None => [] | Some body => kwt kElse :: braces (flat_map toks_s body) end)) in G.
      apply Forall_inv_tail in G. apply Forall_app in G. destruct G as [G1 G]. apply Forall_app in G. destruct G as [G2 G3].
      change (Forall untaken (loops_b b ++ flat_map loops_b bs
              ++ match els with None => [] | Some body => flat_map loops_s body end)) in T.
      apply Forall_app in T. destruct T as [T1 T]. apply Forall_app in T. destruct T as [T2 T3].
      change (Forall (call_ok fl) (calls_b b ++ flat_map calls_b bs
              ++ match els with None => [] | Some body => flat_map calls_s body end)) in C.
      apply Forall_app in C. destruct C as [C1 C]. apply Forall_app in C. destruct C as [C2 C3].
      change (Forall (shape_ok fl) (defs_b b ++ flat_map defs_b bs
              ++ match els with None => [] | Some body => flat_map defs_s body end)) in D.
      apply Forall_app in D. destruct D as [D1 D]. apply Forall_app in D. destruct D as [D2 D3].
      change (Forall (fun f => flat_function f = true) (functions_b b ++ flat_map functions_b bs
              ++ match els with None => [] | Some body => flat_map functions_s body end)) in F.
      apply Forall_app in F. destruct F as [F1 F]. apply Forall_app in F. destruct F as [F2 F3].
      destruct (Hb (conj G1 (conj T1 (conj C1 (conj D1 F1))))) as [A1 B1].
      assert (BS : Forall var_ok (flat_map loops_b bs) /\
        forall inside, lets inside (flat_map loops_b bs) (flat_map functions_b bs) ->
          fold_right (fun b P => good_b fl (allowed inside) inside b /\ P) True bs).
      { clear - Hbs G2 T2 C2 D2 F2. induction Hbs as [|b bs Hb Hbs IH].
        - split; [constructor|]. intros; exact Logic.I.
        - cbn [flat_map] in *. apply Forall_app in G2, T2, C2, D2, F2.
          destruct G2 as [G G2], T2 as [T T2], C2 as [C C2], D2 as [D D2], F2 as [F F2].
          destruct (Hb (conj (Forall_inv_tail (Forall_inv_tail G)) (conj T (conj C (conj D F))))) as [A B].
          destruct (IH G2 T2 C2 D2 F2) as [A' B']. split; [apply Forall_app; now split|].
          intros inside M. apply lets_app in M. split; [exact (B inside (proj1 M))|exact (B' inside (proj2 M))]. }
      assert (EL : Forall var_ok (match els with None => [] | Some body => flat_map loops_s body end) /\
        forall inside, lets inside (match els with None => [] | Some body => flat_map loops_s body end)
            (match els with None => [] | Some body => flat_map functions_s body end) ->
          match els with None => True | Some body => good_l fl (allowed inside) inside body end).
      { destruct els as [body|]; [|split; [constructor|intros; exact Logic.I]].
        apply Forall_inv_tail in G3. apply good_braces in G3.
        exact (R_list body He (conj G3 (conj T3 (conj C3 (conj D3 F3))))). }
      destruct BS as [A2 B2], EL as [A3 B3].
      change (loops_s (SIf b bs els)) with (loops_b b ++ flat_map loops_b bs
              ++ match els with None => [] | Some body => flat_map loops_s body end).
      change (functions_s (SIf b bs els)) with (functions_b b ++ flat_map functions_b bs
              ++ match els with None => [] | Some body => flat_map functions_s body end).
      split; [repeat (apply Forall_app; split); assumption|].
      intros inside M. apply lets_app in M. destruct M as [M1 M]. apply lets_app in M. destruct M as [M2 M3].
      split; [exact (B1 inside M1)|]. split; [exact (B2 inside M2)|exact (B3 inside M3)].
    - intros c body IH C. destruct C as [G [T [C [D F]]]].
      change (Forall good (toks_e c ++ braces (flat_map toks_s body))) in G. apply Forall_app in G. destruct G as [G1 G2].
      apply good_braces in G2.
      change (Forall (call_ok fl) (calls_e c ++ flat_map calls_s body)) in C. apply Forall_app in C. destruct C as [C1 C2].
      destruct (R_list body IH (conj G2 (conj T (conj C2 (conj D F))))) as [A B].
      split; [exact A|]. intros inside M. split; [exact (AO c G1 C1)|exact (B inside M)].
  Qed.
End tame.

(** ** The start *)

Lemma start_known : forall (V : Type) fl, known (V := V) fl (proper fl) lib_env
  (if negb (fl_prefix fl) then library_functions else []).
Proof.
  intros V fl. constructor.
  - intros s S. rewrite (lib_fun fl s S). destruct (find_function s _) as [c|e] eqn:E; [|reflexivity].
    destruct c as [f|l]; [|reflexivity]. exfalso. destruct (negb (fl_prefix fl)); [|discriminate]. exact (library_only s f E).
  - intros s e. apply find_err.
  - intros x I. unfold helper, lib_env. apply (assoc_map glob pyval PyLib x get_lib).
  - intros s l E. destruct (fl_prefix fl); [discriminate|]. split; [reflexivity|]. cbn [negb] in E.
    revert E. unfold library_functions. cbn [find_function].
    repeat match goal with |- context [shape_eqb s ?t] =>
      destruct (shape_eqb_spec s t) as [->|_]; [intros [= <-]; split; [reflexivity|first [discriminate|reflexivity]]|] end. discriminate.
  - intros s f E. exfalso. destruct (negb (fl_prefix fl)); [|discriminate]. exact (library_only s f E).
Qed.

(** ** The theorem *)

Theorem runs_over : forall fl src text, fl_check fl = true -> fl_prefix fl = false -> compile fl src = Ok text ->
  exists p fl', wf p = true /\ scan src = Some (toks p) /\ settled fl p fl' /\
    (keeps fl' p = true -> results_inside p = true -> tame_over fl' p = true ->
     (exists q, py_program text q) /\
     forall q, py_program text q ->
     forall (V W : Type) (rt : runtime V W), lenient rt -> forall fuel w,
       unsafe_exec rt fuel q w = mean_over rt (fl_oplib fl) (negb (fl_prefix fl')) fuel p w).
Proof.
  intros fl src text C P E. pose proof (proj1 (compile_exact fl src text C P) E) as X.
  destruct X as [p [Wp [Sc H]]].
  assert (Z : exists fl', settled fl p fl' /\ text = squeeze (program_text fl' p) /\ accepted (negb (fl_prefix fl')) p
              /\ fl_oplib fl' = fl_oplib fl).
  { destruct H as [[N [A T]]|[Y [A T]]].
    - exists fl. split; [now left|]. split; [exact T|]. rewrite P. split; [exact A|reflexivity].
    - exists (with_prefix fl). split; [now right|]. split; [exact T|]. split; [exact A|reflexivity]. }
  destruct Z as [fl' [St [T [A O]]]]. exists p, fl'. split; [exact Wp|]. split; [exact Sc|]. split; [exact St|].
  intros K R Tm. pose proof (scan_good _ _ Sc) as G.
  pose proof (program_reads fl' p G Wp K R) as Q. rewrite <- T in Q. split; [exists (py_prog fl' p); exact Q|].
  intros q Q' V W rt more fuel w. rewrite (py_program_det _ _ _ Q' Q). clear q Q' Q.
  unfold tame_over in Tm. apply andb_true_iff in Tm. destruct Tm as [Tm T5]. apply andb_true_iff in Tm. destruct Tm as [Tm T4].
  apply andb_true_iff in Tm. destruct Tm as [Tm T3]. apply andb_true_iff in Tm. destruct Tm as [T1 T2].
  pose proof (defs_ok fl p fl' G P St T3) as Dk.
  pose proof (calls_ok fl' p G (proj2 (proj2 A)) Dk) as Ck.
  unfold unsafe_exec, py_prog. rewrite T1. cbn [app].
  rewrite (over_program fl' T1 rt more fuel lib_env (if negb (fl_prefix fl') then library_functions else []) p (start_known V fl')).
  - unfold mean_over. rewrite O. reflexivity.
  - assert (QL : Forall (R_s fl') p) by (apply Forall_forall; intros s _; exact (proj1 (over_tame fl') s)).
    refine (proj2 (R_list fl' p QL _) None Logic.I).
    split; [exact G|]. split; [exact (free_untaken _ T4)|]. split; [|split; [exact Dk|]].
    + apply Forall_forall. intros s I. split; [exact (proj1 (Forall_forall _ _) Ck s I)|].
      unfold no_div in T5. apply orb_true_iff in T5. destruct T5 as [T5|T5]; [now left|right]. intros J.
      rewrite forallb_forall in T5. specialize (T5 s I). apply negb_true_iff in T5.
      destruct (shape_eqb_spec s div_shape); [discriminate|contradiction].
    + apply Forall_forall. intros f I. rewrite forallb_forall in T2. exact (T2 f I).
Qed.
