(** The parser with its error recovery finds the tokens at fault. *)
From Coq Require Import String Ascii Bool List Arith Lia.
From Verif Require Import PyBase LexModel LexSpec LexFacts GramModel ParseModel LrFacts SynSpec SynInd ExprParse ExprParse2 StmtParse SynNorm ParseSound ParseLaws ResolveModel ViableFacts ReportModel ReportSpec.
Import ListNotations.
Open Scope list_scope.
Open Scope nat_scope.

(** ** The turns of the parser without recovery *)

Lemma defaults_top : forallb (fun q => match default_red (act_row q) with
                                       | Some _ => match goto_row q with [] => true | _ => false end
                                       | None => true end) all_states = true.
Proof. vm_compute. reflexivity. Qed.

Lemma no_default_below : forall s x j, path s -> trans (top_state s) x = Some j -> default_red (act_row (top_state s)) = None.
Proof.
  intros s x j P T. destruct (default_red (act_row (top_state s))) as [p|] eqn:D; [|reflexivity]. exfalso.
  pose proof (for_states _ defaults_top _ (top_dom s P)) as K. cbv beta in K. rewrite D in K.
  destruct x as [t|n]; cbn [trans] in T.
  - unfold action_at in T. rewrite D in T. discriminate T.
  - destruct (goto_row (top_state s)); [discriminate T|discriminate K].
Qed.

Lemma below_ok : forall s x j, path s -> trans (top_state s) x = Some j ->
  forallb (fun q => match default_red (act_row q) with None => true | Some _ => false end) (map fst s ++ [0]) = true.
Proof.
  intros s x j P; revert x j; induction P as [|q v s x P IH T0]; intros y k T.
  - cbn [map app forallb]. pose proof (no_default_below [] y k path_nil T) as D. cbn [top_state] in D. now rewrite D.
  - cbn [map fst app forallb]. rewrite (IH _ _ T0).
    pose proof (no_default_below ((q, v) :: s) y k (path_cons q v s x P T0) T) as D. cbn [top_state] in D. now rewrite D.
Qed.

Lemma unwinds_ok : forall s, path s -> unwinds s = true.
Proof. intros s P. destruct P as [|q v s x P T]; [reflexivity|]. exact (below_ok s x q P T). Qed.

Inductive ysteps : ystate -> ystate -> Prop :=
| ysteps_refl : forall y, ysteps y y
| ysteps_step : forall y y1 y2, ystep y = YGo y1 -> ysteps y1 y2 -> ysteps y y2.

Lemma ysteps_trans : forall a b c, ysteps a b -> ysteps b c -> ysteps a c.
Proof. intros a b c H; induction H; intros K; [exact K|]. exact (ysteps_step _ _ _ H (IHysteps K)). Qed.

Lemma ystep_same : forall s pts s1 ts1 cnt errs, parse_step s (map fst pts) = Go s1 ts1 ->
  exists a pts1, pts = a ++ pts1 /\ map fst pts1 = ts1 /\
    ystep (mkY s pts cnt errs) = YGo (mkY s1 pts1 (cnt - List.length a) errs).
Proof.
  intros s pts s1 ts1 cnt errs S. unfold parse_step in S. unfold ystep.
  destruct (action_at (top_state s) (la (map fst pts))) as [[j|p|]|]; try discriminate S.
  - destruct pts as [|[[t v] pl] pts]; [discriminate S|]. cbn [map fst] in S. injection S as <- <-.
    exists [((t, v), pl)], pts. repeat split.
  - unfold do_reduce in S. destruct (semact _ _) as [v|e]; [|discriminate S].
    destruct (assoc_nt _ _) as [j|]; [|discriminate S]. injection S as <- <-.
    exists [], pts. rewrite Nat.sub_0_r. repeat split.
Qed.

Lemma run_ysteps : forall s ts s1 ts1, run s ts s1 ts1 -> forall pts cnt errs, map fst pts = ts ->
  exists a pts1, pts = a ++ pts1 /\ map fst pts1 = ts1 /\
    ysteps (mkY s pts cnt errs) (mkY s1 pts1 (cnt - List.length a) errs).
Proof.
  intros s ts s1 ts1 R; induction R as [s ts|s ts s1 ts1 s2 ts2 S R IH]; intros pts cnt errs E.
  - exists [], pts. rewrite Nat.sub_0_r. split; [reflexivity|]. split; [exact E|apply ysteps_refl].
  - subst ts. destruct (ystep_same s pts s1 ts1 cnt errs S) as (a & pts1 & -> & E1 & Y).
    destruct (IH pts1 (cnt - List.length a) errs E1) as (b & pts2 & -> & E2 & YS).
    exists (a ++ b), pts2. split; [now rewrite app_assoc|]. split; [exact E2|].
    rewrite app_length, Nat.sub_add_distr. exact (ysteps_step _ _ _ Y YS).
Qed.

(** ** It stops *)

Definition room (y : ystate) : nat := potential (y_stack y) (map fst (y_rest y)).

Lemma ystep_room : forall y y1, path (y_stack y) -> ystep y = YGo y1 -> path (y_stack y1) /\ room y1 < room y.
Proof.
  intros [s pts cnt errs] y1 P S. cbn [y_stack] in P. unfold room. cbn [y_stack y_rest].
  assert (forall s1 ts1, parse_step s (map fst pts) = Go s1 ts1 -> path s1 /\ potential s1 ts1 < potential s (map fst pts)) as K.
  { intros s1 ts1 S1. split; [exact (step_path _ _ _ _ P S1)|exact (step_potential _ _ _ _ P S1)]. }
  destruct (parse_step s (map fst pts)) as [s1 ts1|r] eqn:PS.
  - destruct (ystep_same s pts s1 ts1 cnt errs PS) as (a & pts1 & E & E1 & Y). rewrite Y in S. injection S as <-.
    cbn [y_stack y_rest]. rewrite E1. now apply K.
  - unfold ystep in S. unfold parse_step in PS.
    destruct (action_at (top_state s) (la (map fst pts))) as [[j|p|]|]; try discriminate S.
    + destruct pts as [|[[t v] pl] pts]; [discriminate S|discriminate PS].
    + unfold do_reduce in PS. destruct (semact _ _) as [v|e]; [|discriminate S].
      destruct (assoc_nt _ _) as [j|]; [discriminate PS|discriminate S].
    + destruct pts as [|t pts]; [discriminate S|]. rewrite (unwinds_ok s P) in S. injection S as <-.
      cbn [y_stack y_rest]. split; [apply path_nil|].
      unfold potential. cbn [map list_sum fold_right top_state List.length]. rewrite map_length.
      change (list_sum []) with 0. pose proof (eps_le 0). lia.
Qed.

Lemma yrun_ends : forall y y1, ysteps y y1 -> forall r f, path (y_stack y) -> ystep y1 = r ->
  (forall y2, r <> YGo y2) -> room y < f -> yrun f y = r.
Proof.
  intros y y1 H; induction H as [y|y y1 y2 S H IH]; intros r f P E N L; (destruct f as [|f]; [lia|]); cbn [yrun].
  - rewrite E. destruct r; try reflexivity. exfalso. exact (N _ eq_refl).
  - rewrite S. destruct (ystep_room y y1 P S) as [P1 L1]. apply (IH r f P1 E N). lia.
Qed.

Lemma yacc_ends : forall ts y1 r, ysteps (mkY [] ts 0 []) y1 -> ystep y1 = r -> (forall y2, r <> YGo y2) -> yacc ts = r.
Proof.
  intros ts y1 r H E N. unfold yacc. apply (yrun_ends _ y1 H r _ path_nil E N).
  unfold room, potential. cbn [y_stack y_rest map top_state]. rewrite map_length.
  change (list_sum []) with 0. pose proof (eps_le 0). lia.
Qed.

(** ** What has been read begins a program *)

Lemma la_app_ne : forall a x y, a <> [] -> la (a ++ x) = la (a ++ y).
Proof. intros [|[t v] a] x y N; [contradiction|reflexivity]. Qed.

Lemma step_cases : forall s ts s1 ts1, parse_step s ts = Go s1 ts1 ->
  (exists t, ts = t :: ts1 /\ forall x, parse_step s (t :: x) = Go s1 x) \/
  (ts1 = ts /\ forall x, la x = la ts -> parse_step s x = Go s1 x).
Proof.
  intros s ts s1 ts1 S. unfold parse_step in S |- *.
  destruct (action_at (top_state s) (la ts)) as [[j|p|]|] eqn:A; try discriminate S.
  - left. destruct ts as [|[t v] ts]; [discriminate S|]. injection S as <- <-. exists (t, v). split; [reflexivity|].
    intros x. cbn [la] in A |- *. now rewrite A.
  - right. unfold do_reduce in *. destruct (semact _ _) as [v|e] eqn:SV; [|discriminate S].
    destruct (assoc_nt _ _) as [j|] eqn:G; [|discriminate S]. injection S as <- <-. split; [reflexivity|].
    intros x L. rewrite L, A, SV, G. reflexivity.
Qed.

(** Just after the last token of [a] the parser has seen nothing else. *)
Lemma read_only : forall s ts s1 ts1, run s ts s1 ts1 -> forall a, ts = a ++ ts1 -> a <> [] ->
  exists s0, forall x, run s (a ++ x) s0 x.
Proof.
  intros s ts s1 ts1 R; induction R as [s ts|s ts s1 ts1 s2 ts2 S R IH]; intros a E N.
  - exfalso. apply N. apply (f_equal (@List.length tok)) in E. rewrite app_length in E. destruct a; [reflexivity|cbn in E; lia].
  - destruct (step_cases _ _ _ _ S) as [(t & -> & K)|[-> K]].
    + destruct a as [|t' a]; [contradiction|]. cbn [app] in E. injection E as <- E.
      destruct a as [|t1 a].
      * exists s1. intros x. cbn [app]. apply (run_step _ _ _ _ _ _ (K x)). apply run_refl.
      * destruct (IH (t1 :: a) E) as [s0 H]; [discriminate|]. exists s0. intros x.
        exact (run_step _ _ _ _ _ _ (K _) (H x)).
    + destruct (IH a E N) as [s0 H]. exists s0. intros x.
      apply (run_step s (a ++ x) s1 (a ++ x)); [|apply H]. apply K. rewrite E. now apply la_app_ne.
Qed.

Lemma begins_read : forall a b s1, Forall good a -> run [] (a ++ b) s1 b -> begins a.
Proof.
  intros a b s1 G R. destruct a as [|k a]; [exists [], []; now split|].
  destruct (read_only _ _ _ _ R (k :: a) eq_refl) as [s0 H]; [discriminate|].
  destruct (run_holds I I_token I_production _ _ _ _ (H []) [] path_nil (holds_nil I)) as (u & P & HO & E).
  rewrite !app_nil_r in E. cbn [app] in E. subst u.
  assert (s0 <> []) as NE by (intros ->; inversion HO).
  destruct (viable s0 _ P HO G NE) as (c & v & GC & RC).
  pose proof (run_trans _ _ _ _ _ _ (H c) RC) as RR.
  assert (parse ((k :: a) ++ c) = Ok v) as PA by (apply (parse_done _ _ _ _ RR); vm_compute; reflexivity).
  apply parse_exact in PA; [|apply Forall_app; now split].
  destruct PA as (p & W & T & _). exists p, c. now split.
Qed.

Lemma begins_prefix : forall a b, begins (a ++ b) -> begins a.
Proof. intros a b (p & w & W & E). exists p, (b ++ w). split; [exact W|]. now rewrite E, app_assoc. Qed.

Lemma same_read : forall s ts s1 ts1, run s ts s1 ts1 -> forall a t b w, ts = a ++ t :: b -> ts1 = t :: b ->
  run s (a ++ t :: w) s1 (t :: w).
Proof.
  intros s ts s1 ts1 R; induction R as [s ts|s ts s1 ts1 s2 ts2 S R IH]; intros a t b w E E1.
  - subst ts. assert (a = []) as ->; [|apply run_refl].
    apply (f_equal (@List.length tok)) in E1. rewrite app_length in E1. destruct a; [reflexivity|cbn in E1; lia].
  - destruct (step_cases _ _ _ _ S) as [(t0 & -> & K)|[-> K]].
    + destruct a as [|t' a]; cbn [app] in E.
      * exfalso. injection E as -> ->. subst ts2.
        assert (forall s ts s' ts', run s ts s' ts' -> List.length ts' <= List.length ts) as LEN.
        { clear. intros s ts s' ts' R; induction R as [|s ts s1 ts1 s2 ts2 S R IH]; [lia|].
          destruct (step_cases _ _ _ _ S) as [(t & -> & _)|[-> _]]; cbn [List.length]; lia. }
        pose proof (LEN _ _ _ _ R) as L. cbn [List.length] in L. lia.
      * injection E as <- E. cbn [app]. exact (run_step _ _ _ _ _ _ (K _) (IH a t b w E E1)).
    + apply (run_step s (a ++ t :: w) s1 (a ++ t :: w)); [|exact (IH a t b w E E1)].
      apply K. rewrite E. destruct a as [|[t1 v1] a]; [destruct t; reflexivity|reflexivity].
Qed.

Lemma stuck_not_begins : forall a t b s1, run [] (a ++ t :: b) s1 (t :: b) ->
  (forall w, exists e, parse_step s1 (t :: w) = Done (Err e)) -> ~ begins (a ++ [t]).
Proof.
  intros a t b s1 R D (p & w & W & E). rewrite <- app_assoc in E. cbn [app] in E.
  pose proof (same_read _ _ _ _ R a t b w eq_refl eq_refl) as R1. destruct (D w) as [e DE].
  pose proof (parse_done _ _ _ _ R1 DE) as PE. pose proof (parse_complete p W) as PC. rewrite E, PE in PC. discriminate PC.
Qed.

(** ** The tokens at fault *)

Lemma crash_later : forall a ts, crash_shape ts -> crash_shape (a ++ ts).
Proof.
  intros a ts [(pre & post & ->)|(pre & cs & post & ->)]; [left; exists (a ++ pre), post|right; exists (a ++ pre), cs, post];
    now rewrite <- app_assoc.
Qed.

Lemma end_no_crash : forallb (fun q => match action_at q tEnd with
                                       | Some (Reduce p) => negb (Nat.eqb p 50) && negb (Nat.eqb p 115)
                                       | _ => true end) all_states = true.
Proof. vm_compute. reflexivity. Qed.

Definition finished (first : bool) (pts errs : list (tok * place)) (r : youtcome) : Prop :=
  match r with
  | YGo _ => False
  | YReturn v es' =>
      exists es, es' = errs ++ es /\ faults first pts es /\
        (begins (map fst pts) ->
          match v with
          | VNode n => exists p, wf p = true /\ toks p = map fst pts /\ n = tree p
          | VNone => ~ a_program (map fst pts)
          | _ => False
          end)
  | YRaise e => e = IndexErr /\ ~ begins (map fst pts) /\ crash_shape (map fst pts)
  end.

Lemma recovery : forall n pts, List.length pts <= n -> Forall good (map fst pts) -> forall (first : bool) errs,
  exists y r, ysteps (mkY [] pts (if first then 0 else 3) errs) y /\ ystep y = r /\ finished first pts errs r.
Proof.
  induction n as [n IH] using lt_wf_ind. intros pts LN G first errs.
  set (ts := map fst pts) in *.
  destruct (parse_inv ts) as (s1 & ts1 & R & D).
  destruct (run_ysteps _ _ _ _ R pts (if first then 0 else 3) errs eq_refl) as (a & pts1 & E & E1 & YS).
  destruct (run_holds I I_token I_production _ _ _ _ R [] path_nil (holds_nil I)) as (u & P & HO & EU).
  cbn [app] in EU. assert (u = map fst a) as ->.
  { unfold ts in EU. rewrite E, map_app, E1 in EU. now apply app_inv_tail in EU. }
  assert (Forall good (map fst a) /\ Forall good ts1) as [GA G1] by (rewrite <- EU in G; now apply Forall_app in G).
  pose proof D as D0. unfold parse_step in D.
  destruct (action_at (top_state s1) (la ts1)) as [[j|p|]|] eqn:A.
  - (* shift *) exfalso. destruct ts1 as [|[t v] ts1]; [|discriminate D].
    injection D as D. symmetry in D. destruct (parse_errors ts _ G D) as [H|[H _]]; discriminate H.
  - (* reduce *)
    unfold do_reduce in D. pose proof (reduce_ok _ _ _ P A) as RO. cbv zeta in RO. destruct RO as (PB & LE & M & (j & J)).
    destruct (semact (p_fun (nprod p)) (rev (map snd (firstn (List.length (p_rhs (nprod p))) s1)))) as [v|e] eqn:SV;
      [rewrite J in D; discriminate D|].
    injection D as D. symmetry in D.
    assert (e = IndexErr /\ (p = 50 \/ p = 115)) as [-> PP].
    { destruct (holds_split I _ _ _ HO LE) as (u0 & tss & A1 & A2 & A3 & A4). rewrite M in A4.
      assert (Forall good (concat tss)) as G2 by (rewrite A2 in GA; apply Forall_app in GA; tauto).
      pose proof (all_sound p PB tss _ A4) as K.
      assert (List.length tss = List.length (rev (map snd (firstn (List.length (p_rhs (nprod p))) s1)))) as L
        by (rewrite rev_length, map_length, firstn_length, A3; lia).
      specialize (K L G2). rewrite SV in K. destruct K as [-> [->|[-> _]]]; split; auto. }
    exists (mkY s1 pts1 ((if first then 0 else 3) - List.length a) errs), (YRaise IndexErr).
    split; [exact YS|]. split.
    { unfold ystep. rewrite E1, A. cbv zeta. now rewrite SV. }
    split; [reflexivity|]. split.
    + intros B. destruct ts1 as [|t b].
      * pose proof (for_states _ end_no_crash _ (top_dom s1 P)) as K. cbv beta in K. cbn [la] in A. rewrite A in K.
        destruct PP as [->| ->]; discriminate K.
      * assert (run [] (map fst a ++ t :: b) s1 (t :: b)) as R' by (now rewrite EU).
        apply (stuck_not_begins (map fst a) t b s1 R').
        -- intros w. exists IndexErr. unfold parse_step, do_reduce. destruct t as [t tv]. cbn [la] in A |- *.
           now rewrite A, SV.
        -- fold ts in B. rewrite <- EU in B. apply (begins_prefix _ b). now rewrite <- app_assoc.
    + fold ts. destruct (parse_errors ts _ G D) as [K|[_ K]]; [discriminate K|exact K].
  - (* accept *)
    injection D as D. symmetry in D. apply parse_exact in D; [|exact G]. destruct D as (p & W & T & V).
    exists (mkY s1 pts1 ((if first then 0 else 3) - List.length a) errs), (YReturn (VNode (tree p)) errs).
    split; [exact YS|]. split.
    { unfold ystep. rewrite E1, A. now rewrite V. }
    exists []. split; [now rewrite app_nil_r|]. split.
    { apply faults_none. exists p, []. rewrite app_nil_r. now split. }
    intros _. exists p. now repeat split.
  - (* stuck *)
    injection D as D. symmetry in D.
    destruct pts1 as [|t b].
    + cbn [map] in E1. subst ts1. rewrite app_nil_r in EU, E. subst pts.
      exists (mkY s1 [] ((if first then 0 else 3) - List.length a) errs), (YReturn VNone errs).
      split; [exact YS|]. split; [unfold ystep; cbn [map]; now rewrite A|].
      exists []. split; [now rewrite app_nil_r|]. split.
      { apply faults_none. apply (begins_read _ [] s1); [exact GA|]. now rewrite app_nil_r. }
      intros _ (p & W & T). pose proof (parse_complete p W) as PC. rewrite T in PC. fold ts in PC. rewrite D in PC. discriminate PC.
    + cbn [map] in E1. subst ts1.
      set (cnt := (if first then 0 else 3) - List.length a).
      set (errs' := if Nat.eqb cnt 0 then errs ++ [t] else errs).
      assert (ystep (mkY s1 (t :: b) cnt errs) = YGo (mkY [] b 3 errs')) as ST.
      { unfold ystep. cbn [map]. rewrite A, (unwinds_ok s1 P). reflexivity. }
      assert (List.length b < n) as LB.
      { rewrite E, app_length in LN. cbn [List.length] in LN. lia. }
      destruct (IH (List.length b) LB b (le_n _)) with (first := false) (errs := errs') as (y & r & Y1 & Y2 & F).
      { now inversion G1. }
      exists y, r. split.
      { apply (ysteps_trans _ _ _ YS). exact (ysteps_step _ _ _ ST Y1). }
      split; [exact Y2|].
      assert (begins (map fst a)) as BA.
      { apply (begins_read _ (map fst (t :: b)) s1); [exact GA|]. cbn [map]. now rewrite EU. }
      assert (~ begins (map fst a ++ [fst t])) as NB.
      { apply (stuck_not_begins _ _ (map fst b) s1); [now rewrite EU|].
        intros w. exists AssertErr. unfold parse_step. destruct t as [[t tv] pl]. cbn [fst la map] in A |- *. now rewrite A. }
      assert (~ begins ts) as NT.
      { intros B. apply NB. unfold ts in B. rewrite E, map_app in B. cbn [map] in B.
        apply (begins_prefix _ (map fst b)). now rewrite <- app_assoc. }
      unfold finished in *. destruct r as [y'|v es'|e]; [exact F| |].
      * destruct F as (es & EE & FF & _).
        exists ((if first || Nat.leb 3 (List.length a) then [t] else []) ++ es). split.
        { rewrite EE. unfold errs', cnt. destruct first; cbn [orb].
          - cbn [Nat.sub Nat.eqb]. now rewrite <- app_assoc.
          - destruct (Nat.leb 3 (List.length a)) eqn:L3.
            + apply Nat.leb_le in L3. replace (3 - List.length a) with 0 by lia. cbn [Nat.eqb]. now rewrite <- app_assoc.
            + apply Nat.leb_gt in L3. destruct (Nat.eqb (3 - List.length a) 0) eqn:Z; [apply Nat.eqb_eq in Z; lia|reflexivity]. }
        split; [rewrite E; now apply faults_some|]. intros B. contradiction.
      * destruct F as (-> & NBB & CS). split; [reflexivity|]. split; [exact NT|].
        unfold ts. rewrite E, map_app. cbn [map]. change (fst t :: map fst b) with ([fst t] ++ map fst b).
        rewrite app_assoc. now apply crash_later.
Qed.

Theorem yacc_finished : forall pts, Forall good (map fst pts) -> finished true pts [] (yacc pts).
Proof.
  intros pts G. destruct (recovery _ pts (le_n _) G true []) as (y & r & Y1 & Y2 & F).
  rewrite (yacc_ends pts y r Y1 Y2); [exact F|]. intros y2 ->. exact F.
Qed.
