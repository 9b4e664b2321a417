(** Programs whose words and numbers Python takes are read by Python, perhaps with
    other expressions. *)
From Coq Require Import String Ascii Bool List Arith Lia.
From Verif Require Import PyBase LexModel LexSpec GramModel ParseModel SynSpec SynInd NameSpec
  ResolveModel ResolveGen HeaderFacts CompileFacts PySpec PyDet PyTrans PyLexFacts PyReady PyToks PyRead PyLines PyStmt PyProg
  PyCompile PyFlat.
Import ListNotations.
Open Scope string_scope.
Open Scope list_scope.

(** A statement without its expressions. *)
Fixpoint erase (s : pstmt) : pstmt :=
  match s with
  | PExpr _ => PExpr PDict
  | PAssign a _ => PAssign a PDict
  | PReturn _ => PReturn PDict
  | PPass => PPass
  | PFor x _ body => PFor x PDict (map erase body)
  | PIf _ body els => PIf PDict (map erase body) (option_map (map erase) els)
  | PDef _ f ps body => PDef PDict f ps (map erase body)
  end.

Lemma erase_inside : forall s, returns_inside (erase s) <-> returns_inside s.
Proof.
  fix IH 1. intros [e|a e|e| |x e body|c body els|d f ps body]; try (cbn; tauto).
  - cbn. induction body as [|s body IHb]; cbn; [tauto|]. rewrite (IH s). tauto.
  - cbn. assert (A : forall b,
      (fix all (l : list pstmt) := match l with [] => True | x :: l' => returns_inside x /\ all l' end) (map erase b) <->
      (fix all (l : list pstmt) := match l with [] => True | x :: l' => returns_inside x /\ all l' end) b).
    { induction b as [|s b IHb]; cbn; [tauto|]. rewrite (IH s). tauto. }
    rewrite (A body). destruct els as [b|]; cbn; [rewrite (A b)|]; tauto.
Qed.
Lemma erase_differ : forall s, params_differ (erase s) <-> params_differ s.
Proof.
  fix IH 1. intros [e|a e|e| |x e body|c body els|d f ps body]; try (cbn; tauto).
  - cbn. induction body as [|s body IHb]; cbn; [tauto|]. rewrite (IH s). tauto.
  - cbn. assert (A : forall b,
      (fix all (l : list pstmt) := match l with [] => True | x :: l' => params_differ x /\ all l' end) (map erase b) <->
      (fix all (l : list pstmt) := match l with [] => True | x :: l' => params_differ x /\ all l' end) b).
    { induction b as [|s b IHb]; cbn; [tauto|]. rewrite (IH s). tauto. }
    rewrite (A body). destruct els as [b|]; cbn; [rewrite (A b)|]; tauto.
  - cbn. induction body as [|s body IHb]; cbn; [tauto|]. rewrite (IH s). tauto.
Qed.
Lemma erase_targets : forall s, targets_ok (erase s) <-> targets_ok s.
Proof.
  fix IH 1. intros [e|a e|e| |x e body|c body els|d f ps body]; try (cbn; tauto).
  - cbn. induction body as [|s body IHb]; cbn; [tauto|]. rewrite (IH s). tauto.
  - cbn. assert (A : forall b,
      (fix all (l : list pstmt) := match l with [] => True | x :: l' => targets_ok x /\ all l' end) (map erase b) <->
      (fix all (l : list pstmt) := match l with [] => True | x :: l' => targets_ok x /\ all l' end) b).
    { induction b as [|s b IHb]; cbn; [tauto|]. rewrite (IH s). tauto. }
    rewrite (A body). destruct els as [b|]; cbn; [rewrite (A b)|]; tauto.
  - cbn. induction body as [|s body IHb]; cbn; [tauto|]. rewrite (IH s). tauto.
Qed.

Lemma erase_Forall : forall P : pstmt -> Prop, (forall s, P (erase s) <-> P s) ->
  forall a b, map erase a = map erase b -> Forall P b -> Forall P a.
Proof.
  intros P H a b E F. rewrite Forall_forall in *. intros s I.
  assert (J : In (erase s) (map erase b)) by (rewrite <- E; now apply in_map).
  apply in_map_iff in J. destruct J as [s' [E' J]]. rewrite <- H, <- E', H. auto.
Qed.

Section any.
  Variable structure : bool.
  Variable fl : flags.
  Local Notation ok_e := (PyReady.ok_e structure true).
  Local Notation ok_s := (PyProg.ok_s structure true fl).
  Local Notation ok_b := (PyProg.ok_b structure true fl).

  Definition readable (s : stmt) : Prop := exists q, erase q = erase (py_s fl s) /\
    forall bs ss, no_else bs -> statements bs ss -> statements (blk_s fl s ++ bs) (q :: ss).
  Definition readable_body (body : list stmt) : Prop := exists qs,
    map erase qs = map erase (body_or_pass (map (py_s fl) body)) /\
    statements (body_blocks (flat_map (blk_s fl) body)) qs.

  Lemma any_body : forall body, Forall (fun s => ok_s s = true -> readable s) body -> forallb ok_s body = true ->
    readable_body body.
  Proof.
    intros body F K.
    assert (G : exists qs, map erase qs = map erase (map (py_s fl) body) /\
      statements (flat_map (blk_s fl) body) qs /\ no_else (flat_map (blk_s fl) body)).
    { induction F as [|s body H F IH].
      { exists []. split; [reflexivity|]. split; [constructor|exact no_else_nil]. }
      cbn [forallb flat_map map] in *. apply andb_prop in K. destruct K as [K1 K2].
      destruct (IH K2) as [qs [E [A B]]], (H K1) as [q [E' A']]. exists (q :: qs).
      split; [cbn [map]; now rewrite E, E'|]. split; [now apply A'|apply (blk_no_else fl s K1)]. }
    destruct G as [qs [E [G _]]]. destruct body as [|s body].
    - exists [PPass]. split; [reflexivity|]. apply (one_line _ _ _ _ _ pass_line); constructor.
    - exists qs. split; [exact E|]. cbn [flat_map] in *. destruct (blk_some fl s) as [b [bs B]]. rewrite B in *. exact G.
  Qed.

  Lemma any_end : forall ts q, reads_as ts q -> reads 0 ts q [].
  Proof. intros ts q H. pose proof (H [] (stops_end 0)) as R. now rewrite app_nil_r in R. Qed.

  Theorem readable_gen :
    (forall s, ok_s s = true -> readable s) /\
    (forall b, ok_b b = true -> match b with Branch c body => readable_body body end).
  Proof.
    pose proof (expression_readable structure fl) as RE.
    apply stmt_ind2.
    - intros e K. destruct (RE e K) as [q Q]. exists (PExpr (call "output" [q])). split; [reflexivity|].
      intros bs ss N H. cbn [blk_s app]. apply (one_line _ _ _ _ _ (output_line fl e K)); [|exact H].
      apply expr_simple. apply read_call_end; [apply name_ok; reflexivity|]. constructor; [exact Q|constructor].
    - intros e p ps K. cbn [PyProg.ok_s] in K. apply andb_prop in K. destruct K as [K1 K2].
      destruct (RE e K1) as [q Q].
      exists (PExpr (PCall (PName "output") [(None, q); (Some "named", py_str fl (p :: ps))])). split; [reflexivity|].
      intros bs ss N H.
      cbn [blk_s app]. apply (one_line _ _ _ _ _ (named_line fl e p ps K1 K2)); [|exact H].
      apply expr_simple. unfold p_named. apply (lift 7); [lia|lia| |exact Logic.I].
      unfold call_toks. cbn [commas]. rewrite <- app_assoc. cbn [app].
      eapply rd_primary; [constructor; apply name_ok; reflexivity|]. eapply tr_call; [|constructor; exact Logic.I].
      assert (R : reads 0 (pt_e fl e ++ PO "," :: PN "named" :: PO "=" :: pt_str fl (p :: ps) ++ [PO ")"]) q
                    (PO "," :: PN "named" :: PO "=" :: pt_str fl (p :: ps) ++ [PO ")"])).
      { apply Q. apply stops_delim. cbn. tauto. }
      apply (ar_more _ _ (PN "named" :: PO "=" :: pt_str fl (p :: ps) ++ [PO ")"])).
      + apply ag_plain; [|exact R]. apply (not_keyword_arg _ _ _ _ R). discriminate.
      + apply ar_last; [|cbn; intros [X|[]]; discriminate X].
        apply ag_named; [apply name_ok; reflexivity|]. apply (str_as fl (p :: ps) K2). apply stops_delim. cbn. tauto.
      + discriminate.
    - intros h hs body F K. cbn [PyProg.ok_s] in K. apply andb_prop in K. destruct K as [K K3].
      apply andb_prop in K. destruct K as [K1 K2]. destruct (any_body body F K3) as [qs [E B]].
      set (ps := renamed 0 [] (params (h :: hs))) in *.
      exists (PDef (call "anydice_casting" []) (mangle fl (header_shape (h :: hs))) (py_params fl ps) (enter fl ps ++ qs)).
      split.
      { cbn [py_s]. rewrite own_renamed. cbn [erase]. rewrite !map_app, E. reflexivity. }
      intros bs ss N H.
      change (blk_s fl (SFunction h hs body)) with [PLine "@anydice_casting()";
         PBlock (def_head fl (h :: hs)) ((if fl_vars fl then [PLine (enter_line ps)] else []) ++ body_blocks (flat_map (blk_s fl) body))].
      cbn [app].
      eapply st_def; [exact (proj1 decorator_line)| |exact (proj1 (def_line fl (h :: hs) K1 K2))| | | |exact H].
      + apply (read_call_end "anydice_casting" [] []); [apply name_ok; reflexivity|constructor].
      + exact (ok_name_name true eq_refl _ K1).
      + exact (read_params true fl eq_refl ps [PO ":"] K2).
      + unfold enter. destruct (fl_vars fl); [|exact B].
        exact (st_line _ _ _ _ _ (proj1 (enter_is_line ps K2)) (enter_simples true ps K2) B).
    - intros x e body F K. cbn [PyProg.ok_s] in K. apply andb_prop in K. destruct K as [K K3].
      apply andb_prop in K. destruct K as [K1 K2]. destruct (any_body body F K3) as [qs [E B]].
      destruct (RE e K2) as [q Q].
      exists (PFor x q ((if fl_vars fl then [PAssign (vars_at x) (PName x)] else []) ++ qs)). split.
      { cbn [py_s erase]. rewrite !map_app, E. reflexivity. }
      intros bs ss N H. cbn [blk_s app].
      eapply st_for; [exact (proj1 (loop_line fl x e K1 K2))|exact (ok_var_name _ K1)| | |exact H].
      + apply Q. apply stops_delim. cbn. tauto.
      + destruct (fl_vars fl); [|exact B].
        exact (one_line _ _ _ _ _ (loop_var_line x K1) (loop_var_simple x K1) B).
    - intros e K. destruct (RE e K) as [q Q]. exists (PReturn q). split; [reflexivity|].
      intros bs ss N H. cbn [blk_s app]. apply (one_line _ _ _ _ _ (result_line fl e K)); [|exact H].
      apply sm_return. now apply any_end.
    - intros p ps e K. cbn [PyProg.ok_s] in K. apply andb_prop in K. destruct K as [K1 K2].
      destruct (RE e K1) as [q Q]. exists (PExpr (call "settings_set" [py_str fl (p :: ps); q])). split; [reflexivity|].
      intros bs ss N H. cbn [blk_s app]. apply (one_line _ _ _ _ _ (set_line fl e p ps K1 K2)); [|exact H].
      apply expr_simple. apply read_call_end; [apply name_ok; reflexivity|].
      constructor; [exact (str_as fl (p :: ps) K2)|]. constructor; [exact Q|constructor].
    - intros x e K. cbn [PyProg.ok_s] in K. apply andb_prop in K. destruct K as [K1 K2].
      destruct (RE e K2) as [q Q]. exists (PAssign (variable fl x) q). split; [reflexivity|].
      intros bs ss N H. cbn [blk_s app]. apply (one_line _ _ _ _ _ (assign_line fl x e K1 K2)); [|exact H].
      eapply sm_assign; [|exact (any_end _ _ Q)].
      apply (lift 7); [lia|lia| |apply stops_delim; cbn; tauto].
      apply read_var; [exact (ok_var_name _ K1)|]. apply stops_delim. cbn. tauto.
    - intros b bs' els Hb F He K. cbn [PyProg.ok_s] in K. apply andb_prop in K. destruct K as [K K3].
      apply andb_prop in K. destruct K as [K1 K2]. specialize (Hb K1). destruct b as [c body].
      cbn [PyProg.ok_b] in K1. apply andb_prop in K1. destruct K1 as [K1 _].
      destruct Hb as [qb [Eb Hb]]. destruct (RE c K1) as [q Q].
      set (EB := match els with None => [] | Some body => [PBlock "else:" (body_blocks (flat_map (blk_s fl) body))] end).
      set (PE := match els with None => None | Some body => Some (body_or_pass (map (py_s fl) body)) end).
      assert (EE : exists qe, option_map (map erase) qe = option_map (map erase) PE /\
        forall bs, no_else bs -> orelse (EB ++ bs) qe bs).
      { subst EB PE. destruct els as [eb|].
        - destruct (any_body eb He K3) as [qe [E B]]. exists (Some qe). split; [cbn [option_map]; now rewrite E|].
          intros bs N. apply oe_else; [exact (proj1 else_line)|exact B].
        - exists None. split; [reflexivity|]. intros bs N. apply oe_none; exact N. }
      assert (EL : exists qe, option_map (map erase) qe = option_map (map erase)
          (fold_right (fun b els => let '(c, body) := py_b fl b in Some [PIf c body els]) PE bs') /\
        forall bs, no_else bs -> orelse (map (blk_b fl "elif ") bs' ++ EB ++ bs) qe bs).
      { clear - F K2 EE RE. induction F as [|b bs' Hb F IH]; [exact EE|].
        cbn [forallb] in K2. apply andb_prop in K2. destruct K2 as [K1 K2]. specialize (Hb K1). destruct b as [c body].
        cbn [PyProg.ok_b] in K1. apply andb_prop in K1. destruct K1 as [K1 _].
        destruct (IH K2) as [qe [E' H']], Hb as [qb [Eb Hb]], (RE c K1) as [q Q].
        exists (Some [PIf q qb qe]). split.
        - cbn [fold_right py_b option_map map erase]. now rewrite E', Eb.
        - intros bs N. cbn [map app].
          eapply oe_elif; [exact (proj1 (if_line structure true fl "elif" c ltac:(cbn; tauto) K1))| |exact Hb|exact (H' bs N)].
          apply Q. apply stops_delim. cbn. tauto. }
      destruct EL as [qe [Ee He']]. exists (PIf q qb qe). split.
      { change (py_s fl (SIf (Branch c body) bs' els)) with (PIf (py_e fl c) (body_or_pass (map (py_s fl) body))
          (fold_right (fun b els => let '(c, body) := py_b fl b in Some [PIf c body els]) PE bs')).
        cbn [erase]. now rewrite Eb, Ee. }
      intros bs ss N H.
      change (blk_s fl (SIf (Branch c body) bs' els)) with (blk_b fl "if " (Branch c body) :: map (blk_b fl "elif ") bs' ++ EB).
      cbn [app]. rewrite <- app_assoc.
      eapply st_if; [exact (proj1 (if_line structure true fl "if" c ltac:(cbn; tauto) K1))| |exact Hb|exact (He' bs N)|exact H].
      apply Q. apply stops_delim. cbn. tauto.
    - intros c body F K. cbn [PyProg.ok_b] in K. apply andb_prop in K. exact (any_body body F (proj2 K)).
  Qed.

  (** ** Programs *)

  Theorem program_readable : forall p, forallb ok_s p = true -> exists q,
    map erase q = map erase (py_prog fl p) /\
    exists bs, blocks 0 (code_lines (squeeze (program_text fl p))) bs [] /\ statements bs q.
  Proof.
    intros p OK. destruct (any_body p (proj2 (Forall_forall _ p) (fun s _ => proj1 readable_gen s)) OK) as [qs [E B]].
    exists ((if fl_vars fl then [PAssign (PName "vars") PDict] else []) ++ qs). split.
    { unfold py_prog. now rewrite !map_app, E. }
    exists (program_blocks fl p). split; [exact (program_lines fl p OK)|].
    unfold program_blocks. destruct (fl_vars fl); [|exact B].
    apply (one_line _ _ _ _ _ vars_line); [|exact B]. eapply sm_assign.
    - apply read_name; [apply name_ok; reflexivity|]. apply stops_delim. cbn. tauto.
    - apply (lift 8); [lia|lia|constructor|exact Logic.I].
  Qed.
End any.
