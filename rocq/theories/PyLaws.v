(** Where the generated text keeps the structure of the source, and where not. *)
From Coq Require Import String Ascii Bool List Arith Lia.
From Verif Require Import PyBase LexModel LexSpec LexFacts GramModel ParseModel SynSpec SynInd ParseSound ParseLaws NameSpec
  ResolveModel ResolveGen CompileFacts PySpec PyDet PyTrans PyLexFacts PyReady PyToks PyRead.
Import ListNotations.
Open Scope string_scope.
Open Scope list_scope.

(** [written fl e s]: [s] is the Python text generated for [e]. *)
Definition written (fl : flags) (e : expr) (s : string) : Prop :=
  forall st, exists st', resolve_node fl (node_e e) st = Ok (s, st').

Lemma written_gen : forall fl e, written fl e (gen_e fl e).
Proof. intros fl e st. eexists. apply (proj1 (expr_gen fl)). Qed.

Lemma written_det : forall fl e s s', written fl e s -> written fl e s' -> s = s'.
Proof.
  intros fl e s s' A B. destruct (A reset_state) as [x X]. destruct (B reset_state) as [y Y]. congruence.
Qed.

(** Python reads the text generated for [e] as [q], and as nothing else. *)
Definition comes_out (fl : flags) (e : expr) (q : pexpr) : Prop :=
  exists s, written fl e s /\ forall q', py_expression s q' <-> q' = q.

Lemma comes_out_read : forall fl e q, py_expression (gen_e fl e) q -> comes_out fl e q.
Proof.
  intros fl e q H. exists (gen_e fl e). split; [apply written_gen|]. intros q'. split.
  - intros H'. exact (py_expression_det _ _ _ H' H).
  - intros ->. exact H.
Qed.

Theorem kept : forall fl e, Forall good (toks_e e) -> wf_e e = true -> keeps_e fl e = true ->
  comes_out fl e (py_e fl e).
Proof.
  intros fl e G W K. apply comes_out_read, expression_reads. destruct (proj1 (keeps_plain fl) e K) as [S V].
  exact (proj1 (ready true true fl) e G W S (fun _ => K) (fun _ => V)).
Qed.

(** ** All brackets *)

Fixpoint leaves (x : optree) : list term :=
  match x with Leaf t => [t] | Op _ l r => leaves l ++ leaves r end.

Definition leaf_ok (fl : flags) (t : term) : Prop :=
  Forall good (toks_t t) /\ wf_t t = true /\ keeps_t fl t = true.

Lemma brackets_gone : forall fl x, py_e fl (bracketed x) = py_e fl (bare x).
Proof.
  intros fl x. induction x as [t|o l IHl r IHr]; [reflexivity|].
  change (py_bin fl o (py_e fl (bracketed l)) (py_e fl (bracketed r))
          = py_bin fl o (py_e fl (bare l)) (py_e fl (bare r))). now rewrite IHl, IHr.
Qed.

Lemma op_good : forall o, Forall good (op_toks o).
Proof. destruct o; repeat constructor. Qed.

Theorem brackets_keep : forall fl x, Forall (leaf_ok fl) (leaves x) ->
  comes_out fl (bracketed x) (py_e fl (bare x)).
Proof.
  intros fl x F. rewrite <- brackets_gone. apply kept.
  - induction x as [t|o l IHl r IHr]; cbn [bracketed leaves] in *.
    + inversion F as [|? ? [G _]]; subst. exact G.
    + apply Forall_app in F. destruct F as [Fl Fr]. change (Forall good (((tLPAREN, "(") :: toks_e (bracketed l) ++ [(tRPAREN, ")")]) ++ op_toks o
        ++ (tLPAREN, "(") :: toks_e (bracketed r) ++ [(tRPAREN, ")")])).
      apply Forall_app. split; [|apply Forall_app; split; [apply op_good|]];
        (constructor; [constructor|]); (apply Forall_app; split; [auto|repeat constructor]).
  - apply bracketed_wf. induction x as [t|o l IHl r IHr]; cbn [leaves_wf leaves] in *.
    + inversion F as [|? ? [_ [W _]]]; subst. exact W.
    + apply Forall_app in F. destruct F as [Fl Fr]. now rewrite IHl, IHr.
  - induction x as [t|o l IHl r IHr]; cbn [bracketed leaves] in *.
    + inversion F as [|? ? [_ [_ K]]]; subst. exact K.
    + apply Forall_app in F. destruct F as [Fl Fr]. change (keeps_op fl o (ETerm (TGroup (bracketed l))) (ETerm (TGroup (bracketed r)))
        && keeps_e fl (bracketed l) && keeps_e fl (bracketed r) = true). rewrite IHl, IHr by assumption.
      rewrite !andb_true_r. destruct o; cbn; rewrite ?orb_true_r; reflexivity.
Qed.

(** ** Patterns that are read otherwise *)

(** An operand without a sign in front. *)
Definition operand (fl : flags) (t : term) : Prop := leaf_ok fl t /\ signed fl (ETerm t) = false.

Section misread.
  Variable fl : flags.

  Lemma operand_ok : forall t, operand fl t -> ok_t true true fl t = true /\ plt fl t = 7.
  Proof.
    intros t [[G [W K]] S]. destruct (proj1 (proj2 (keeps_plain fl)) t K) as [A V]. split.
    { exact (proj1 (proj2 (ready true true fl)) t G W A (fun _ => K) (fun _ => V)). }
    destruct t; try reflexivity. cbn [signed plt] in *. destruct u; try discriminate.
    destruct (fl_oplib fl); [reflexivity|discriminate].
  Qed.

  Lemma operand_lexes : forall t, operand fl t -> lexes (gen_t fl t) (pt_t fl t).
  Proof. intros t O. exact (proj1 (proj2 (lex_gen fl)) t (proj1 (operand_ok t O))). Qed.

  Lemma operand_reads : forall t, operand fl t -> forall k r, k <= 7 -> stops k r ->
    reads k (pt_t fl t ++ r) (py_t fl t) r.
  Proof.
    intros t O k r L S. destruct (operand_ok t O) as [K P]. apply (proj1 (proj2 (read_gen fl)) t K); [lia|exact S].
  Qed.

  Lemma stops_op : forall k o r, ~ In o (cont k) -> stops k (PO o :: r).
  Proof. intros k o r N. exact N. Qed.

  Definition infix (o : binop) : Prop := op_function fl o = None /\ o <> OAt.

  Lemma infix_toks : forall o a b, infix o -> pt_bin fl o a b = a ++ PO (py_operator o) :: b.
  Proof. intros o a b [E N]. unfold pt_bin. rewrite E. destruct o; congruence. Qed.

  (** The tokens of a op b op' c, however grouped. *)
  Lemma left_toks : forall o o' a b c, infix o -> infix o' -> operand fl a -> operand fl b -> operand fl c ->
    py_lex (gen_e fl (EBin o' (EBin o (ETerm a) (ETerm b)) (ETerm c)))
    = Some (pt_t fl a ++ PO (py_operator o) :: pt_t fl b ++ PO (py_operator o') :: pt_t fl c).
  Proof.
    intros o o' a b c I I' A B C.
    pose proof (lex_bin fl o _ _ _ _ (operand_lexes a A) (operand_lexes b B)) as L1.
    pose proof (lex_bin fl o' _ _ _ _ L1 (operand_lexes c C)) as L2.
    apply lexes_all in L2. rewrite infix_toks in L2 by exact I'. rewrite infix_toks in L2 by exact I.
    rewrite <- app_assoc in L2. exact L2.
  Qed.

  Lemma right_toks : forall o o' a b c, infix o -> infix o' -> operand fl a -> operand fl b -> operand fl c ->
    py_lex (gen_e fl (EBin o (ETerm a) (EBin o' (ETerm b) (ETerm c))))
    = Some (pt_t fl a ++ PO (py_operator o) :: pt_t fl b ++ PO (py_operator o') :: pt_t fl c).
  Proof.
    intros o o' a b c I I' A B C.
    pose proof (lex_bin fl o' _ _ _ _ (operand_lexes b B) (operand_lexes c C)) as L1.
    pose proof (lex_bin fl o _ _ _ _ (operand_lexes a A) L1) as L2.
    apply lexes_all in L2. rewrite infix_toks in L2 by exact I. rewrite infix_toks in L2 by exact I'. exact L2.
  Qed.

  Lemma self_left : forall a o b, a <> PBinary o a b.
  Proof.
    induction a; intros o' b; try discriminate. intros X. injection X as _ X _. exact (IHa1 _ _ X).
  Qed.

  Lemma py_infix : forall o l r, infix o -> py_e fl (EBin o l r)
    = if is_comparison o then PCompare (py_e fl l) [(py_operator o, py_e fl r)]
      else PBinary (py_operator o) (py_e fl l) (py_e fl r).
  Proof.
    intros o l r [E _]. change (py_e fl (EBin o l r)) with (py_bin fl o (py_e fl l) (py_e fl r)).
    unfold py_bin. now rewrite E.
  Qed.

  (** a^b^c *)
  Theorem power_misread : forall a b c, operand fl a -> operand fl b -> operand fl c ->
    let e := EBin OPow (EBin OPow (ETerm a) (ETerm b)) (ETerm c) in
    let q := PBinary "**" (py_t fl a) (PBinary "**" (py_t fl b) (py_t fl c)) in
    comes_out fl e q /\ q <> py_e fl e.
  Proof.
    intros a b c A B C e q.
    assert (I : infix OPow) by (split; [unfold op_function; now destruct (fl_oplib fl)|discriminate]).
    split.
    - apply comes_out_read. eexists. split; [exact (left_toks OPow OPow a b c I I A B C)|].
      apply (lift 6); [lia|lia| |apply stops_end]. unfold q. eapply rd_pow.
      + apply (operand_reads a A 7 (PO "**" :: _)); [lia|]. cbn. intuition discriminate.
      + apply (lift 6); [lia|lia| |apply stops_end]. eapply rd_pow.
        * apply (operand_reads b B 7 (PO "**" :: _)); [lia|]. cbn. intuition discriminate.
        * rewrite <- (app_nil_r (pt_t fl c)). apply (operand_reads c C 5); [lia|apply stops_end].
    - unfold q, e. rewrite !(py_infix OPow) by exact I. cbn [is_comparison py_operator].
      change (py_e fl (ETerm a)) with (py_t fl a). intros X. injection X as X _. exact (self_left _ _ _ X).
  Qed.

  Lemma cmp_infix : forall o, is_comparison o = true -> infix o.
  Proof. intros o K. split; [unfold op_function; destruct (fl_oplib fl); destruct o; try discriminate; reflexivity|]. intros ->. discriminate. Qed.

  Lemma cmp_in : forall o, is_comparison o = true -> In (py_operator o) comparisons.
  Proof. destruct o; try discriminate; intros _; cbn; tauto. Qed.

  Lemma cmp_stops : forall o r, is_comparison o = true -> stops 1 (PO (py_operator o) :: r).
  Proof. destruct o; try discriminate; intros r _ X; cbn in X; intuition discriminate. Qed.

  (** a < b < c *)
  Theorem chain_misread : forall o o' a b c, is_comparison o = true -> is_comparison o' = true ->
    operand fl a -> operand fl b -> operand fl c ->
    let e := EBin o' (EBin o (ETerm a) (ETerm b)) (ETerm c) in
    let q := PCompare (py_t fl a) [(py_operator o, py_t fl b); (py_operator o', py_t fl c)] in
    comes_out fl e q /\ q <> py_e fl e.
  Proof.
    intros o o' a b c K K' A B C e q. split.
    - apply comes_out_read. eexists. split; [exact (left_toks o o' a b c (cmp_infix o K) (cmp_infix o' K') A B C)|].
      refine (rd_cmp _ (py_t fl a) _ [(py_operator o, py_t fl b); (py_operator o', py_t fl c)] [] _ _).
      + apply (operand_reads a A 1); [lia|now apply cmp_stops].
      + apply ch_more with (r := PO (py_operator o') :: pt_t fl c); [now apply cmp_in| |].
        * apply (operand_reads b B 1); [lia|now apply cmp_stops].
        * apply ch_more with (r := []); [now apply cmp_in| |constructor; exact Logic.I].
          rewrite <- (app_nil_r (pt_t fl c)). apply (operand_reads c C 1); [lia|apply stops_end].
    - unfold q, e. rewrite (py_infix o') by (now apply cmp_infix). rewrite K'. discriminate.
  Qed.

  Definition logical (o : binop) : Prop := o = OAnd \/ o = OOr.

  Lemma logical_infix : forall o, fl_oplib fl = false -> logical o -> infix o.
  Proof. intros o E [-> | ->]; (split; [unfold op_function; now rewrite E|discriminate]). Qed.

  (** a = b & c *)
  Theorem logical_right_misread : forall o u a b c, fl_oplib fl = false -> is_comparison o = true -> logical u ->
    operand fl a -> operand fl b -> operand fl c ->
    let e := EBin u (EBin o (ETerm a) (ETerm b)) (ETerm c) in
    let q := PCompare (py_t fl a) [(py_operator o, PBinary (py_operator u) (py_t fl b) (py_t fl c))] in
    comes_out fl e q /\ q <> py_e fl e.
  Proof.
    intros o u a b c E K U A B C e q. split.
    - apply comes_out_read. eexists. split; [exact (left_toks o u a b c (cmp_infix o K) (logical_infix u E U) A B C)|].
      refine (rd_cmp _ (py_t fl a) _ [(py_operator o, PBinary (py_operator u) (py_t fl b) (py_t fl c))] [] _ _).
      + apply (operand_reads a A 1); [lia|now apply cmp_stops].
      + apply ch_more with (r := []); [now apply cmp_in| |constructor; exact Logic.I].
        assert (L : forall k, In (py_operator u) (level_ops k) -> 1 <= k <= 2 ->
                  stops (S k) (PO (py_operator u) :: pt_t fl c) ->
                  reads k (pt_t fl b ++ PO (py_operator u) :: pt_t fl c) (PBinary (py_operator u) (py_t fl b) (py_t fl c)) []).
        { intros k I Kk S. eapply rd_bin; [lia|apply (operand_reads b B (Datatypes.S k)); [lia|exact S]|].
          apply lp_more with (b := py_t fl c) (r := []); [exact I| |constructor; exact Logic.I].
          rewrite <- (app_nil_r (pt_t fl c)). apply (operand_reads c C); [lia|apply stops_end]. }
        destruct U as [-> | ->].
        * apply (lift 2); [lia|lia| |apply stops_end]. apply L; [cbn; tauto|lia|]. intros X; cbn in X; intuition discriminate.
        * apply L; [cbn; tauto|lia|]. intros X; cbn in X; intuition discriminate.
    - unfold q, e. rewrite (py_infix u) by (now apply logical_infix).
      destruct U as [-> | ->]; discriminate.
  Qed.

  (** a & b = c *)
  Theorem logical_left_misread : forall o u a b c, fl_oplib fl = false -> is_comparison o = true -> logical u ->
    operand fl a -> operand fl b -> operand fl c ->
    let e := EBin u (ETerm a) (EBin o (ETerm b) (ETerm c)) in
    let q := PCompare (PBinary (py_operator u) (py_t fl a) (py_t fl b)) [(py_operator o, py_t fl c)] in
    comes_out fl e q /\ q <> py_e fl e.
  Proof.
    intros o u a b c E K U A B C e q. split.
    - apply comes_out_read. eexists. split; [exact (right_toks u o a b c (logical_infix u E U) (cmp_infix o K) A B C)|].
      refine (rd_cmp _ (PBinary (py_operator u) (py_t fl a) (py_t fl b)) (PO (py_operator o) :: pt_t fl c)
                [(py_operator o, py_t fl c)] [] _ _).
      + assert (L : forall k, In (py_operator u) (level_ops k) -> 1 <= k <= 2 ->
                  (forall r, stops (S k) (PO (py_operator u) :: r)) ->
                  reads k (pt_t fl a ++ PO (py_operator u) :: pt_t fl b ++ PO (py_operator o) :: pt_t fl c)
                        (PBinary (py_operator u) (py_t fl a) (py_t fl b)) (PO (py_operator o) :: pt_t fl c)).
        { intros k I Kk S. eapply rd_bin; [lia|apply (operand_reads a A (Datatypes.S k)); [lia|apply S]|].
          apply lp_more with (b := py_t fl b) (r := PO (py_operator o) :: pt_t fl c); [exact I| |constructor].
          - apply (operand_reads b B); [lia|]. apply (stops_le 1); [lia|now apply cmp_stops].
          - destruct o; try discriminate; destruct k as [|[|[|]]]; try lia; intros X; cbn in X; intuition discriminate. }
        destruct U as [-> | ->].
        * apply (lift 2); [lia|lia| |now apply cmp_stops]. apply L; [cbn; tauto|lia|]. intros r X; cbn in X; intuition discriminate.
        * apply L; [cbn; tauto|lia|]. intros r X; cbn in X; intuition discriminate.
      + apply ch_more with (r := []); [now apply cmp_in| |constructor; exact Logic.I].
        rewrite <- (app_nil_r (pt_t fl c)). apply (operand_reads c C 1); [lia|apply stops_end].
    - unfold q, e. rewrite (py_infix u) by (now apply logical_infix).
      destruct U as [-> | ->]; discriminate.
  Qed.

  (** -a^b *)
  Theorem sign_misread : forall u a b, u = UPos \/ u = UNeg -> operand fl a -> operand fl b ->
    let e := EBin OPow (ETerm (TUn u a)) (ETerm b) in
    let q := PUnary (snd (un_tok u)) (PBinary "**" (py_t fl a) (py_t fl b)) in
    comes_out fl e q /\ q <> py_e fl e.
  Proof.
    intros u a b U A B e q.
    assert (I : infix OPow) by (split; [unfold op_function; now destruct (fl_oplib fl)|discriminate]).
    split.
    - apply comes_out_read. exists (PO (snd (un_tok u)) :: pt_t fl a ++ PO "**" :: pt_t fl b). split.
      + pose proof (lex_un fl u _ _ (operand_lexes a A)) as L1.
        pose proof (lex_bin fl OPow _ _ _ _ L1 (operand_lexes b B)) as L2.
        apply lexes_all in L2. rewrite infix_toks in L2 by exact I. destruct U as [-> | ->]; exact L2.
      + apply (lift 5); [lia|lia| |apply stops_end]. unfold q. apply rd_un.
        * destruct U as [-> | ->]; cbn; tauto.
        * apply (lift 6); [lia|lia| |apply stops_end]. eapply rd_pow.
          -- apply (operand_reads a A 7 (PO "**" :: _)); [lia|]. cbn. intuition discriminate.
          -- rewrite <- (app_nil_r (pt_t fl b)). apply (operand_reads b B 5); [lia|apply stops_end].
    - unfold q, e. rewrite (py_infix OPow) by exact I. discriminate.
  Qed.
End misread.

(** Leading zeros. *)
Theorem zeros_unread : forall fl s, good (tNUMBER, s) -> plain_number s = false ->
  written fl (ETerm (TNum s)) s /\ forall q, ~ py_expression s q.
Proof.
  intros fl s G P. split; [exact (written_gen fl (ETerm (TNum s)))|]. intros q [ts [L R]].
  apply good_number in G. pose proof (lexes_all _ _ (lex_number s (digits_number s G))) as L'.
  rewrite L' in L. injection L as <-.
  assert (B : forall k e, reads k [PNum s] e [] -> py_number s).
  { clear - G. intros k e R.
    pose proof (proj1 (reads_mut (fun k ts e r => forall r0, ts = PNum s :: r0 -> py_number s)
      (fun _ _ _ => True) (fun _ _ _ _ _ => True) (fun _ _ _ _ => True) (fun _ _ _ => True) (fun _ _ _ => True) (fun _ _ _ => True)
      ltac:(intros; eauto) ltac:(intros; eauto) ltac:(intros; discriminate) ltac:(intros; eauto) ltac:(intros; eauto)
      ltac:(intros; eauto) ltac:(intros; eauto) ltac:(intros; discriminate)
      ltac:(intros ? ? H ? X; injection X as -> _; exact H)
      ltac:(intros; discriminate) ltac:(intros; discriminate) ltac:(intros; discriminate) ltac:(intros; discriminate) ltac:(intros; discriminate)
      ltac:(exact (fun _ _ => Logic.I)) ltac:(intros; exact Logic.I) ltac:(intros; exact Logic.I) ltac:(intros; exact Logic.I)
      ltac:(intros; exact Logic.I) ltac:(intros; exact Logic.I) ltac:(intros; exact Logic.I) ltac:(intros; exact Logic.I)
      ltac:(intros; exact Logic.I) ltac:(intros; exact Logic.I) ltac:(intros; exact Logic.I) ltac:(intros; exact Logic.I)
      ltac:(intros; exact Logic.I) ltac:(intros; exact Logic.I) ltac:(intros; exact Logic.I) ltac:(intros; exact Logic.I)))
      as H. exact (H k _ e _ R [] eq_refl). }
  specialize (B _ _ R). unfold plain_number in P. destruct s as [|c s]; [discriminate|].
  assert (C : c = "0"%char /\ s <> "").
  { destruct c as [[] [] [] [] [] [] [] []]; try discriminate P. split; [reflexivity|]. intros ->. discriminate. }
  destruct C as [-> N]. destruct (B (ex_intro _ s eq_refl)) as [Z|D].
  - destruct s as [|d s]; [congruence|].
    assert (T : forallb (Ascii.eqb "0") (list_ascii_of_string (String "0" (String d s))) = true).
    { apply forallb_forall. intros x I. apply Ascii.eqb_eq. symmetry. now apply Z. }
    cbn [plain_number] in P. rewrite T in P. discriminate.
  - destruct G as [_ G]. unfold all_chars in G. rewrite Forall_forall in G. specialize (G _ D). cbn in G. 
    repeat (destruct G as [G|G]; [discriminate|]). exact G.
Qed.
