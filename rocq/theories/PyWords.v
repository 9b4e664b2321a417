(** What Python reads has the words and numbers that it takes. *)
From Coq Require Import String Ascii Bool List Arith Lia.
From Verif Require Import PyBase LexModel LexSpec GramModel ParseModel SynSpec SynInd NameSpec
  ResolveModel ResolveGen HeaderFacts CompileFacts PySpec PyDet PyTrans PyLexFacts PyReady PyToks PyRead PyLines PyStmt PyProg
  PyCompile.
Import ListNotations.
Open Scope string_scope.
Open Scope list_scope.

(** ** Tokens of what is read *)

Definition taken (t : ptok) : Prop :=
  match t with PN s => py_name s | PNum s => py_number s | _ => True end.

(** [r] is what is left of [ts] after tokens that Python takes. *)
Definition eats (ts r : list ptok) : Prop := exists us, ts = us ++ r /\ Forall taken us.

Lemma eats_refl : forall r, eats r r.
Proof. intros r. exists []. split; [reflexivity|constructor]. Qed.
Lemma eats_cons : forall t ts r, taken t -> eats ts r -> eats (t :: ts) r.
Proof. intros t ts r T [us [-> F]]. exists (t :: us). split; [reflexivity|now constructor]. Qed.
Lemma eats_trans : forall a b c, eats a b -> eats b c -> eats a c.
Proof.
  intros a b c [us [-> F]] [vs [-> G]]. exists (us ++ vs). split; [now rewrite app_assoc|]. apply Forall_app. now split.
Qed.
Lemma eats_op : forall o ts r, eats ts r -> eats (PO o :: ts) r.
Proof. intros o ts r. apply eats_cons. exact Logic.I. Qed.
Lemma eats_to : forall o ts r, eats ts (PO o :: r) -> eats ts r.
Proof. intros o ts r E. apply (eats_trans _ _ _ E). apply eats_op, eats_refl. Qed.

Theorem reads_eat :
  (forall k ts e r, reads k ts e r -> eats ts r) /\
  (forall ts es r, chain ts es r -> eats ts r) /\
  (forall k a ts e r, loop k a ts e r -> eats ts r) /\
  (forall a ts e r, trailers a ts e r -> eats ts r) /\
  (forall ts es r, items ts es r -> eats ts r) /\
  (forall ts es r, args ts es r -> eats ts r) /\
  (forall ts a r, arg ts a r -> eats ts r).
Proof.
  apply reads_mut; intros;
    repeat match goal with H : eats _ (PO ?o :: _) |- _ => lazymatch o with "**" => fail | "," => fail | _ => apply eats_to in H end end;
    try (apply eats_refl); try assumption;
    try (now apply eats_op);
    try (eapply eats_trans; [eassumption|assumption]);
    try (apply eats_op; eapply eats_trans; eassumption);
    try (eapply eats_trans; [eassumption|now apply eats_op]);
    try (eapply eats_trans; [eapply eats_to; eassumption|assumption]);
    try (apply eats_cons; [assumption|apply eats_refl]);
    try (apply eats_cons; [exact Logic.I|apply eats_refl]);
    try (apply eats_op; apply eats_cons; assumption);
    try (apply eats_cons; [assumption|now apply eats_op]).
  - apply eats_op, eats_op, eats_refl.
Qed.

Lemma reads_taken : forall k ts e r, reads k (ts ++ r) e r -> Forall taken ts.
Proof.
  intros k ts e r R. destruct (proj1 reads_eat _ _ _ _ R) as [us [E F]]. apply app_inv_tail in E. now subst.
Qed.
Lemma reads_end_taken : forall k ts e, reads k ts e [] -> Forall taken ts.
Proof. intros k ts e R. apply (reads_taken k ts e []). now rewrite app_nil_r. Qed.

Lemma pparams_eat : forall ts ps r, pparams ts ps r -> eats ts r.
Proof.
  assert (ONE : forall ts p r, pparam ts p r -> eats ts r).
  { intros ts p r H. destruct H as [s r N _|s ts e r N R].
    - apply eats_cons; [exact N|apply eats_refl].
    - apply eats_cons; [exact N|]. apply eats_op. exact (proj1 reads_eat _ _ _ _ R). }
  intros ts ps r H. induction H as [r|ts p r H N|ts p r ps r' H H2 IH N].
  - apply eats_refl.
  - exact (ONE _ _ _ H).
  - apply (eats_trans _ _ _ (ONE _ _ _ H)). apply eats_op. exact IH.
Qed.

(** ** Lines *)

(** No semicolon. *)
Definition ns (t : ptok) : Prop := t <> PO ";".

(** A line without semicolons: [pass], or [return] and tokens that Python takes, or
    only such tokens. *)
Definition fine (ts : list ptok) : Prop :=
  ts = [PN "pass"] \/ (exists us, ts = PN "return" :: us /\ Forall taken us) \/ Forall taken ts.

Lemma simples_fine : forall ts ss, simples ts ss -> Forall ns ts -> fine ts.
Proof.
  assert (ONE : forall ts s r, simple ts s r -> Forall ns ts -> Forall ns r).
  { intros ts s r H F. destruct H as [r|ts e r R|ts a r e r' R1 R2|ts e r R N].
    - exact (Forall_inv_tail F).
    - destruct (proj1 reads_eat _ _ _ _ R) as [us [-> G]]. apply Forall_inv_tail in F.
      apply Forall_app in F. tauto.
    - destruct (proj1 reads_eat _ _ _ _ R1) as [us [-> G]], (proj1 reads_eat _ _ _ _ R2) as [vs [-> G']].
      apply Forall_app in F. destruct F as [_ F]. apply Forall_inv_tail in F. apply Forall_app in F. tauto.
    - destruct (proj1 reads_eat _ _ _ _ R) as [us [-> G]]. apply Forall_app in F. tauto. }
  intros ts ss H F. destruct H as [ts s H|ts s H|ts s r ss H N H2].
  - inversion H; subst.
    + left. reflexivity.
    + right. left. eexists. split; [reflexivity|]. eapply reads_end_taken. eassumption.
    + right. right. match goal with A : reads 0 ts _ _, B : reads 0 r _ _ |- _ =>
        apply (proj1 reads_eat) in A; apply (proj1 reads_eat) in B; apply eats_to in A;
        destruct (eats_trans _ _ _ A B) as [us [-> G]] end. now rewrite app_nil_r.
    + right. right. eapply reads_end_taken. eassumption.
  - exfalso. exact (Forall_inv (ONE _ _ _ H F) eq_refl).
  - exfalso. exact (Forall_inv (ONE _ _ _ H F) eq_refl).
Qed.

Section semicolon.
  Variable fl : flags.

  Lemma ns_commas : forall l, Forall (Forall ns) l -> Forall ns (commas l).
  Proof.
    intros l F. induction F as [|x l H F IH]; [constructor|]. cbn [commas].
    destruct l; [exact H|]. apply Forall_app. split; [exact H|]. constructor; [discriminate|exact IH].
  Qed.
  Lemma ns_call : forall f l, Forall (Forall ns) l -> Forall ns (call_toks f l).
  Proof.
    intros f l F. unfold call_toks. constructor; [discriminate|]. constructor; [discriminate|].
    apply Forall_app. split; [now apply ns_commas|]. repeat constructor. discriminate.
  Qed.
  Lemma ns_var : forall x, Forall ns (pt_var fl x).
  Proof. intros x. unfold pt_var. destruct (fl_vars fl); repeat constructor; discriminate. Qed.

  Theorem ns_gen :
    (forall e, Forall ns (pt_e fl e)) /\ (forall t, Forall ns (pt_t fl t)) /\
    (forall x, Forall ns (pt_l fl x)) /\ (forall c, Forall (Forall ns) (pt_c fl c)).
  Proof.
    apply syn_ind.
    - intros o l r Hl Hr. cbn [pt_e]. unfold pt_bin. destruct (op_function fl o).
      + apply ns_call. repeat constructor; assumption.
      + assert (G : Forall ns (pt_e fl l ++ PO (py_operator o) :: pt_e fl r)).
        { apply Forall_app. split; [exact Hl|]. constructor; [destruct o; discriminate|exact Hr]. }
        destruct o; try exact G. constructor; [discriminate|]. apply Forall_app. split; [exact G|].
        repeat constructor. discriminate.
    - intros n d Hn Hd. apply ns_call. repeat constructor; assumption.
    - intros d Hd. apply ns_call. repeat constructor; assumption.
    - intros t Ht. exact Ht.
    - intros s. repeat constructor; discriminate.
    - intros a b. repeat constructor; discriminate.
    - intros x. apply ns_var.
    - intros p ps. repeat constructor; discriminate.
    - intros es F. change (pt_t fl (TSeq es)) with (call_toks "get_seq" [PO "[" :: commas (map (pt_l fl) es) ++ [PO "]"]]).
      apply ns_call. constructor; [|constructor]. constructor; [discriminate|]. apply Forall_app. split.
      + apply ns_commas. now apply Forall_map.
      + repeat constructor; discriminate.
    - intros e He. change (pt_t fl (TGroup e)) with (PO "(" :: pt_e fl e ++ [PO ")"]).
      constructor; [discriminate|]. apply Forall_app. split; [exact He|]. repeat constructor; discriminate.
    - intros cs F. change (pt_t fl (TCall cs)) with (call_toks (mangle fl (call_shape cs))
        (flat_map (pt_c fl) cs ++ if fl_vars fl then [[PN "vars"]] else [])).
      apply ns_call. apply Forall_app. split; [now apply flat_map_Forall|].
      destruct (fl_vars fl); repeat constructor; discriminate.
    - intros u t Ht. cbn [pt_t]. unfold pt_un. destruct u; try (constructor; [discriminate|exact Ht]).
      destruct (fl_oplib fl); [apply ns_call; repeat constructor; assumption|constructor; [discriminate|exact Ht]].
    - intros t Ht. apply ns_call. repeat constructor; assumption.
    - intros e He. exact He.
    - intros a b Ha Hb. apply ns_call. repeat constructor; assumption.
    - constructor.
    - intros e He. constructor; [exact He|constructor].
  Qed.

End semicolon.

(** ** Conditions that hold if the tokens are taken *)

Lemma Forall_commas : forall P l, Forall P (commas l) -> Forall (Forall P) l.
Proof.
  intros P l. induction l as [|x l IH]; intros F; [constructor|]. destruct l as [|y l].
  - constructor; [exact F|constructor].
  - change (commas (x :: y :: l)) with (x ++ PO "," :: commas (y :: l)) in F. apply Forall_app in F. destruct F as [F1 F2].
    constructor; [exact F1|]. apply IH. exact (Forall_inv_tail F2).
Qed.
Lemma Forall_call : forall P f l, Forall P (call_toks f l) -> P (PN f) /\ Forall (Forall P) l.
Proof.
  intros P f l F. unfold call_toks in F. split; [exact (Forall_inv F)|]. do 2 apply Forall_inv_tail in F.
  apply Forall_app in F. now apply Forall_commas.
Qed.

Lemma name_taken : forall s, ok_name false s = true -> py_name s -> ok_name true s = true.
Proof.
  intros s K N. unfold ok_name in *. apply andb_prop in K. destruct K as [K _]. rewrite K. cbn [andb implb].
  apply negb_true_iff. destruct (mem s py_keywords) eqn:E; [|reflexivity]. exfalso. apply N.
  unfold mem in E. apply existsb_exists in E. destruct E as [x [I X]]. apply String.eqb_eq in X. now subst.
Qed.
Lemma number_taken : forall s, number_text s = true -> py_number s -> plain_number s = true.
Proof.
  intros s K N. destruct (plain_number s) eqn:P; [reflexivity|]. exfalso.
  unfold plain_number in P. destruct s as [|c s]; [discriminate|].
  assert (C : c = "0"%char /\ s <> "").
  { destruct c as [[] [] [] [] [] [] [] []]; try discriminate P. split; [reflexivity|]. intros ->. discriminate. }
  destruct C as [-> M]. destruct (N (ex_intro _ s eq_refl)) as [Z|D].
  - destruct s as [|d s]; [congruence|].
    assert (T : forallb (Ascii.eqb "0") (list_ascii_of_string (String "0" (String d s))) = true).
    { apply forallb_forall. intros x I. apply Ascii.eqb_eq. symmetry. now apply Z. }
    cbn [plain_number] in P. rewrite T in P. discriminate.
  - unfold number_text in K. apply andb_prop in K. destruct K as [_ K]. rewrite forallb_forall in K.
    specialize (K _ D). discriminate.
Qed.

Section words.
  Variable structure : bool.
  Variable fl : flags.

  Lemma forallb_taken : forall A (f g : A -> bool) (T : A -> Prop) l,
    Forall (fun x => f x = true -> T x -> g x = true) l -> forallb f l = true -> Forall T l -> forallb g l = true.
  Proof.
    intros A f g T l F. induction F as [|x l H F IH]; intros K G; [reflexivity|]. cbn [forallb] in *.
    apply andb_prop in K. rewrite H, IH; try tauto; [exact (Forall_inv_tail G)|exact (Forall_inv G)].
  Qed.

  Lemma bin_taken : forall o a b, Forall taken (pt_bin fl o a b) -> Forall taken a /\ Forall taken b.
  Proof.
    intros o a b F. unfold pt_bin in F. destruct (op_function fl o).
    - apply Forall_call in F. destruct F as [_ F]. split; [exact (Forall_inv F)|exact (Forall_inv (Forall_inv_tail F))].
    - assert (G : Forall taken (a ++ PO (py_operator o) :: b)).
      { destruct o; try exact F. apply Forall_inv_tail in F. apply Forall_app in F. tauto. }
      apply Forall_app in G. destruct G as [G1 G2]. split; [exact G1|exact (Forall_inv_tail G2)].
  Qed.

  Theorem taken_gen :
    (forall e, ok_e structure false fl e = true -> Forall taken (pt_e fl e) -> ok_e structure true fl e = true) /\
    (forall t, ok_t structure false fl t = true -> Forall taken (pt_t fl t) -> ok_t structure true fl t = true) /\
    (forall x, ok_l structure false fl x = true -> Forall taken (pt_l fl x) -> ok_l structure true fl x = true) /\
    (forall c, ok_c structure false fl c = true -> Forall (Forall taken) (pt_c fl c) -> ok_c structure true fl c = true).
  Proof.
    apply syn_ind.
    - intros o l r Hl Hr K F. cbn [ok_e] in *. apply andb_prop in K. destruct K as [K0 K]. apply andb_prop in K.
      destruct K as [K1 K2]. cbn [pt_e] in F. apply bin_taken in F. destruct F as [F1 F2].
      now rewrite K0, (Hl K1 F1), (Hr K2 F2).
    - intros n d Hn Hd K F. cbn [ok_e] in K. apply andb_prop in K. destruct K as [K1 K2].
      apply Forall_call in F. destruct F as [_ F].
      change (ok_t structure true fl n && ok_t structure true fl d = true).
      now rewrite (Hn K1 (Forall_inv F)), (Hd K2 (Forall_inv (Forall_inv_tail F))).
    - intros d Hd K F. apply Forall_call in F. destruct F as [_ F]. exact (Hd K (Forall_inv F)).
    - intros t Ht K F. exact (Ht K F).
    - intros s K F. cbn [ok_t] in *. apply andb_prop in K. destruct K as [K _]. rewrite K.
      exact (number_taken s K (Forall_inv F)).
    - intros a b K F. exact K.
    - intros x K F. exact K.
    - intros p ps K F. exact K.
    - intros es F K G. change (pt_t fl (TSeq es)) with (call_toks "get_seq" [PO "[" :: commas (map (pt_l fl) es) ++ [PO "]"]]) in G.
      apply Forall_call in G. destruct G as [_ G]. apply Forall_inv in G. apply Forall_inv_tail in G. apply Forall_app in G.
      destruct G as [G _]. apply Forall_commas in G. rewrite Forall_map in G.
      exact (forallb_taken _ _ _ _ es F K G).
    - intros e He K F. change (pt_t fl (TGroup e)) with (PO "(" :: pt_e fl e ++ [PO ")"]) in F.
      apply Forall_inv_tail in F. apply Forall_app in F. exact (He K (proj1 F)).
    - intros cs F K G. cbn [ok_t] in K. apply andb_prop in K. destruct K as [K1 K2].
      change (pt_t fl (TCall cs)) with (call_toks (mangle fl (call_shape cs))
        (flat_map (pt_c fl) cs ++ if fl_vars fl then [[PN "vars"]] else [])) in G.
      apply Forall_call in G. destruct G as [N G]. apply Forall_app in G. destruct G as [G _].
      change (ok_name true (mangle fl (call_shape cs)) && forallb (ok_c structure true fl) cs = true).
      rewrite (name_taken _ K1 N). apply (forallb_taken _ _ _ _ cs F K2).
      clear - G. induction cs as [|c cs IH]; [constructor|]. cbn [flat_map] in G. apply Forall_app in G.
      constructor; [apply G|apply IH, G].
    - intros u t Ht K F. apply Ht; [exact K|]. cbn [pt_t] in F. unfold pt_un in F. destruct u.
      + exact (Forall_inv_tail F).
      + exact (Forall_inv_tail F).
      + destruct (fl_oplib fl); [|exact (Forall_inv_tail F)]. apply Forall_call in F. exact (Forall_inv (proj2 F)).
    - intros t Ht K F. apply Forall_call in F. destruct F as [_ F]. exact (Ht K (Forall_inv F)).
    - intros e He K F. exact (He K F).
    - intros a b Ha Hb K F. cbn [ok_l] in K. apply andb_prop in K. destruct K as [K1 K2].
      apply Forall_call in F. destruct F as [_ F].
      change (ok_e structure true fl a && ok_e structure true fl b = true).
      now rewrite (Ha K1 (Forall_inv F)), (Hb K2 (Forall_inv (Forall_inv_tail F))).
    - reflexivity.
    - intros e He K F. exact (He K (Forall_inv F)).
  Qed.

  (** ** Statements *)

  Lemma line_inv : forall t ts bs ss, a_line t ts -> statements (PLine t :: bs) ss ->
    (forall us, ts <> PO "@" :: us) -> (exists s1, simples ts s1) /\ exists ss', statements bs ss'.
  Proof.
    intros t ts bs ss [L _] H N. inversion H; subst; same_lex.
    - split; eexists; eassumption.
    - exfalso. eapply N. reflexivity.
  Qed.

  Lemma line_taken : forall t ts bs ss, a_line t ts -> statements (PLine t :: bs) ss -> Forall ns ts ->
    match ts with PO o :: _ => o <> "@" | PN w :: _ => w <> "pass" /\ w <> "return" | _ => True end -> Forall taken ts /\ exists ss', statements bs ss'.
  Proof.
    intros t ts bs ss L S N H. destruct (line_inv t ts bs ss L S) as [[s1 A] B].
    { intros us ->. congruence. }
    split; [|exact B]. destruct (simples_fine ts s1 A N) as [->|[[us [-> F]]|F]]; [cbn in H; tauto|cbn in H; tauto|exact F].
  Qed.

  Definition back (s : stmt) : Prop := forall bs ss, no_else bs -> statements (blk_s fl s ++ bs) ss ->
    ok_s structure true fl s = true /\ exists ss', statements bs ss'.

  Lemma back_body : forall body, Forall (fun s => ok_s structure false fl s = true -> back s) body ->
    forallb (ok_s structure false fl) body = true ->
    forall ss, statements (body_blocks (flat_map (blk_s fl) body)) ss -> forallb (ok_s structure true fl) body = true.
  Proof.
    intros body F K.
    assert (G : no_else (flat_map (blk_s fl) body) /\
      forall ss, statements (flat_map (blk_s fl) body) ss -> forallb (ok_s structure true fl) body = true).
    { induction F as [|s body H F IH]; [split; [exact no_else_nil|reflexivity]|].
      cbn [forallb flat_map] in *. apply andb_prop in K. destruct K as [K1 K2]. destruct (IH K2) as [A B].
      split; [exact (blk_no_else fl s K1 _)|]. intros ss S. destruct (H K1 _ _ A S) as [C [ss' D]].
      now rewrite C, (B _ D). }
    destruct G as [_ G]. destruct body as [|s body]; [reflexivity|]. intros ss S. apply (G ss).
    cbn [flat_map] in *. destruct (blk_some fl s) as [b [bs E]]. rewrite E in *. exact S.
  Qed.

  Lemma params_taken : forall ps, forallb (ok_param false) ps = true -> Forall taken (commas (pt_params fl ps)) ->
    forallb (ok_param true) ps = true.
  Proof.
    intros ps K F. apply Forall_commas in F. unfold pt_params in F. apply Forall_app in F. destruct F as [F _].
    rewrite Forall_map in F. refine (forallb_taken _ _ _ _ ps _ K F). apply Forall_forall. intros [x ty] _ Kp T.
    unfold ok_param in *. cbn [fst snd] in *. apply andb_prop in Kp. destruct Kp as [K1 K2]. rewrite K1.
    destruct ty as [ty|]; [|reflexivity]. apply (name_taken _ K2).
    exact (Forall_inv (Forall_inv_tail (Forall_inv_tail T))).
  Qed.

  Lemma as_colon : forall ts e, reads 0 (ts ++ [PO ":"]) e [PO ":"] -> Forall taken ts.
  Proof. intros ts e R. exact (reads_taken _ _ _ _ R). Qed.

  Theorem back_gen :
    (forall s, ok_s structure false fl s = true -> back s) /\
    (forall b, ok_b structure false fl b = true -> match b with Branch c body =>
       forall ss, statements (body_blocks (flat_map (blk_s fl) body)) ss -> forallb (ok_s structure true fl) body = true end).
  Proof.
    pose proof (proj1 taken_gen) as TE. pose proof (proj1 (ns_gen fl)) as NS.
    apply stmt_ind2.
    - intros e K bs ss N H. cbn [blk_s app] in H.
      destruct (line_taken _ _ _ _ (output_line fl e K) H) as [F B].
      { apply ns_call. repeat constructor. apply NS. }
      { cbn. split; discriminate. }
      split; [|exact B]. apply Forall_call in F. exact (TE e K (Forall_inv (proj2 F))).
    - intros e p ps K bs ss N H. cbn [ok_s] in K. apply andb_prop in K. destruct K as [K1 K2]. cbn [blk_s app] in H.
      destruct (line_taken _ _ _ _ (named_line fl e p ps K1 K2) H) as [F B].
      { apply ns_call. repeat constructor; try discriminate. apply NS. }
      { cbn. split; discriminate. }
      split; [|exact B]. apply Forall_call in F. cbn [ok_s]. rewrite K2, andb_true_r. exact (TE e K1 (Forall_inv (proj2 F))).
    - intros h hs body F K bs ss N H. cbn [ok_s] in K. apply andb_prop in K. destruct K as [K K3].
      apply andb_prop in K. destruct K as [K1 K2].
      set (ps := renamed 0 [] (params (h :: hs))) in *.
      change (blk_s fl (SFunction h hs body)) with [PLine "@anydice_casting()";
         PBlock (def_head fl (h :: hs)) ((if fl_vars fl then [PLine (enter_line ps)] else []) ++ body_blocks (flat_map (blk_s fl) body))] in H.
      cbn [app] in H. pose proof (proj1 (def_line fl (h :: hs) K1 K2)) as L. fold ps in L.
      inversion H as [|? ? ? ? ? L1 S1 _| | |? ? ? ? ? ? ? ? ? ? ? L1 R1 L2 NF PP SB SR]; subst.
      + exfalso. rewrite (proj1 decorator_line) in L1. injection L1 as <-. exact (PyDet.decorator_line _ _ S1).
      + rewrite L in L2. injection L2 as <- <-.
        assert (SB' : exists sb, statements (body_blocks (flat_map (blk_s fl) body)) sb).
        { destruct (fl_vars fl); [|eexists; exact SB]. cbn [app] in SB.
          destruct (line_inv _ _ _ _ (enter_is_line ps K2) SB) as [_ X]; [discriminate|exact X]. }
        destruct SB' as [sb SB']. pose proof (back_body body F K3 sb SB') as BB.
        destruct (pparams_eat _ _ _ PP) as [us [E G]].
        change ([PO ")"; PO ":"]) with ([PO ")"; PO ":"] ++ []) in E. 
        change (us ++ [PO ")"; PO ":"] ++ []) with (us ++ [PO ")"; PO ":"]) in E.
        apply app_inv_tail in E. subst us. pose proof (params_taken ps K2 G) as PT.
        split; [|eexists; exact SR].
        change (ok_name true (mangle fl (header_shape (h :: hs))) && forallb (ok_param true) ps
                && forallb (ok_s structure true fl) body = true).
        now rewrite (name_taken _ K1 NF), PT, BB.
    - intros x e body F K bs ss N H. cbn [ok_s] in K. apply andb_prop in K. destruct K as [K K3].
      apply andb_prop in K. destruct K as [K1 K2]. cbn [blk_s app] in H.
      pose proof (proj1 (loop_line fl x e K1 K2)) as L.
      inversion H as [| |? ? ? ? ? ? ? ? L1 NX R SB SR|? ? ? ? ? ? ? ? ? L1|]; subst; rewrite L in L1; [|discriminate L1].
      injection L1 as <- <-.
      assert (SB' : exists sb, statements (body_blocks (flat_map (blk_s fl) body)) sb).
      { destruct (fl_vars fl); [|eexists; exact SB]. cbn [app] in SB.
        destruct (line_inv _ _ _ _ (loop_var_line x K1) SB) as [_ X]; [discriminate|exact X]. }
      destruct SB' as [sb SB']. pose proof (back_body body F K3 sb SB') as BB.
      split; [|eexists; exact SR].
      change (ok_var x && ok_e structure true fl e && forallb (ok_s structure true fl) body = true).
      now rewrite K1, (TE e K2 (as_colon _ _ R)), BB.
    - intros e K bs ss N H. cbn [blk_s app] in H.
      destruct (line_inv _ _ _ _ (result_line fl e K) H) as [[s1 A] B]; [discriminate|].
      split; [|exact B]. apply simples_fine in A; [|constructor; [discriminate|apply NS]].
      destruct A as [X|[[us [X F]]|F]]; [discriminate X| |].
      + injection X as <-. exact (TE e K F).
      + exact (TE e K (Forall_inv_tail F)).
    - intros p ps e K bs ss N H. cbn [ok_s] in K. apply andb_prop in K. destruct K as [K1 K2]. cbn [blk_s app] in H.
      destruct (line_taken _ _ _ _ (set_line fl e p ps K1 K2) H) as [F B].
      { apply ns_call. repeat constructor; try discriminate. apply NS. }
      { cbn. split; discriminate. }
      split; [|exact B]. apply Forall_call in F. cbn [ok_s]. rewrite K2, andb_true_r.
      exact (TE e K1 (Forall_inv (Forall_inv_tail (proj2 F)))).
    - intros x e K bs ss N H. cbn [ok_s] in K. apply andb_prop in K. destruct K as [K1 K2]. cbn [blk_s app] in H.
      destruct (line_taken _ _ _ _ (assign_line fl x e K1 K2) H) as [F B].
      { apply Forall_app. split; [apply ns_var|]. constructor; [discriminate|apply NS]. }
      { unfold pt_var. destruct (fl_vars fl); cbn; [split; discriminate|]. apply ok_var_name in K1.
        split; intros ->; apply K1; cbn; tauto. }
      split; [|exact B]. apply Forall_app in F. destruct F as [_ F]. cbn [ok_s]. rewrite K1. exact (TE e K2 (Forall_inv_tail F)).
    - intros b bs' els Hb F He K bs ss N H. cbn [ok_s] in K. apply andb_prop in K. destruct K as [K K3].
      apply andb_prop in K. destruct K as [K1 K2]. specialize (Hb K1). destruct b as [c body].
      cbn [ok_b] in K1. apply andb_prop in K1. destruct K1 as [K1 _].
      set (EB := match els with None => [] | Some body => [PBlock "else:" (body_blocks (flat_map (blk_s fl) body))] end).
      change (blk_s fl (SIf (Branch c body) bs' els)) with (blk_b fl "if " (Branch c body) :: map (blk_b fl "elif ") bs' ++ EB) in H.
      cbn [app] in H. rewrite <- app_assoc in H.
      pose proof (proj1 (if_line structure false fl "if" c ltac:(cbn; tauto) K1)) as L.
      inversion H as [| |? ? ? ? ? ? ? ? L1 NX R SB SR|? ? ? ? ? ? ? ? ? L1 R SB OE SR|]; subst;
        pose proof (eq_trans (eq_sym L) L1) as L2; [discriminate L2|]. injection L2 as <-.
      assert (EE : forall elx bsx, orelse (EB ++ bs) elx bsx -> bsx = bs /\
        match els with None => true | Some body => forallb (ok_s structure true fl) body end = true).
      { intros elx bsx O. subst EB. destruct els as [eb|].
        - cbn [app] in O. pose proof (proj1 else_line) as LE.
          inversion O as [? X|? ? ? ? LX SX|? ? ? ? ? ? ? ? LX]; subst.
          + exfalso. destruct (X _ _ _ _ _ eq_refl LE) as [_ Y]. congruence.
          + split; [reflexivity|]. exact (back_body eb He K3 _ SX).
          + rewrite LE in LX. discriminate LX.
        - cbn [app] in O. split; [|reflexivity]. inversion O as [? X|? ? ? ? LX SX|? ? ? ? ? ? ? ? LX]; subst; [reflexivity| |];
            exfalso; destruct (N _ _ _ _ _ eq_refl LX) as [Y Z]; congruence. }
      assert (EL : forall elx bsx, orelse (map (blk_b fl "elif ") bs' ++ EB ++ bs) elx bsx -> bsx = bs /\
        forallb (ok_b structure true fl) bs' = true /\
        match els with None => true | Some body => forallb (ok_s structure true fl) body end = true).
      { clear - F K2 EE TE. induction F as [|b bs' Hb F IH]; intros elx bsx O.
        { destruct (EE _ _ O) as [A B]. repeat split; assumption. }
        cbn [forallb] in K2. apply andb_prop in K2. destruct K2 as [K1 K2]. specialize (Hb K1). destruct b as [c body].
        cbn [ok_b] in K1. apply andb_prop in K1. destruct K1 as [K1 _].
        pose proof (proj1 (if_line structure false fl "elif" c ltac:(cbn; tauto) K1)) as L.
        cbn [map app] in O.
        inversion O as [? X|? ? ? ? LX SX|? ? ? ? ? ? ? ? LX RX SX OX]; subst.
        - exfalso. destruct (X _ _ _ _ _ eq_refl L) as [Y _]. congruence.
        - pose proof (eq_trans (eq_sym L) LX) as L2. discriminate L2.
        - pose proof (eq_trans (eq_sym L) LX) as L2. injection L2 as <-. destruct (IH K2 _ _ OX) as [A [B C]].
          split; [exact A|]. split; [|exact C].
          change (ok_e structure true fl c && forallb (ok_s structure true fl) body && forallb (ok_b structure true fl) bs' = true).
          now rewrite (TE c K1 (as_colon _ _ RX)), (Hb _ SX), B. }
      destruct (EL _ _ OE) as [-> [A B]]. split; [|eexists; exact SR].
      change (ok_e structure true fl c && forallb (ok_s structure true fl) body && forallb (ok_b structure true fl) bs'
        && match els with None => true | Some body => forallb (ok_s structure true fl) body end = true).
      now rewrite (TE c K1 (as_colon _ _ R)), (Hb _ SB), A, B.
    - intros c body F K. cbn [ok_b] in K. apply andb_prop in K. exact (back_body body F (proj2 K)).
  Qed.

  Theorem program_back : forall p bs q, forallb (ok_s structure false fl) p = true ->
    blocks 0 (code_lines (squeeze (program_text fl p))) bs [] -> statements bs q ->
    forallb (ok_s structure true fl) p = true.
  Proof.
    intros p bs q OK B S. destruct (blocks_det _ _ _ _ (program_lines fl p OK) _ _ B) as [<- _].
    unfold program_blocks in S.
    assert (S' : exists q', statements (body_blocks (flat_map (blk_s fl) p)) q').
    { destruct (fl_vars fl); [|eexists; exact S]. cbn [app] in S.
      destruct (line_inv _ _ _ _ vars_line S) as [_ X]; [discriminate|exact X]. }
    destruct S' as [q' S']. refine (back_body p _ OK q' S'). apply Forall_forall. intros s _. apply back_gen.
  Qed.
End words.
