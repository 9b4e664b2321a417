(** Reading the generated text of an expression back as Python gives its translation. *)
From Coq Require Import String Ascii Bool List Arith Lia.
From Verif Require Import PyBase LexModel LexSpec GramModel ParseModel SynSpec SynInd NameSpec
  ResolveModel ResolveGen CompileFacts PySpec PyDet PyTrans PyLexFacts PyReady PyToks.
Import ListNotations.
Open Scope string_scope.
Open Scope list_scope.

(** ** Formatted strings *)

Definition no_back (s : string) : bool := forallb (fun c => negb (Ascii.eqb c c_backslash)) (list_ascii_of_string s).

Lemma fpieces_text : forall s r, no_back s = true ->
  fpieces (double_char "}" (double_char "{" s) ++ r) = option_map (app (text_pieces s)) (fpieces r).
Proof.
  intros s r. induction s as [|c s IH]; intros H.
  - cbn [double_char append text_pieces list_ascii_of_string map]. destruct (fpieces r); reflexivity.
  - unfold no_back in *. cbn [list_ascii_of_string forallb] in H. apply andb_prop in H. destruct H as [B H].
    specialize (IH H). apply negb_true_iff in B.
    cbn [double_char]. destruct (Ascii.eqb "{" c) eqn:E1.
    + apply Ascii.eqb_eq in E1. subst c. cbn [double_char Ascii.eqb Bool.eqb].
      change (Ascii.eqb "}" "{") with false. cbn iota. cbn [append].
      cbn [fpieces]. change (Ascii.eqb "{" c_backslash) with false. cbn iota.
      change (Ascii.eqb "{" "{") with true. cbn iota. rewrite IH. destruct (fpieces r); reflexivity.
    + cbn [double_char]. destruct (Ascii.eqb "}" c) eqn:E2.
      * apply Ascii.eqb_eq in E2. subst c. cbn [append fpieces].
        change (Ascii.eqb "}" c_backslash) with false. change (Ascii.eqb "}" "{") with false.
        change (Ascii.eqb "}" "}") with true. cbn iota. rewrite IH. destruct (fpieces r); reflexivity.
      * cbn [append fpieces]. rewrite Ascii.eqb_sym in E1. rewrite Ascii.eqb_sym in E2.
        rewrite B, E1, E2, IH. destruct (fpieces r); reflexivity.
Qed.

Definition no_brace (s : string) : bool :=
  forallb (fun c => negb (Ascii.eqb c "}")) (list_ascii_of_string s).

Lemma fpieces_field : forall c f r, Ascii.eqb c "{" = false -> no_brace (String c f) = true ->
  fpieces (String "{" (String c f ++ String "}" r)) = option_map (cons (Field (String c f))) (fpieces r).
Proof.
  intros c f r C N. cbn [append fpieces]. change (Ascii.eqb "{" c_backslash) with false. cbn iota.
  change (Ascii.eqb "{" "{") with true. cbn iota. rewrite C.
  unfold no_brace in N. cbn [list_ascii_of_string forallb] in N. apply andb_prop in N. destruct N as [N1 N2].
  apply negb_true_iff in N1. rewrite N1. cbn [append].
  assert (G : forall f acc, forallb (fun c => negb (Ascii.eqb c "}")) (list_ascii_of_string f) = true ->
     (fix field (acc s : string) {struct s} : option (list piece) :=
        match s with
        | "" => None
        | String c r => if Ascii.eqb c "}" then option_map (cons (Field acc)) (fpieces r)
                        else field (acc ++ String c "")%string r
        end) acc (f ++ String "}" r)%string = option_map (cons (Field (acc ++ f))) (fpieces r)).
  { clear. induction f as [|d f IH]; intros acc H.
    - cbn [append]. change (Ascii.eqb "}" "}") with true. cbn iota.
      assert (E : (acc ++ "")%string = acc) by (clear; induction acc; cbn; congruence). now rewrite E.
    - cbn [list_ascii_of_string forallb] in H. apply andb_prop in H. destruct H as [H1 H2].
      apply negb_true_iff in H1. cbn [append]. rewrite H1. rewrite (IH _ H2).
      rewrite PyLexFacts.sapp_assoc. reflexivity. }
  exact (G f (String c "") N2).
Qed.

Lemma fpieces_parts : forall fl ps, forallb ok_part ps = true ->
  fpieces (join "" (map (gen_part fl) ps)) = Some (flat_map (part_pieces fl) ps).
Proof.
  intros fl ps. induction ps as [|p ps IH]; intros H; [reflexivity|].
  cbn [forallb map flat_map] in *. apply andb_prop in H. destruct H as [P H]. specialize (IH H).
  assert (E : join "" (gen_part fl p :: map (gen_part fl) ps)
              = (gen_part fl p ++ join "" (map (gen_part fl) ps))%string).
  { rewrite join_cons. destruct (map (gen_part fl) ps); [cbn; now rewrite app_empty|reflexivity]. }
  rewrite E. clear E.
  assert (T : forall s, string_chars c_dquote s = true -> no_back s = true).
  { intros s S. unfold no_back. unfold string_chars in S. rewrite forallb_forall in *. intros c I.
    specialize (S c I). apply negb_true_iff in S. apply orb_false_elim in S. destruct S as [_ S]. now rewrite S. }
  destruct p as [s|s|v]; cbn [gen_part part_pieces ok_part] in *.
  - rewrite (fpieces_text s _ (T s P)), IH. reflexivity.
  - rewrite (fpieces_text s _ (T s P)), IH. reflexivity.
  - pose proof (identifier_chars v P) as I. rewrite forallb_forall in I.
    assert (NB : no_brace v = true).
    { unfold no_brace. apply forallb_forall. intros c J. specialize (I c J).
      destruct c as [[] [] [] [] [] [] [] []]; vm_compute in I |- *; congruence. }
    destruct (fl_vars fl).
    + change ("{vars['" ++ v ++ "']}")%string with (String "{" (String "v" ("ars['" ++ v ++ "']}"))).
      replace (String "{" (String "v" ("ars['" ++ v ++ "']}")) ++ join "" (map (gen_part fl) ps))%string
        with (String "{" (String "v" ("ars['" ++ v ++ "']") ++ String "}" (join "" (map (gen_part fl) ps)))).
      * rewrite fpieces_field.
        -- rewrite IH. reflexivity.
        -- reflexivity.
        -- change (String "v" ("ars['" ++ v ++ "']")) with ("vars['" ++ (v ++ "']"))%string.
           unfold no_brace in *. rewrite !string_app_chars, !forallb_app, NB. reflexivity.
      * cbn [append]. rewrite !PyLexFacts.sapp_assoc. reflexivity.
    + destruct v as [|c v]; [discriminate P|].
      replace (("{" ++ String c v ++ "}") ++ join "" (map (gen_part fl) ps))%string
        with (String "{" (String c v ++ String "}" (join "" (map (gen_part fl) ps)))).
      * rewrite fpieces_field; [rewrite IH; reflexivity| |exact NB].
        specialize (I c (or_introl eq_refl)).
        destruct c as [[] [] [] [] [] [] [] []]; vm_compute in I |- *; congruence.
      * cbn [append]. now rewrite PyLexFacts.sapp_assoc.
Qed.

(** ** Where a reading stops *)

(** The operators that continue a reading of level [k]. *)
Definition cont (k : nat) : list string :=
  match k with
  | 0 => comparisons ++ ["|"; "&"; "+"; "-"; "*"; "@"; "//"; "**"; "("; "["; "."]
  | 1 => ["|"; "&"; "+"; "-"; "*"; "@"; "//"; "**"; "("; "["; "."]
  | 2 => ["&"; "+"; "-"; "*"; "@"; "//"; "**"; "("; "["; "."]
  | 3 => ["+"; "-"; "*"; "@"; "//"; "**"; "("; "["; "."]
  | 4 => ["*"; "@"; "//"; "**"; "("; "["; "."]
  | 5 | 6 => ["**"; "("; "["; "."]
  | _ => ["("; "["; "."]
  end.
Definition stops (k : nat) (r : list ptok) : Prop := next_not (cont k) r.

Lemma next_not_incl : forall a b r, incl b a -> next_not a r -> next_not b r.
Proof. intros a b [|[]] I H; cbn in *; auto. Qed.

Lemma stops_S : forall k r, stops k r -> stops (S k) r.
Proof.
  intros k r. apply next_not_incl. intros x I.
  destruct k as [|[|[|[|[|[|[|k]]]]]]]; cbn in I |- *; tauto.
Qed.
Lemma stops_le : forall k j r, k <= j -> stops k r -> stops j r.
Proof. intros k j r L H. induction L; [exact H|]. now apply stops_S. Qed.

Lemma stops_end : forall k, stops k [].
Proof. intros k. exact Logic.I. Qed.
Lemma stops_delim : forall k o r, In o [")"; "]"; ","; ":"; "="; ";"] -> stops k (PO o :: r).
Proof.
  intros k o r I. apply (stops_le 0); [lia|]. cbn in I. cbn. intros J.
  decompose [or] I; subst; decompose [or] J; try discriminate; contradiction.
Qed.

Lemma step : forall k ts e r, k < 8 -> reads (S k) ts e r -> stops k r -> reads k ts e r.
Proof.
  intros k ts e r K R T. assert (C : k = 0 \/ 1 <= k <= 4 \/ k = 5 \/ k = 6 \/ k = 7) by lia.
  destruct C as [->|[C|[->|[->| ->]]]].
  - refine (rd_cmp ts e r [] r R _). constructor. revert T. apply next_not_incl. intros x I. cbn in I |- *. tauto.
  - apply (rd_bin k ts e r e r C R). constructor. revert T. apply next_not_incl.
    intros x I. destruct k as [|[|[|[|[|k]]]]]; cbn in I |- *; try tauto; lia.
  - apply rd_noun; [|exact R]. apply reads6_first in R. destruct ts as [|[] ts]; try exact Logic.I.
    cbn. destruct R as [->|[->| ->]]; intros J; decompose [or] J; try discriminate; contradiction.
  - apply rd_nopow; [exact R|]. revert T. apply next_not_incl. intros x I. cbn in I |- *. tauto.
  - apply (rd_primary ts e r e r R). constructor. exact T.
Qed.

Lemma lift : forall j k ts e r, k <= j -> j <= 8 -> reads j ts e r -> stops k r -> reads k ts e r.
Proof.
  intros j k ts e r L. induction L as [|j L IH]; intros J R T; [exact R|].
  apply IH; [lia| |exact T]. apply step; [lia|exact R|]. apply (stops_le k); [lia|exact T].
Qed.

(** ** Calls *)

(** [ts] is read as [e], up to the end of an argument. *)
Definition reads_as (ts : list ptok) (e : pexpr) : Prop :=
  forall r, stops 0 r -> reads 0 (ts ++ r) e r.

Lemma not_keyword_arg : forall ts e r o, reads 0 ts e (PO o :: r) -> o <> "=" ->
  forall s r', ts <> PN s :: PO "=" :: r'.
Proof.
  intros ts e r o R N s r' ->. pose proof (reads_first _ _ _ _ R) as P. cbn in P.
  assert (R2 : reads 0 (PN s :: PO "=" :: r') (PName s) (PO "=" :: r')).
  { apply (lift 8); [lia|lia|now constructor|]. apply stops_delim. cbn. tauto. }
  destruct (rd_det _ _ _ _ R _ _ R2) as [_ E]. injection E as E _. contradiction.
Qed.

Lemma read_args : forall tss es r, Forall2 reads_as tss es ->
  args (commas tss ++ PO ")" :: r) (map (fun e => (None, e)) es) (PO ")" :: r).
Proof.
  intros tss es r F. induction F as [|ts e tss es H F IH]; [constructor|].
  destruct F as [|ts' e' tss es H' F].
  - cbn [commas map]. apply ar_last; [|cbn; intros [X|[]]; discriminate X].
    assert (R : reads 0 (ts ++ PO ")" :: r) e (PO ")" :: r)) by (apply H, stops_delim; cbn; tauto).
    apply ag_plain; [|exact R]. apply (not_keyword_arg _ _ _ _ R). discriminate.
  - change (commas (ts :: ts' :: tss)) with (ts ++ PO "," :: commas (ts' :: tss)).
    change (map (fun e => (@None string, e)) (e :: e' :: es)) with ((None, e) :: map (fun e => (@None string, e)) (e' :: es)).
    rewrite <- app_assoc. cbn [app].
    assert (R : reads 0 (ts ++ PO "," :: commas (ts' :: tss) ++ PO ")" :: r) e (PO "," :: commas (ts' :: tss) ++ PO ")" :: r))
      by (apply H, stops_delim; cbn; tauto).
    apply (ar_more _ _ (commas (ts' :: tss) ++ PO ")" :: r)).
    + apply ag_plain; [|exact R]. apply (not_keyword_arg _ _ _ _ R). discriminate.
    + exact IH.
    + discriminate.
Qed.

Lemma read_items : forall tss es r, Forall2 reads_as tss es ->
  items (commas tss ++ PO "]" :: r) es (PO "]" :: r).
Proof.
  intros tss es r F. induction F as [|ts e tss es H F IH]; [constructor|].
  destruct F as [|ts' e' tss es H' F].
  - cbn [commas]. apply it_last; [apply H, stops_delim; cbn; tauto|cbn; intros [X|[]]; discriminate X].
  - change (commas (ts :: ts' :: tss)) with (ts ++ PO "," :: commas (ts' :: tss)).
    rewrite <- app_assoc. cbn [app]. apply (it_more _ _ (commas (ts' :: tss) ++ PO "]" :: r)).
    + apply H, stops_delim. cbn. tauto.
    + exact IH.
    + discriminate.
Qed.

Lemma read_call : forall f tss es r, py_name f -> Forall2 reads_as tss es -> stops 7 r ->
  reads 7 (call_toks f tss ++ r) (call f es) r.
Proof.
  intros f tss es r N F T. unfold call_toks. cbn [app]. rewrite <- app_assoc. cbn [app].
  apply (rd_primary _ (PName f) (PO "(" :: commas tss ++ PO ")" :: r)); [now constructor|].
  eapply tr_call; [apply (read_args _ _ _ F)|]. constructor. exact T.
Qed.

Lemma name_ok : forall s, mem s py_keywords = false -> py_name s.
Proof. exact mem_name. Qed.

(** ** Expressions *)

Section read.
  Variable fl : flags.

  Definition RA (e : expr) : Prop := forall k r e' r', 1 <= k <= 4 -> k <= pl fl e -> stops (S k) r ->
    loop k (py_e fl e) r e' r' -> reads k (pt_e fl e ++ r) e' r'.
  Definition RB (e : expr) : Prop := forall k r, k <= pl fl e -> stops k r ->
    reads k (pt_e fl e ++ r) (py_e fl e) r.
  Definition RT (t : term) : Prop := forall k r, k <= plt fl t -> stops k r ->
    reads k (pt_t fl t ++ r) (py_t fl t) r.

  Lemma pl_7 : forall e, pl fl e <= 7.
  Proof.
    intros [o l r|n d|d|t]; cbn [pl]; try lia.
    - unfold op_pl. destruct (op_function fl o); [lia|]. destruct o; lia.
    - destruct t as [| | | | | | |u t|]; cbn [plt]; try lia. destruct u; try lia. destruct (fl_oplib fl); lia.
  Qed.

  (** It is enough to read at the own level, if that is not one of the loops. *)
  Lemma from_top : forall e, (pl fl e = 0 \/ 5 <= pl fl e) ->
    (forall r, stops (pl fl e) r -> reads (pl fl e) (pt_e fl e ++ r) (py_e fl e) r) -> RA e /\ RB e.
  Proof.
    intros e L H. pose proof (pl_7 e) as P7.
    assert (B : RB e).
    { intros k r K T. apply (lift (pl fl e)); [exact K|lia| |exact T]. apply H. exact (stops_le _ _ _ K T). }
    split; [|exact B]. intros k r e' r' K1 K2 T Lp. apply (rd_bin k _ (py_e fl e) r); [exact K1| |exact Lp].
    apply B; [lia|exact T].
  Qed.

  Lemma left_assoc : forall o l r k, op_function fl o = None -> op_pl fl o = k -> 1 <= k <= 4 ->
    pt_e fl (EBin o l r) = pt_e fl l ++ PO (py_operator o) :: pt_e fl r ->
    py_e fl (EBin o l r) = PBinary (py_operator o) (py_e fl l) (py_e fl r) ->
    In (py_operator o) (level_ops k) -> k <= pl fl l -> S k <= pl fl r ->
    RA l -> RB r -> RA (EBin o l r) /\ RB (EBin o l r).
  Proof.
    intros o l r k OF PK K PT PY IO L R Al Br.
    assert (A : forall rest e' r', stops (S k) rest -> loop k (py_e fl (EBin o l r)) rest e' r' ->
                reads k (pt_e fl (EBin o l r) ++ rest) e' r').
    { intros rest e' r' T Lp. rewrite PT, <- app_assoc. cbn [app].
      apply Al; [exact K|exact L| |].
      - destruct k as [|[|[|[|[|k]]]]]; try lia; cbn in IO; decompose [or] IO; try contradiction;
          match goal with X : _ = py_operator o |- _ => rewrite <- X end;
          intros J; cbn in J; decompose [or] J; try discriminate; contradiction.
      - eapply lp_more; [exact IO| |rewrite PY in Lp; exact Lp]. apply Br; [exact R|exact T]. }
    assert (B : RB (EBin o l r)).
    { intros j rest J T. cbn [pl] in J. rewrite PK in J. apply (lift k); [exact J|lia| |exact T].
      apply A.
      - apply (stops_le j); [lia|exact T].
      - constructor. apply (stops_le j k) in T; [|exact J]. revert T. apply next_not_incl.
        intros x I. destruct k as [|[|[|[|[|k]]]]]; try lia; cbn in I |- *; tauto. }
    split; [|exact B]. intros j rest e' r' J1 J2 T Lp. cbn [pl] in J2. rewrite PK in J2.
    destruct (Nat.eq_dec j k) as [->|NE].
    - now apply A.
    - apply (rd_bin j _ (py_e fl (EBin o l r)) rest); [exact J1| |exact Lp].
      apply B; [cbn [pl]; lia|exact T].
  Qed.

  Lemma B_as : forall e, RB e -> reads_as (pt_e fl e) (py_e fl e).
  Proof. intros e B r T. apply B; [lia|exact T]. Qed.
  Lemma T_as : forall t, RT t -> reads_as (pt_t fl t) (py_t fl t).
  Proof. intros e B r T. apply B; [lia|exact T]. Qed.

  Lemma T_of_top : forall t, 7 <= plt fl t -> (forall r, stops 7 r -> reads 7 (pt_t fl t ++ r) (py_t fl t) r) -> RT t.
  Proof.
    intros t P H k r K T.
    assert (P7 : plt fl t <= 7) by exact (pl_7 (ETerm t)).
    apply (lift 7); [lia|lia| |exact T]. apply H. apply (stops_le k); [lia|exact T].
  Qed.

  Lemma atom : forall ts a r, reads 8 ts a r -> stops 7 r -> reads 7 ts a r.
  Proof. intros ts a r R T. apply (lift 8); [lia|lia|exact R|exact T]. Qed.

  Lemma vars_as : reads_as [PN "vars"] (PName "vars").
  Proof.
    intros r T. apply (lift 8); [lia|lia| |exact T]. constructor. apply name_ok. reflexivity.
  Qed.

  Lemma read_var : forall x r, py_name x -> stops 7 r -> reads 7 (pt_var fl x ++ r) (variable fl x) r.
  Proof.
    intros x r N T. unfold pt_var, variable. destruct (fl_vars fl).
    - cbn [app]. eapply rd_primary; [constructor; apply name_ok; reflexivity|].
      eapply tr_index; [|constructor; exact T].
      apply (lift 8); [lia|lia|constructor|]. apply stops_delim. cbn. tauto.
    - apply atom; [now constructor|exact T].
  Qed.

  Lemma read_str : forall ps r, forallb ok_part ps = true -> reads 8 (pt_str fl ps ++ r) (py_str fl ps) r.
  Proof. intros ps r H. unfold pt_str, py_str. constructor. now apply fpieces_parts. Qed.

  Local Notation ok_e := (PyReady.ok_e true true).
  Local Notation ok_t := (PyReady.ok_t true true).
  Local Notation ok_l := (PyReady.ok_l true true).
  Local Notation ok_c := (PyReady.ok_c true true).
  Theorem read_gen :
    (forall e, ok_e fl e = true -> RA e /\ RB e) /\
    (forall t, ok_t fl t = true -> RT t) /\
    (forall x, ok_l fl x = true -> reads_as (pt_l fl x) (py_l fl x)) /\
    (forall c, ok_c fl c = true -> Forall2 reads_as (pt_c fl c) (py_c fl c)).
  Proof.
    apply syn_ind.
    - intros o l r Hl Hr K. cbn [ok_e] in K. apply andb_prop in K. destruct K as [F K].
      apply andb_prop in K. destruct K as [K1 K2]. destruct (Hl K1) as [Al Bl], (Hr K2) as [Ar Br].
      clear Hl Hr K1 K2. unfold fits in F.
      destruct (op_function fl o) as [f|] eqn:OF.
      { assert (P : pl fl (EBin o l r) = 7) by (cbn [pl]; unfold op_pl; now rewrite OF).
        apply from_top; [lia|]. rewrite P. intros rest T.
        assert (E : pt_e fl (EBin o l r) = call_toks f [pt_e fl l; pt_e fl r])
          by (cbn [pt_e]; unfold pt_bin; now rewrite OF).
        assert (E2 : py_e fl (EBin o l r) = call f [py_e fl l; py_e fl r])
          by (cbn [py_e]; unfold py_bin; now rewrite OF).
        rewrite E, E2. apply read_call; [|repeat constructor; now apply B_as|exact T].
        apply name_ok. unfold op_function in OF. destruct (fl_oplib fl); [|discriminate].
        destruct o; try discriminate; injection OF as <-; reflexivity. }
      assert (PL : op_pl fl o = match o with
        | OLt | OGt | OEq | ONe | OLe | OGe => 0
        | OOr => 1 | OAnd => 2 | OAdd | OSub => 3 | OMul | ODiv => 4 | OPow => 6 | OAt => 7 end)
        by (unfold op_pl; now rewrite OF).
      assert (CMP : is_comparison o = true -> 1 <= pl fl l -> 1 <= pl fl r -> RA (EBin o l r) /\ RB (EBin o l r)).
      { intros C L R. assert (P : pl fl (EBin o l r) = 0) by (cbn [pl]; rewrite PL; destruct o; try discriminate; reflexivity).
        apply from_top; [lia|]. rewrite P. intros rest T.
        assert (E : pt_e fl (EBin o l r) = pt_e fl l ++ PO (py_operator o) :: pt_e fl r)
          by (cbn [pt_e]; unfold pt_bin; rewrite OF; destruct o; try discriminate; reflexivity).
        assert (E2 : py_e fl (EBin o l r) = PCompare (py_e fl l) [(py_operator o, py_e fl r)])
          by (cbn [py_e]; unfold py_bin; now rewrite OF, C).
        rewrite E, E2, <- app_assoc. cbn [app].
        refine (rd_cmp _ (py_e fl l) (PO (py_operator o) :: pt_e fl r ++ rest) [(py_operator o, py_e fl r)] rest _ _).
        - apply Bl; [exact L|]. destruct o; try discriminate; cbn; intros J; decompose [or] J; try discriminate; contradiction.
        - apply (ch_more _ _ _ rest).
          + destruct o; try discriminate; cbn; tauto.
          + apply Br; [exact R|]. apply (stops_le 0); [lia|exact T].
          + constructor. revert T. apply next_not_incl. intros x I. cbn in I |- *. tauto. }
      assert (LA : forall k, op_pl fl o = k -> 1 <= k <= 4 -> o <> OAt -> is_comparison o = false ->
                   In (py_operator o) (level_ops k) -> k <= pl fl l -> S k <= pl fl r ->
                   RA (EBin o l r) /\ RB (EBin o l r)).
      { intros k PK K NA C IO L R. apply (left_assoc o l r k OF PK K); try assumption.
        - cbn [pt_e]. unfold pt_bin. rewrite OF. destruct o; try reflexivity. contradiction.
        - cbn [py_e]. unfold py_bin. now rewrite OF, C. }
      destruct o; apply andb_prop in F; destruct F as [F1 F2]; apply Nat.leb_le in F1; apply Nat.leb_le in F2;
        try (apply CMP; [reflexivity|exact F1|exact F2]);
        try (apply (LA _ PL); [lia|discriminate|reflexivity|cbn; tauto|exact F1|exact F2]).
      + (* a power *)
        apply from_top; [cbn [pl]; lia|]. cbn [pl]. rewrite PL. intros rest T.
        assert (E : pt_e fl (EBin OPow l r) = pt_e fl l ++ PO "**" :: pt_e fl r)
          by (cbn [pt_e]; unfold pt_bin; now rewrite OF).
        assert (E2 : py_e fl (EBin OPow l r) = PBinary "**" (py_e fl l) (py_e fl r))
          by (cbn [py_e]; unfold py_bin; now rewrite OF).
        rewrite E, E2, <- app_assoc. cbn [app]. apply (rd_pow _ _ (pt_e fl r ++ rest)).
        * apply Bl; [exact F1|]. cbn. intros J. decompose [or] J; try discriminate; contradiction.
        * apply Br; [exact F2|exact T].
      + (* @ *)
        apply from_top; [cbn [pl]; lia|]. cbn [pl]. rewrite PL. intros rest T.
        assert (E : pt_e fl (EBin OAt l r) = PO "(" :: (pt_e fl l ++ PO "@" :: pt_e fl r) ++ [PO ")"])
          by (cbn [pt_e]; unfold pt_bin; now rewrite OF).
        assert (E2 : py_e fl (EBin OAt l r) = PBinary "@" (py_e fl l) (py_e fl r))
          by (cbn [py_e]; unfold py_bin; now rewrite OF).
        rewrite E, E2. cbn [app]. rewrite <- !app_assoc. cbn [app].
        apply atom; [|exact T]. apply rd_paren. apply (lift 4); [lia|lia| |apply stops_delim; cbn; tauto].
        apply Al; [lia|exact F1| |].
        * cbn. intros J. decompose [or] J; try discriminate; contradiction.
        * eapply lp_more; [cbn; tauto| |].
          -- apply Br; [exact F2|]. apply stops_delim. cbn. tauto.
          -- constructor. cbn. intros J. decompose [or] J; try discriminate; contradiction.
    - intros n d Hn Hd K. cbn [ok_e] in K. apply andb_prop in K. destruct K as [K1 K2].
      apply from_top; [cbn [pl]; lia|]. cbn [pl]. intros rest T.
      apply (read_call "roll" [pt_t fl n; pt_t fl d] [py_t fl n; py_t fl d]);
        [apply name_ok; reflexivity|repeat constructor; apply T_as; auto|exact T].
    - intros d Hd K. apply from_top; [cbn [pl]; lia|]. cbn [pl]. intros rest T.
      apply (read_call "roll" [pt_t fl d] [py_t fl d]);
        [apply name_ok; reflexivity|repeat constructor; apply T_as; auto|exact T].
    - intros t Ht K. assert (B : RB (ETerm t)) by exact (Ht K). split; [|exact B].
      intros k r e' r' K1 K2 T Lp. apply (rd_bin k _ (py_t fl t) r); [exact K1| |exact Lp].
      apply B; [cbn [pl]; pose proof (plt_5 fl t); lia|exact T].
    - intros s K. cbn [ok_t] in K. apply andb_prop in K. destruct K as [_ K].
      apply T_of_top; [cbn; lia|]. intros r T. apply atom; [|exact T]. constructor. now apply number_plain.
    - intros a b K. apply T_of_top; [cbn; lia|]. intros r T. apply atom; [|exact T]. constructor.
      intros _. right. rewrite !string_app_chars. apply in_or_app. right. left. reflexivity.
    - intros x K. cbn [ok_t] in K. unfold ok_var in K. apply andb_prop in K. destruct K as [_ K].
      apply negb_true_iff in K. apply T_of_top; [cbn; lia|]. intros r T.
      apply read_var; [now apply name_ok|exact T].
    - intros p ps K. apply T_of_top; [cbn; lia|]. intros r T. apply atom; [|exact T]. exact (read_str (p :: ps) r K).
    - intros es F K. apply T_of_top; [cbn; lia|]. intros r T.
      change (pt_t fl (TSeq es)) with (call_toks "get_seq" [PO "[" :: commas (map (pt_l fl) es) ++ [PO "]"]]).
      change (py_t fl (TSeq es)) with (call "get_seq" [PList (map (py_l fl) es)]).
      apply read_call; [apply name_ok; reflexivity| |exact T]. constructor; [|constructor].
      intros r2 T2. cbn [app]. rewrite <- app_assoc. cbn [app]. apply (lift 8); [lia|lia| |exact T2].
      apply rd_list. apply read_items. cbn [ok_t] in K.
      clear - F K. induction F as [|x es H F IH]; [constructor|].
      cbn [forallb map] in *. apply andb_prop in K. constructor; [apply H|apply IH]; tauto.
    - intros e He K. destruct (He K) as [_ B]. apply T_of_top; [cbn; lia|]. intros r T.
      change (pt_t fl (TGroup e)) with (PO "(" :: pt_e fl e ++ [PO ")"]). cbn [app]. rewrite <- app_assoc. cbn [app].
      apply atom; [|exact T]. apply rd_paren. apply (B_as e B). apply stops_delim. cbn. tauto.
    - intros cs F K. cbn [ok_t] in K. apply andb_prop in K. destruct K as [K1 K2].
      unfold ok_name in K1. apply andb_prop in K1. destruct K1 as [_ K1]. apply negb_true_iff in K1.
      apply T_of_top; [cbn; lia|]. intros r T.
      change (pt_t fl (TCall cs)) with (call_toks (mangle fl (call_shape cs))
        (flat_map (pt_c fl) cs ++ if fl_vars fl then [[PN "vars"]] else [])).
      change (py_t fl (TCall cs)) with (call (fun_name fl (call_shape cs))
        (flat_map (py_c fl) cs ++ if fl_vars fl then [PName "vars"] else [])).
      change (fun_name fl (call_shape cs)) with (mangle fl (call_shape cs)).
      apply read_call; [now apply name_ok| |exact T]. apply Forall2_app.
      + clear - F K2. induction F as [|c cs H F IH]; [constructor|].
        cbn [forallb flat_map] in *. apply andb_prop in K2. apply Forall2_app; [apply H|apply IH]; tauto.
      + destruct (fl_vars fl); repeat constructor. exact vars_as.
    - intros u t Ht K. specialize (Ht K).
      assert (P : 5 <= plt fl t) by apply plt_5.
      assert (U : forall o r, In o ["+"; "-"; "~"] -> stops 5 r ->
                  reads 5 (PO o :: pt_t fl t ++ r) (PUnary o (py_t fl t)) r).
      { intros o r I T. apply rd_un; [exact I|]. apply Ht; [exact P|exact T]. }
      assert (G : forall o, In o ["+"; "-"; "~"] -> plt fl (TUn u t) = 5 ->
        pt_t fl (TUn u t) = PO o :: pt_t fl t -> py_t fl (TUn u t) = PUnary o (py_t fl t) -> RT (TUn u t)).
      { intros o I P5 E1 E2 k r Kk T. rewrite P5 in Kk. rewrite E1, E2. cbn [app].
        apply (lift 5); [exact Kk|lia| |exact T]. apply U; [exact I|]. apply (stops_le k); [exact Kk|exact T]. }
      destruct u.
      + apply (G "+"); [cbn; tauto|reflexivity|reflexivity|reflexivity].
      + apply (G "-"); [cbn; tauto|reflexivity|reflexivity|reflexivity].
      + destruct (fl_oplib fl) eqn:OL.
        * apply T_of_top; [cbn [plt]; rewrite OL; lia|]. intros r T.
          cbn [pt_t py_t]. unfold pt_un, py_un. rewrite OL.
          apply (read_call "myInvert" [pt_t fl t] [py_t fl t]);
            [apply name_ok; reflexivity|repeat constructor; now apply T_as|exact T].
        * apply (G "~"); [cbn; tauto|cbn [plt]; now rewrite OL| |].
          -- cbn [pt_t]. unfold pt_un. now rewrite OL.
          -- cbn [py_t]. unfold py_un. now rewrite OL.
    - intros t Ht K. apply T_of_top; [cbn; lia|]. intros r T.
      change (pt_t fl (THash t)) with (call_toks (if fl_oplib fl then "myLen" else "len") [pt_t fl t]).
      change (py_t fl (THash t)) with (call (if fl_oplib fl then "myLen" else "len") [py_t fl t]).
      apply read_call; [apply name_ok; destruct (fl_oplib fl); reflexivity|repeat constructor; apply T_as; auto|exact T].
    - intros e He K. apply B_as, He, K.
    - intros a b Ha Hb K. cbn [ok_l] in K. apply andb_prop in K. destruct K as [K1 K2].
      intros r T. apply (lift 7); [lia|lia| |exact T].
      apply (read_call "myrange" [pt_e fl a; pt_e fl b] [py_e fl a; py_e fl b]);
        [apply name_ok; reflexivity|repeat constructor; apply B_as; [apply Ha|apply Hb]; assumption|].
      apply (stops_le 0); [lia|exact T].
    - constructor.
    - intros e He K. constructor; [apply B_as, He, K|constructor].
  Qed.

  Theorem expression_reads : forall e, ok_e fl e = true -> py_expression (gen_e fl e) (py_e fl e).
  Proof.
    intros e K. exists (pt_e fl e). split.
    - apply lexes_all. exact (proj1 (lex_gen fl) e K).
    - destruct (proj1 read_gen e K) as [_ B]. pose proof (B 0 [] ltac:(lia) (stops_end 0)) as R.
      now rewrite app_nil_r in R.
  Qed.
End read.
