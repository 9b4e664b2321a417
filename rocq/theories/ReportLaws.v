(** Places in reports, and what the reports of the compiler say. *)
From Coq Require Import String Ascii Bool List Arith Lia.
From Verif Require Import PyBase LexModel LexSpec LexFacts GramModel ParseModel LrFacts SynSpec SynInd ExprParse ExprParse2 StmtParse SynNorm ParseSound ParseLaws ResolveModel ViableFacts ReportModel ReportSpec ReportFacts.
Import ListNotations.
Open Scope list_scope.
Open Scope nat_scope.

(** ** Lines and columns *)

Lemma walk_column : forall n s l c, n <= String.length s ->
  snd (walk s n l c) = match rfind_newline s n with Some i => n - S i + 1 | None => c + n end.
Proof.
  induction n as [|n IH]; intros s l c L; [destruct s; cbn; lia|].
  destruct s as [|d s]; [cbn in L; lia|]. cbn [walk rfind_newline String.length] in *.
  destruct (Ascii.eqb d cNL).
  - rewrite IH by lia. destruct (rfind_newline s n); lia.
  - rewrite IH by lia. destruct (rfind_newline s n); lia.
Qed.

Lemma find_column_right : forall s n, n <= String.length s -> find_column s n = column_of s n.
Proof.
  intros s n L. unfold column_of. rewrite walk_column by exact L. unfold find_column.
  destruct (rfind_newline s n); lia.
Qed.

Lemma walk_line : forall a b l c, fst (walk (a ++ b) (String.length a) l c) = l + newlines a.
Proof.
  induction a as [|d a IH]; intros b l c.
  - destruct b; cbn; lia.
  - cbn [String.length newlines append walk]. destruct (Ascii.eqb d cNL); rewrite IH; lia.
Qed.

Lemma line_right : forall a b, line_of (a ++ b) (String.length a) = 1 + newlines a.
Proof. intros a b. unfold line_of. apply walk_line. Qed.

Lemma newlines_app : forall a b, newlines (a ++ b) = newlines a + newlines b.
Proof. induction a as [|c a IH]; intros b; [reflexivity|]. cbn [append newlines]. rewrite IH. lia. Qed.

Lemma all_counted_app : forall a b, all_counted (a ++ b) = all_counted a + all_counted b.
Proof. intros a b. unfold all_counted. now rewrite map_app, list_sum_app. Qed.

Lemma placed_app : forall a b pos line, placed pos line (a ++ b) =
  placed pos line a ++ placed (pos + String.length (whole_text a)) (line + all_counted a) b.
Proof.
  induction a as [|p a IH]; intros b pos line.
  - cbn. now rewrite !Nat.add_0_r.
  - cbn [app placed]. rewrite IH, whole_cons, slen_app.
    change (all_counted (p :: a)) with (counted p + all_counted a). now rewrite !Nat.add_assoc.
Qed.

Lemma in_placed : forall ps pos line p pl, In (p, pl) (placed pos line ps) <->
  exists a b, ps = a ++ p :: b /\ pl = mkPlace (pos + String.length (whole_text a)) (line + all_counted a).
Proof.
  intros ps pos line p pl. split.
  - revert pos line; induction ps as [|q ps IH]; intros pos line H; [destruct H|].
    cbn [placed] in H. destruct H as [H|H].
    + injection H as <- <-. exists [], ps. split; [reflexivity|]. cbn. now rewrite !Nat.add_0_r.
    + destruct (IH _ _ H) as (a & b & -> & ->). exists (q :: a), b. split; [reflexivity|].
      rewrite whole_cons, slen_app. change (all_counted (q :: a)) with (counted q + all_counted a). now rewrite !Nat.add_assoc.
  - intros (a & b & -> & ->). rewrite placed_app. apply in_or_app. right. now left.
Qed.

Lemma no_newline : forall (P : ascii -> Prop) s, (forall c, P c -> c <> cNL) -> all_chars P s -> newlines s = 0.
Proof.
  intros P s H A. induction s as [|c s IH]; [reflexivity|]. inversion A as [|? ? HC HA]; subst.
  cbn [newlines]. rewrite (IH HA). destruct (Ascii.eqb c cNL) eqn:E; [|reflexivity].
  apply Ascii.eqb_eq in E. exfalso. exact (H c HC E).
Qed.

Ltac not_nl := let H := fresh in let E := fresh in intros ? H E; subst; vm_compute in H;
  repeat (destruct H as [H|H]; [discriminate H|]); destruct H.

Lemma token_lines : forall t s, token_text t s -> newlines s = 0.
Proof.
  intros t s H. destruct H; try reflexivity.
  - destruct H as [_ H]. apply (no_newline digit); [not_nl|exact H].
  - destruct H as [_ H]. apply (no_newline upper_letter); [not_nl|exact H].
  - destruct H; reflexivity.
  - destruct H as [_ H]. apply (no_newline lower_letter); [not_nl|exact H].
  - destruct H as [_ H]. apply (no_newline string_char); [now intros c [H0 _]|exact H].
  - rewrite !newlines_app. destruct H as [_ H]. rewrite (no_newline upper_letter v); [reflexivity|not_nl|exact H].
  - rewrite newlines_app. rewrite (no_newline string_char s); [reflexivity|now intros c [H0 _]|exact H].
Qed.

Lemma piece_lines : forall p, piece_ok p -> newlines (piece_text p) = counted p + uncounted p.
Proof.
  intros [[t s]|s|c] H; cbn [piece_ok piece_text] in *.
  - rewrite (token_lines t s H). reflexivity.
  - destruct H as [| |s H|s H|]; try reflexivity.
    destruct H as [H1 H2]. destruct s as [|c s]; [contradiction|]. inversion H2 as [|? ? HC HA]; subst.
    unfold counted, uncounted. change (Ascii.eqb cNL cNL) with true. change (Ascii.eqb cNL cBACK) with false. cbv iota. now rewrite Nat.add_0_r.
  - unfold counted, uncounted. cbn [newlines]. destruct (Ascii.eqb c cNL); reflexivity.
Qed.

Lemma pieces_lines : forall ps, Forall piece_ok ps ->
  newlines (whole_text ps) = all_counted ps + all_uncounted ps.
Proof.
  induction ps as [|p ps IH]; intros H; [reflexivity|]. inversion H as [|? ? H1 H2]; subst.
  rewrite whole_cons, newlines_app, IH, (piece_lines p H1) by assumption.
  change (all_counted (p :: ps)) with (counted p + all_counted ps).
  change (all_uncounted (p :: ps)) with (uncounted p + all_uncounted ps). lia.
Qed.

(** ** Where entries point *)

Lemma whole_split : forall a p b, whole_text (a ++ p :: b) = (whole_text a ++ piece_text p ++ whole_text b)%string.
Proof. intros a p b. now rewrite whole_app, whole_cons. Qed.

Lemma pos_in : forall a b, String.length a <= String.length (a ++ b).
Proof. intros a b. rewrite slen_app. lia. Qed.

Lemma line_here : forall src ps a b e, lex src = (ps, e) -> ps = a ++ b ->
  line_of src (String.length (whole_text a)) = 1 + all_counted a + all_uncounted a.
Proof.
  intros src ps a b e L E. pose proof (lex_partition src) as [W OK]. rewrite L in W, OK. cbn [fst] in W, OK.
  rewrite <- W, E, whole_app, line_right, pieces_lines; [lia|]. rewrite E in OK. apply Forall_app in OK. tauto.
Qed.

Lemma lex_report_illegal : forall src ps e x, lex src = (ps, e) ->
  In x (flat_map (fun pp => match fst pp with
                            | Illegal c => [entry_at src (String c EmptyString) (snd pp)]
                            | _ => []
                            end) (placed 0 1 ps)) <-> illegal_entry src ps x.
Proof.
  intros src ps e x L. pose proof (lex_partition src) as [W OK]. rewrite L in W, OK. cbn [fst] in W, OK.
  rewrite in_flat_map. split.
  - intros ([p pl] & IN & H). apply in_placed in IN. destruct IN as (a & b & EP & ->). cbn [fst snd] in H.
    destruct p as [t|s|c]; [destruct H|destruct H|]. destruct H as [<-|[]]. exists a, c, b. unfold entry_at. cbn [e_value e_pos e_line e_col at_pos at_line].
    split; [exact EP|]. split; [reflexivity|]. split; [reflexivity|]. split.
    + apply find_column_right. rewrite <- W, EP, whole_split. apply pos_in.
    + exact (line_here src ps a _ e L EP).
  - intros (a & c & b & EP & E1 & E2 & E3 & E4).
    exists (Illegal c, mkPlace (0 + String.length (whole_text a)) (1 + all_counted a)). split.
    + apply in_placed. now exists a, b.
    + left. unfold entry_at. cbn [fst snd at_pos at_line]. rewrite find_column_right by (rewrite <- W, EP, whole_split; apply pos_in).
      rewrite E2, (line_here src ps a _ e L EP) in E4. 
      destruct x as [v n l k]. cbn [e_value e_pos e_line e_col] in *. subst.
      replace l with (1 + all_counted a) by lia. reflexivity.
Qed.

Lemma piece_len : forall p, piece_ok p -> 0 < String.length (piece_text p).
Proof.
  intros [[t s]|s|c] H; cbn [piece_ok piece_text] in *; [| |cbn; lia].
  - destruct H; cbn; try lia; try (destruct H as [H _]; destruct s; [contradiction|cbn; lia]).
    destruct H; cbn; lia.
  - destruct H; cbn; try lia. destruct H as [H _]. destruct s; [contradiction|cbn; lia].
Qed.

Lemma placed_sorted : forall ps pos line, Forall piece_ok ps ->
  Sorted.StronglySorted (fun a b : piece * place => at_pos (snd a) < at_pos (snd b)) (placed pos line ps) /\
  Forall (fun a : piece * place => pos <= at_pos (snd a)) (placed pos line ps).
Proof.
  induction ps as [|p ps IH]; intros pos line OK; cbn [placed]; [split; constructor|].
  inversion OK as [|? ? O1 O2]; subst.
  destruct (IH (pos + String.length (piece_text p)) (line + counted p) O2) as [S F].
  assert (0 < String.length (piece_text p)) as L by (apply piece_len; exact O1).
  split.
  - constructor; [exact S|]. eapply Forall_impl; [|exact F]. intros [q pl] H. cbn [snd at_pos] in *. lia.
  - constructor; [cbn [snd at_pos]; lia|]. eapply Forall_impl; [|exact F]. intros [q pl] H. cbn [snd at_pos] in *. lia.
Qed.

Lemma filter_sorted : forall src l, Sorted.StronglySorted (fun a b : piece * place => at_pos (snd a) < at_pos (snd b)) l ->
  in_order (flat_map (fun pp => match fst pp with
                                | Illegal c => [entry_at src (String c EmptyString) (snd pp)]
                                | _ => []
                                end) l) /\
  (forall n, Forall (fun a : piece * place => n < at_pos (snd a)) l ->
     Forall (fun e => n < e_pos e) (flat_map (fun pp => match fst pp with
                                | Illegal c => [entry_at src (String c EmptyString) (snd pp)]
                                | _ => []
                                end) l)).
Proof.
  intros src l. induction l as [|[p pl] l IH]; intros S; [split; [constructor|intros n _; constructor]|].
  inversion S as [|? ? S1 S2]; subst. destruct (IH S1) as [A B]. cbn [flat_map fst snd] in *. split.
  - destruct p as [t|s|c]; [exact A|exact A|]. cbn [app]. constructor; [exact A|]. apply B. exact S2.
  - intros n F. inversion F as [|? ? F1 F2]; subst. apply B in F2.
    destruct p as [t|s|c]; [exact F2|exact F2|]. cbn [app]. constructor; [exact F1|exact F2].
Qed.

Lemma sorted_snoc : forall l e, in_order l -> Forall (fun x => e_pos x < e_pos e) l -> in_order (l ++ [e]).
Proof.
  induction l as [|x l IH]; intros e S F; [repeat constructor|].
  inversion S as [|? ? S1 S2]; subst. inversion F as [|? ? F1 F2]; subst. cbn [app]. constructor; [now apply IH|].
  apply Forall_app. split; [exact S2|]. now repeat constructor.
Qed.

Theorem lex_report_exact : forall src ps e, lex src = (ps, e) ->
  in_order (lex_report src) /\
  forall x, In x (lex_report src) <-> illegal_entry src ps x \/ (e = Instring /\ open_entry src ps x).
Proof.
  intros src ps e L. pose proof (lex_partition src) as [W OK]. rewrite L in W, OK. cbn [fst] in W, OK.
  unfold lex_report. rewrite L.
  set (l := flat_map (fun pp => match fst pp with
                      | Illegal c => [entry_at src (String c EmptyString) (snd pp)]
                      | _ => []
                      end) (placed 0 1 ps)) in *.
  assert (in_order l) as SO by (apply filter_sorted, placed_sorted; exact OK).
  assert (forall x, In x l <-> illegal_entry src ps x) as IN by (intros x; exact (lex_report_illegal src ps e x L)).
  destruct e.
  - rewrite app_nil_r. split; [exact SO|]. intros x. rewrite IN. split; [now left|]. intros [H|[H _]]; [exact H|discriminate H].
  - split.
    + apply sorted_snoc; [exact SO|]. rewrite Forall_forall. intros x H. apply IN in H.
      destruct H as (a & c & b & EP & _ & E2 & _). rewrite E2. unfold entry_at. cbn [e_pos at_pos].
      rewrite <- W, EP, whole_split, !slen_app. cbn [piece_text String.length]. lia.
    + intros x. rewrite in_app_iff, IN. apply or_iff_compat_l.
      pose proof (line_here src ps ps [] Instring L (eq_sym (app_nil_r ps))) as LH. rewrite W in LH.
      split.
      * intros [<-|[]]. split; [reflexivity|]. unfold open_entry, entry_at. cbn [e_value e_pos e_line e_col at_pos at_line].
        split; [reflexivity|]. split; [reflexivity|]. split; [now apply find_column_right|exact LH].
      * intros (_ & E1 & E2 & E3 & E4). left. unfold entry_at. cbn [at_pos at_line].
        rewrite find_column_right by lia. rewrite E2 in E3, E4. rewrite LH in E4.
        destruct x as [v n k c]. cbn [e_value e_pos e_line e_col] in *. subst.
        replace k with (1 + all_counted ps) by lia. reflexivity.
Qed.

(** ** The specification determines the faults *)

Lemma split_first : forall (A : Set) (a a' : list (tok * A)) t t' b b', a ++ t :: b = a' ++ t' :: b' ->
  begins (map fst a) -> ~ begins (map fst a ++ [fst t]) -> begins (map fst a') -> ~ begins (map fst a' ++ [fst t']) ->
  a = a' /\ t = t' /\ b = b'.
Proof.
  intros A a a' t t' b b' E B N B' N'.
    assert (forall (c c' : list (tok * A)) u d d' u', c ++ u :: d = c' ++ u' :: d' -> List.length c = List.length c' -> c = c' /\ u = u' /\ d = d') as EQ.
    { clear. induction c as [|x c IH]; intros [|y c'] u d d' u' E L; try discriminate L.
      - injection E as -> ->. auto.
      - cbn [app] in E. injection E as -> E. assert (List.length c = List.length c') as L' by (cbn [List.length] in L; lia). destruct (IH c' u d d' u' E L') as (-> & -> & ->). auto. }
    assert (forall (c c' : list (tok * A)) u d d' u', c ++ u :: d = c' ++ u' :: d' -> List.length c < List.length c' ->
              exists m, c' = c ++ u :: m) as LT.
    { clear. induction c as [|x c IH]; intros [|y c'] u d d' u' E L; cbn [List.length] in L; try lia; cbn [app] in E.
      - injection E as -> E. now exists c'.
      - injection E as -> E. destruct (IH c' u d d' u' E) as [m ->]; [lia|]. now exists m. }
    destruct (lt_eq_lt_dec (List.length a) (List.length a')) as [[L|L]|L].
    + exfalso. destruct (LT _ _ _ _ _ _ E L) as [m M]. subst a'. apply N.
      rewrite map_app in B'. cbn [map] in B'. change (fst t :: map fst m) with ([fst t] ++ map fst m) in B'.
      rewrite app_assoc in B'. exact (begins_prefix _ _ B').
    + exact (EQ _ _ _ _ _ _ E L).
    + exfalso. destruct (LT _ _ _ _ _ _ (eq_sym E) L) as [m M]. rewrite M in B. apply N'.
      rewrite map_app in B. cbn [map] in B. change (fst t' :: map fst m) with ([fst t'] ++ map fst m) in B.
      rewrite app_assoc in B. exact (begins_prefix _ _ B).
Qed.

Theorem faults_unique : forall (A : Set) first (ts es : list (tok * A)), faults first ts es ->
  forall es', faults first ts es' -> es = es'.
Proof.
  intros A first ts es F; induction F as [first ts B|first a t b es B N F IH]; intros es' F'.
  - inversion F' as [|first' a t b es1 B' N' F1 E1 E2 E3]; subst; [reflexivity|]. exfalso. apply N'.
    rewrite map_app in B. cbn [map] in B. change (fst t :: map fst b) with ([fst t] ++ map fst b) in B.
    rewrite app_assoc in B. exact (begins_prefix _ _ B).
  - inversion F' as [first' ts' B' E1 E2 E3|first' a' t' b' es1 B' N' F1 E1 E2 E3]; subst.
    + exfalso. apply N. rewrite map_app in B'. cbn [map] in B'. change (fst t :: map fst b) with ([fst t] ++ map fst b) in B'.
      rewrite app_assoc in B'. exact (begins_prefix _ _ B').
    + destruct (split_first A a a' t t' b b' (eq_sym E2) B N B' N') as (-> & -> & ->). f_equal. now apply IH.
Qed.

Lemma faults_map : forall (A B : Set) (f : A -> B) first ts es, faults first ts es ->
  faults first (map (fun x => (fst x, f (snd x))) ts) (map (fun x => (fst x, f (snd x))) es).
Proof.
  intros A B f first ts es F.
  assert (forall l, map fst (map (fun x : tok * A => (fst x, f (snd x))) l) = map fst l) as MF
    by (intros l; rewrite map_map; now apply map_ext).
  induction F as [first ts BE|first a t b es BE N F IH].
  - apply faults_none. now rewrite MF.
  - rewrite !map_app. cbn [map].
    replace (map (fun x => (fst x, f (snd x))) (if first || (3 <=? List.length a) then [t] else []))
      with (if first || (3 <=? List.length (map (fun x => (fst x, f (snd x))) a)) then [(fst t, f (snd t))] else [])
      by (rewrite map_length; now destruct (first || (3 <=? List.length a))).
    apply faults_some; [now rewrite MF|now rewrite MF|exact IH].
Qed.

Lemma faults_incl : forall (A : Set) first (ts es : list (tok * A)), faults first ts es -> incl es ts.
Proof.
  intros A first ts es F. induction F as [first ts B|first a t b es B N F IH]; [intros x []|].
  intros x H. apply in_app_or in H. apply in_or_app. right. destruct H as [H|H].
  - left. destruct (first || _); [destruct H as [H|[]]; exact H|destruct H].
  - right. now apply IH.
Qed.

Lemma faults_true_nil : forall (A : Set) (ts : list (tok * A)), faults true ts [] -> begins (map fst ts).
Proof.
  intros A ts F. inversion F as [first ts' B E1 E2 E3|first a t b es B N F1 E1 E2 E3]; subst; exact B.
Qed.

Lemma faults_begins : forall (A : Set) first (ts es : list (tok * A)), faults first ts es -> begins (map fst ts) -> es = [].
Proof. intros A first ts es F B. exact (faults_unique A first ts es F [] (faults_none first ts B)). Qed.

(** ** The reports of the compiler *)

Lemma lex_ok_report : forall src, lex_ok src = true <-> lex_report src = [].
Proof.
  intros src. unfold lex_ok. destruct (lex src) as [ps e] eqn:L.
  destruct (lex_report_exact src ps e L) as [_ IN]. split.
  - intros H. destruct (illegals_of ps) as [|c cs] eqn:IL; [|discriminate H]. destruct e; [|discriminate H].
    destruct (lex_report src) as [|x l] eqn:R; [reflexivity|]. exfalso.
    destruct (proj1 (IN x) (or_introl eq_refl)) as [(a & c & b & -> & _)|[K _]]; [|discriminate K].
    unfold illegals_of in IL. rewrite flat_map_app in IL. cbn [flat_map] in IL.
    apply app_eq_nil in IL. destruct IL as [_ IL]. discriminate IL.
  - intros H. rewrite H in IN.
    destruct (illegals_of ps) as [|c cs] eqn:IL.
    + destruct e; [reflexivity|]. exfalso.
      pose proof (line_here src ps ps [] Instring L (eq_sym (app_nil_r ps))) as LH.
      pose proof (lex_partition src) as [W _]. rewrite L in W. cbn [fst] in W. rewrite W in LH.
      apply (proj2 (IN (mkEntry "Non-closed string" (String.length src) (1 + all_counted ps) (column_of src (String.length src))))).
      right. split; [reflexivity|]. unfold open_entry. cbn [e_value e_pos e_line e_col]. now repeat split.
    + exfalso. assert (In c (illegals_of ps)) as IC by (rewrite IL; now left).
      unfold illegals_of in IC. apply in_flat_map in IC. destruct IC as (p & IP & IC).
      destruct p as [t|s|c']; [destruct IC|destruct IC|]. apply in_split in IP. destruct IP as (a & b & EP).
      apply (proj2 (IN (mkEntry (String c' EmptyString) (String.length (whole_text a)) (1 + all_counted a)
                          (column_of src (String.length (whole_text a)))))).
      left. exists a, c', b. cbn [e_value e_pos e_line e_col]. split; [exact EP|]. split; [reflexivity|].
      split; [reflexivity|]. split; [reflexivity|]. exact (line_here src ps a _ e L EP).
Qed.

Lemma placed_tokens_are : forall src, map fst (placed_tokens src) = tokens_of (fst (lex src)).
Proof.
  intros src. unfold placed_tokens, tokens_of. destruct (lex src) as [ps e]. cbn [fst].
  generalize (1 + all_counted ps) as line. generalize 0 as pos.
  induction ps as [|p ps IH]; intros pos line; [reflexivity|].
  cbn [placed flat_map fst snd]. rewrite map_app, IH. now destruct p.
Qed.

Lemma scan_placed : forall src, lex_report src = [] -> scan src = Some (map fst (placed_tokens src)).
Proof. intros src H. unfold scan. rewrite (proj2 (lex_ok_report src) H), placed_tokens_are. reflexivity. Qed.

Lemma scan_refused : forall src, lex_report src <> [] -> scan src = None.
Proof.
  intros src H. unfold scan. destruct (lex_ok src) eqn:E; [|reflexivity]. apply lex_ok_report in E. contradiction.
Qed.

Theorem report_accepted : forall fl src t, compile_report fl src = Text t <-> compile fl src = Ok t.
Proof.
  intros fl src t. unfold compile_report, compile. destruct (is_blank src); [split; discriminate|].
  destruct (lex_report src) as [|x l] eqn:R.
  2:{ rewrite scan_refused by (rewrite R; discriminate). split; discriminate. }
  pose proof (scan_placed src R) as SC. rewrite SC. pose proof (scan_good src _ SC) as G.
  set (pts := placed_tokens src) in *. pose proof (yacc_finished pts G) as F. unfold finished in F.
  destruct (yacc pts) as [y|v es'|e]; [destruct F| |].
  - destruct F as (es & -> & FA & V). cbn [app] in *. destruct es as [|e0 es].
    + specialize (V (faults_true_nil _ _ FA)). destruct v as [|n| |]; try contradiction.
      * destruct V as (p & W & T & ->). rewrite <- T, (parse_complete p W). cbn [bind].
        destruct (resolve fl (tree p)); split; congruence.
      * split; [discriminate|]. intros H. destruct (parse (map fst pts)) as [v|e] eqn:P; [|discriminate H].
        apply parse_exact in P; [|exact G]. destruct P as (p & W & T & _). exfalso. apply V. now exists p.
    + split; [destruct v; discriminate|]. intros H. destruct (parse (map fst pts)) as [v'|e] eqn:P; [|discriminate H].
      apply parse_exact in P; [|exact G]. destruct P as (p & W & T & _).
      assert (begins (map fst pts)) as B by (exists p, []; rewrite app_nil_r; now split).
      pose proof (faults_begins _ _ _ _ FA B) as E. discriminate E.
  - destruct F as (_ & NB & _). split; [discriminate|]. intros H. destruct (parse (map fst pts)) as [v'|e'] eqn:P; [|discriminate H].
    apply parse_exact in P; [|exact G]. destruct P as (p & W & T & _). exfalso. apply NB. exists p, []. rewrite app_nil_r. now split.
Qed.

Theorem report_blank : forall fl src, compile_report fl src = Blank <-> is_blank src = true.
Proof.
  intros fl src. unfold compile_report. destruct (is_blank src); [tauto|]. split; [|discriminate].
  destruct (lex_report src); [|discriminate]. destruct (yacc _) as [y|v es|e]; try discriminate.
  destruct es; [destruct v|]; try discriminate. destruct (resolve _ _); discriminate.
Qed.

Theorem report_characters : forall fl src ps e, lex src = (ps, e) ->
  (forall l, compile_report fl src = Characters l -> in_order l /\ l <> [] /\
     forall x, In x l <-> illegal_entry src ps x \/ (e = Instring /\ open_entry src ps x)) /\
  ((exists l, compile_report fl src = Characters l) <-> is_blank src = false /\ scan src = None).
Proof.
  intros fl src ps e L. destruct (lex_report_exact src ps e L) as [SO IN].
  unfold compile_report. destruct (is_blank src).
  { split; [discriminate|]. split; [intros [l H]; discriminate H|intros [H _]; discriminate H]. }
  destruct (lex_report src) as [|x l] eqn:R.
  - rewrite (scan_placed src R). split; [|split; [|intros [_ H]; discriminate H]].
    + intros l H. destruct (yacc _) as [y|v es|e']; try discriminate H. destruct es; [destruct v|]; try discriminate H.
      destruct (resolve _ _); discriminate H.
    + intros [l H]. destruct (yacc _) as [y|v es|e']; try discriminate H. destruct es; [destruct v|]; try discriminate H.
      destruct (resolve _ _); discriminate H.
  - rewrite (scan_refused src) by (rewrite R; discriminate). split.
    + intros l' H. injection H as <-. split; [exact SO|]. split; [discriminate|exact IN].
    + split; [now split|]. intros _. now exists (x :: l).
Qed.

(** The tokens of a text with their places. *)
Lemma placed_token_here : forall src t pl, In (t, pl) (placed_tokens src) ->
  exists ps e a b, lex src = (ps, e) /\ ps = a ++ Token t :: b /\
    pl = mkPlace (String.length (whole_text a)) (1 + all_counted ps + all_counted a).
Proof.
  intros src t pl H. unfold placed_tokens in H. destruct (lex src) as [ps e].
  apply in_flat_map in H. destruct H as ([p pl'] & IN & H). apply in_placed in IN. destruct IN as (a & b & E & ->).
  cbn [fst snd] in H. destruct p as [t'|s|c]; [|destruct H|destruct H]. destruct H as [H|[]]. injection H as -> <-.
  exists ps, e, a, b. now repeat split.
Qed.

Lemma placed_token_found : forall src t pl, In (t, pl) (placed_tokens src) ->
  found_at src (at_pos pl) (snd t) /\ find_column src (at_pos pl) = column_of src (at_pos pl).
Proof.
  intros src t pl H. destruct (placed_token_here src t pl H) as (ps & e & a & b & L & E & ->). cbn [at_pos].
  pose proof (lex_partition src) as [W _]. rewrite L in W. cbn [fst] in W. split.
  - exists (whole_text a), (whole_text b). split; [|reflexivity]. rewrite <- W, E, whole_split. now destruct t.
  - apply find_column_right. rewrite <- W, E, whole_split. apply pos_in.
Qed.

(** The tokens and positions of a text. *)
Definition positioned (src : string) : list (tok * nat) := map (fun x => (fst x, at_pos (snd x))) (placed_tokens src).

Lemma positioned_sorted : forall src, Sorted.StronglySorted (fun a b : tok * nat => snd a < snd b) (positioned src).
Proof.
  intros src. unfold positioned, placed_tokens. pose proof (lex_partition src) as [_ OK]. destruct (lex src) as [ps e].
  cbn [fst] in OK. destruct (placed_sorted ps 0 (1 + all_counted ps) OK) as [S _]. revert S.
  generalize (placed 0 (1 + all_counted ps) ps) as l. clear.
  assert (forall l n, Forall (fun a : piece * place => n < at_pos (snd a)) l ->
    Forall (fun a : tok * nat => n < snd a) (map (fun x => (fst x, at_pos (snd x)))
      (flat_map (fun pp : piece * place => match fst pp with Token t => [(t, snd pp)] | _ => [] end) l))) as K.
  { induction l as [|[p pl] l IH]; intros n F; [constructor|]. inversion F as [|? ? F1 F2]; subst.
    cbn [flat_map fst snd] in *. destruct p as [t|s|c]; cbn [app map]; [|now apply IH|now apply IH].
    constructor; [exact F1|now apply IH]. }
  induction l as [|[p pl] l IH]; intros S; [constructor|]. inversion S as [|? ? S1 S2]; subst.
  cbn [flat_map fst snd] in *. destruct p as [t|s|c]; cbn [app map]; [|now apply IH|now apply IH].
  constructor; [now apply IH|]. cbn [fst snd]. apply K. exact S2.
Qed.

Theorem report_tokens : forall fl src l, compile_report fl src = Tokens l ->
  exists (pts es : list (tok * nat)),
    scan src = Some (map fst pts) /\
    Forall (fun tn => found_at src (snd tn) (snd (fst tn))) pts /\
    Sorted.StronglySorted (fun a b => snd a < snd b) pts /\
    faults true pts es /\
    Forall2 (fun tn e => e_value e = snd (fst tn) /\ e_pos e = snd tn /\ e_col e = column_of src (e_pos e)) es l /\
    ~ a_program (map fst pts).
Proof.
  intros fl src l H. unfold compile_report in H. destruct (is_blank src); [discriminate H|].
  destruct (lex_report src) as [|x l'] eqn:R; [|discriminate H].
  pose proof (scan_placed src R) as SC. pose proof (scan_good src _ SC) as G.
  pose proof (yacc_finished _ G) as F. unfold finished in F.
  destruct (yacc (placed_tokens src)) as [y|v es'|e]; [destruct F| |discriminate H].
  destruct F as (es & -> & FA & V). cbn [app] in *.
  assert (l = map (token_entry src) es) as ->.
  { destruct es; [destruct v|]; try (injection H as <-; reflexivity). destruct (resolve _ _); discriminate H. }
  exists (positioned src), (map (fun x => (fst x, at_pos (snd x))) es).
  assert (map fst (positioned src) = map fst (placed_tokens src)) as MF
    by (unfold positioned; rewrite map_map; now apply map_ext).
  split; [now rewrite MF|]. split.
  { rewrite Forall_forall. intros [t n] IN. apply in_map_iff in IN. destruct IN as ([t' pl] & E & IN). injection E as <- <-.
    exact (proj1 (placed_token_found src t' pl IN)). }
  split; [apply positioned_sorted|]. split; [now apply faults_map|]. split.
  { pose proof (faults_incl _ _ _ _ FA) as IC. clear -IC. induction es as [|[t pl] es IH]; [constructor|].
    cbn [map]. constructor; [|apply IH; intros y Y; apply IC; now right].
    unfold token_entry, entry_at. cbn [fst snd e_value e_pos e_col]. split; [reflexivity|]. split; [reflexivity|].
    apply (placed_token_found src t pl). apply IC. now left. }
  rewrite MF. intros (p & W & T).
  assert (begins (map fst (placed_tokens src))) as B by (exists p, []; rewrite app_nil_r; now split).
  rewrite (faults_begins _ _ _ _ FA B) in H. specialize (V B). destruct v as [|n| |]; try contradiction.
  - destruct (resolve _ _); discriminate H.
  - apply V. now exists p.
Qed.

(** An empty report: the text ends too early. *)
Theorem report_early : forall fl src, compile_report fl src = Tokens [] <->
  is_blank src = false /\ exists ts, scan src = Some ts /\ begins ts /\ ~ a_program ts.
Proof.
  intros fl src. split.
  - intros H. destruct (report_tokens fl src [] H) as (pts & es & SC & _ & _ & FA & F2 & NP).
    inversion F2; subst. split.
    + unfold compile_report in H. now destruct (is_blank src).
    + exists (map fst pts). split; [exact SC|]. split; [exact (faults_true_nil _ _ FA)|exact NP].
  - intros (B & ts & SC & BE & NP). unfold compile_report. rewrite B.
    destruct (lex_report src) as [|x l] eqn:R.
    2:{ rewrite scan_refused in SC by (rewrite R; discriminate). discriminate SC. }
    rewrite (scan_placed src R) in SC. injection SC as <-.
    pose proof (scan_good src _ (scan_placed src R)) as G. pose proof (yacc_finished _ G) as F. unfold finished in F.
    destruct (yacc (placed_tokens src)) as [y|v es'|e]; [destruct F| |destruct F as (_ & F & _); contradiction].
    destruct F as (es & -> & FA & V). rewrite (faults_begins _ _ _ _ FA BE) in *. specialize (V BE).
    destruct v as [|n| |]; try contradiction; [|reflexivity].
    destruct V as (p & W & T & _). exfalso. apply NP. now exists p.
Qed.

Theorem report_raised : forall fl src e, compile_report fl src = Raised e ->
  exists ts, scan src = Some ts /\
    ((e = IndexErr /\ crash_shape ts /\ ~ begins ts) \/
     exists p, wf p = true /\ toks p = ts /\ resolve fl (tree p) = Err e).
Proof.
  intros fl src e H. unfold compile_report in H. destruct (is_blank src); [discriminate H|].
  destruct (lex_report src) as [|x l'] eqn:R; [|discriminate H].
  pose proof (scan_placed src R) as SC. pose proof (scan_good src _ SC) as G.
  exists (map fst (placed_tokens src)). split; [exact SC|].
  pose proof (yacc_finished _ G) as F. unfold finished in F.
  destruct (yacc (placed_tokens src)) as [y|v es'|e']; [destruct F| |].
  - right. destruct F as (es & -> & FA & V). cbn [app] in *. destruct es; [|destruct v; discriminate H].
    destruct v as [|n| |]; try discriminate H. destruct (V (faults_true_nil _ _ FA)) as (p & W & T & ->).
    exists p. split; [exact W|]. split; [exact T|]. destruct (resolve fl (tree p)); [discriminate H|congruence].
  - left. injection H as ->. destruct F as (-> & NB & CS). now repeat split.
Qed.

(** ** Lines *)

Lemma no_back_pieces : forall src ps e, lex src = (ps, e) -> no_comments src ->
  forall a b, ps = a ++ b -> (forall c, In (Illegal c) a -> c <> cNL) -> all_uncounted a = 0.
Proof.
  intros src ps e L NC a b E NI. pose proof (lex_partition src) as [W _]. rewrite L in W. cbn [fst] in W.
  assert (forall p, In p a -> uncounted p = 0) as Z.
  { intros p IN. destruct p as [t|s|c]; [reflexivity| |].
    - destruct s as [|c s]; [reflexivity|]. cbn [uncounted]. destruct (Ascii.eqb c cBACK) eqn:EB; [|reflexivity].
      exfalso. apply Ascii.eqb_eq in EB. subst c. apply NC. apply in_split in IN. destruct IN as (a1 & a2 & ->).
      rewrite <- W, E, <- app_assoc. cbn [app]. rewrite whole_split.
      cbn [piece_text append]. unfold chars. 
      assert (forall x y, list_ascii_of_string (x ++ y)%string = list_ascii_of_string x ++ list_ascii_of_string y) as LA.
      { induction x as [|d x IH]; intros y; [reflexivity|]. cbn [append list_ascii_of_string app]. now rewrite IH. }
      rewrite LA. apply in_or_app. right. cbn [list_ascii_of_string]. now left.
    - cbn [uncounted]. destruct (Ascii.eqb c cNL) eqn:EN; [|reflexivity]. apply Ascii.eqb_eq in EN.
      exfalso. exact (NI c IN EN). }
  clear -Z. unfold all_uncounted. induction a as [|p a IH]; [reflexivity|].
  change (uncounted p + list_sum (map uncounted a) = 0). rewrite (Z p (or_introl eq_refl)), IH; [reflexivity|].
  intros q Q. apply Z. now right.
Qed.

(** Without comments the first illegal character is reported on its line. *)
Theorem report_first_line : forall fl src e l, no_comments src -> compile_report fl src = Characters (e :: l) ->
  e_line e = line_of src (e_pos e).
Proof.
  intros fl src e l NC H. destruct (lex src) as [ps st] eqn:L.
  destruct (proj1 (report_characters fl src ps st L) _ H) as (SO & _ & IN).
  pose proof (lex_partition src) as [W _]. rewrite L in W. cbn [fst] in W.
  assert (forall a b c, ps = a ++ Illegal c :: b -> e_pos e <= String.length (whole_text a)) as MIN.
  { intros a b c E. pose proof (line_here src ps a _ st L E) as LH.
    assert (illegal_entry src ps (mkEntry (String c EmptyString) (String.length (whole_text a)) (1 + all_counted a)
               (column_of src (String.length (whole_text a))))) as IE.
    { exists a, c, b. cbn [e_value e_pos e_line e_col]. now repeat split. }
    pose proof (proj2 (IN _) (or_introl IE)) as K. destruct K as [K|K]; [rewrite K; cbn [e_pos]; lia|].
    inversion SO as [|? ? S1 S2]; subst. rewrite Forall_forall in S2. specialize (S2 _ K). cbn [e_pos] in S2. lia. }
  destruct (proj1 (IN e) (or_introl eq_refl)) as [(a & c & b & E & _ & EP & _ & EL)|[_ (_ & EP & _ & EL)]].
  - rewrite EL, (no_back_pieces src ps st L NC a (Illegal c :: b) E); [lia|].
    intros d ID ->. apply in_split in ID. destruct ID as (a1 & a2 & EA). subst a.
    pose proof (MIN a1 (a2 ++ Illegal c :: b) cNL) as M. rewrite E, <- app_assoc in M. specialize (M eq_refl).
    rewrite EP, whole_split, !slen_app in M. cbn [piece_text String.length] in M. lia.
  - rewrite EL, (no_back_pieces src ps st L NC ps [] (eq_sym (app_nil_r ps))); [lia|].
    intros d ID ->. apply in_split in ID. destruct ID as (a1 & a2 & EA).
    pose proof (MIN a1 a2 cNL EA) as M.
    rewrite EP, <- W, EA, whole_split, !slen_app in M. cbn [piece_text String.length] in M. lia.
Qed.

(** The line of a token is counted twice over. *)
Theorem report_token_lines : forall fl src l x, no_comments src -> compile_report fl src = Tokens l -> In x l ->
  e_line x = line_of src (e_pos x) + newlines src.
Proof.
  intros fl src l x NC H IN. unfold compile_report in H. destruct (is_blank src); [discriminate H|].
  destruct (lex_report src) as [|x0 l'] eqn:R; [|discriminate H].
  pose proof (scan_placed src R) as SC. pose proof (scan_good src _ SC) as G.
  pose proof (yacc_finished _ G) as F. unfold finished in F.
  destruct (yacc (placed_tokens src)) as [y|v es'|e]; [destruct F| |discriminate H].
  destruct F as (es & -> & FA & _). cbn [app] in *.
  assert (l = map (token_entry src) es) as ->.
  { destruct es; [destruct v|]; try (injection H as <-; reflexivity). destruct (resolve _ _); discriminate H. }
  apply in_map_iff in IN. destruct IN as ([t pl] & <- & IN). apply (faults_incl _ _ _ _ FA) in IN.
  destruct (placed_token_here src t pl IN) as (ps & e & a & b & L & E & ->).
  unfold token_entry, entry_at. cbn [fst snd e_line e_pos at_line at_pos].
  destruct (lex_report_exact src ps e L) as [_ NI]. rewrite R in NI.
  assert (forall c, ~ In (Illegal c) ps) as NOI.
  { destruct (scan_pieces src _ SC) as (ps' & L' & _ & _ & _ & K). rewrite L in L'. injection L' as <- _. exact K. }
  rewrite (line_here src ps a _ e L E).
  rewrite (no_back_pieces src ps e L NC a (Token t :: b) E).
  2:{ intros c IC. exfalso. apply (NOI c). rewrite E. apply in_or_app. now left. }
  pose proof (lex_partition src) as [W OK]. rewrite L in W, OK. cbn [fst] in W, OK.
  rewrite <- W at 1. rewrite (pieces_lines ps OK).
  rewrite (no_back_pieces src ps e L NC ps [] (eq_sym (app_nil_r ps))); [lia|].
  intros c IC. exfalso. exact (NOI c IC).
Qed.

Theorem report_first : forall fl src e l, compile_report fl src = Tokens (e :: l) ->
  exists (a b : list tok) t, scan src = Some (a ++ t :: b) /\ begins a /\ ~ begins (a ++ [t]) /\
    e_value e = snd t /\ found_at src (e_pos e) (snd t) /\ e_col e = column_of src (e_pos e).
Proof.
  intros fl src e l H. destruct (report_tokens fl src _ H) as (pts & es & SC & FO & _ & FA & F2 & _).
  inversion F2 as [|x y es' l0 (V & P & C) F2' E1 E2]; subst.
  remember (x :: es') as es0 eqn:EE. remember true as first eqn:EF.
  destruct FA as [first ts B|first a t b es B N F1]; [discriminate EE|]. subst first.
  cbn [orb app] in EE. injection EE as -> ->.
  exists (map fst a), (map fst b), (fst x). rewrite map_app in SC. cbn [map] in SC.
  split; [exact SC|]. split; [exact B|]. split; [exact N|]. split; [exact V|]. split; [|exact C].
  rewrite P. rewrite Forall_forall in FO. apply FO. apply in_or_app. right. now left.
Qed.
