(** Function headers: names, parameters and the renaming of repeated ones. *)
From Coq Require Import String Ascii Bool List Arith Lia.
From Coq Require Import DecimalString DecimalNat.
From Verif Require Import PyBase LexModel LexSpec GramModel ParseModel SynSpec SynInd ParseSound NameSpec ResolveModel ResolveGen.
Import ListNotations.
Open Scope string_scope.
Open Scope list_scope.
Open Scope py_scope.

Definition nocolon (s : string) : Prop := all_chars (fun c => c <> ":"%char) s.

Lemma upper_not : forall c d, upper_letter c -> ~ upper_letter d -> c <> d.
Proof. intros c d A B E. now subst. Qed.

Lemma upper_colon : forall x, all_chars upper_letter x -> nocolon x.
Proof.
  intros x H. unfold nocolon, all_chars in *. eapply Forall_impl; [|exact H]. intros c A E. subst c.
  unfold upper_letter in A. cbn in A. decompose [or] A; try discriminate; assumption.
Qed.
Lemma lower_colon : forall x, all_chars lower_letter x -> nocolon x.
Proof.
  intros x H. unfold nocolon, all_chars in *. eapply Forall_impl; [|exact H]. intros c A E. subst c.
  unfold lower_letter in A. cbn in A. decompose [or] A; try discriminate; assumption.
Qed.

Lemma cut_nocolon : forall t, nocolon t -> cut_at t = t.
Proof.
  induction t as [|c t IH]; intros H; [reflexivity|]. inversion H as [|? ? A B]; subst.
  cbn [cut_at]. destruct t as [|d t']; [reflexivity|].
  destruct (Ascii.eqb_spec c ":"); [contradiction|]. cbn [andb]. f_equal. exact (IH B).
Qed.

Lemma after_none : forall t, nocolon t -> after_colon t = None.
Proof.
  induction t as [|c t IH]; intros H; [reflexivity|]. inversion H as [|? ? A B]; subst.
  cbn [after_colon]. destruct t as [|d t']; [reflexivity|].
  destruct (Ascii.eqb_spec c ":"); [contradiction|]. cbn [andb]. exact (IH B).
Qed.

Lemma after_some : forall x t, nocolon x -> after_colon (x ++ ": " ++ t)%string = Some (cut_at t).
Proof.
  induction x as [|c x IH]; intros t H; [reflexivity|]. inversion H as [|? ? A B]; subst.
  specialize (IH t B). cbn [append] in *.
  destruct x as [|d x']; cbn [append] in *.
  - cbn [after_colon]. destruct (Ascii.eqb_spec c ":"); [contradiction|]. reflexivity.
  - set (r := String d (x' ++ String ":" (String " " t))%string) in *.
    cbn [after_colon]. unfold r at 1. destruct (Ascii.eqb_spec c ":"); [contradiction|]. cbn [andb]. exact IH.
Qed.

(** ** A list with one place changed *)

Lemma nth_mid : forall A (d : A) a x b, nth (length a) (a ++ x :: b) d = x.
Proof. intros A d a x b. rewrite app_nth2 by lia. now rewrite Nat.sub_diag. Qed.
Lemma set_mid : forall A (y : A) a x b, set_nth (length a) y (a ++ x :: b) = a ++ y :: b.
Proof. induction a as [|z a IH]; intros; cbn; [reflexivity|]. now rewrite IH. Qed.
Lemma set_mid_n : forall A (y : A) n a x b, n = length a -> set_nth n y (a ++ x :: b) = a ++ y :: b.
Proof. intros. subst n. apply set_mid. Qed.
Lemma existsb_eqb : forall x l, existsb (String.eqb x) l = true <-> In x l.
Proof.
  intros x l. rewrite existsb_exists. split.
  - intros [y [A B]]. apply String.eqb_eq in B. now subst.
  - intros A. exists x. split; [exact A|apply String.eqb_refl].
Qed.
Lemma existsb_eqb_f : forall x l, existsb (String.eqb x) l = false <-> ~ In x l.
Proof.
  intros x l. rewrite <- existsb_eqb. destruct (existsb (String.eqb x) l); split; congruence.
Qed.
Lemma existsb_rev : forall x l, existsb (String.eqb x) (rev l) = existsb (String.eqb x) l.
Proof.
  intros x l. apply Bool.eq_true_iff_eq. rewrite !existsb_eqb. symmetry. apply in_rev.
Qed.
Lemma count_app : forall x a b, count_str x (a ++ b) = count_str x a + count_str x b.
Proof. intros. unfold count_str. now rewrite filter_app, app_length. Qed.
Lemma count_0 : forall x l, ~ In x l -> count_str x l = 0.
Proof.
  intros x l H. unfold count_str. induction l as [|y l IH]; [reflexivity|].
  cbn [filter]. destruct (String.eqb_spec x y) as [->|N].
  - exfalso. apply H. now left.
  - apply IH. intros A. apply H. now right.
Qed.
Lemma count_in : forall x l, In x l -> 1 <= count_str x l.
Proof.
  intros x l H. unfold count_str. induction l as [|y l IH]; [contradiction|].
  cbn [filter]. destruct (String.eqb_spec x y) as [->|N]; cbn [length]; [lia|].
  apply IH. destruct H; [congruence|assumption].
Qed.

(** ** Renaming *)

Definition pnames (ps : list (string * option ptype)) : list string := map fst ps.

Lemma renamed_app : forall a b i seen,
  renamed i seen (a ++ b) = renamed i seen a ++ renamed (i + length a) (rev (pnames a) ++ seen) b.
Proof.
  induction a as [|[x ty] a IH]; intros b i seen.
  - cbn. now rewrite Nat.add_0_r.
  - cbn [app renamed pnames map length fst rev]. rewrite IH. f_equal. f_equal.
    rewrite <- app_assoc. cbn [app]. unfold pnames. f_equal. lia.
Qed.
Lemma typed_app : forall a b seen,
  repeats_typed seen (a ++ b) = repeats_typed seen a && repeats_typed (rev (pnames a) ++ seen) b.
Proof.
  induction a as [|[x ty] a IH]; intros b seen; [reflexivity|].
  cbn [app repeats_typed pnames map fst rev]. rewrite IH, andb_assoc, <- app_assoc. reflexivity.
Qed.

Definition param_ok (p : string * option ptype) : Prop :=
  a_word upper_letter (fst p) /\ match snd p with Some ty => nocolon (type_text ty) | None => True end.

Lemma dummy_not_upper : forall i x, a_word upper_letter x -> dummy i <> x.
Proof.
  intros i x [_ H] E. subst x. unfold dummy in H. cbn in H. inversion H as [|c l A B]; subst.
  unfold upper_letter in A. cbn in A. decompose [or] A; try discriminate; assumption.
Qed.

Lemma after_param : forall x ty, param_ok (x, ty) ->
  after_colon (param_text (x, ty)) = match ty with Some t => Some (type_text t) | None => None end.
Proof.
  intros x ty [A B]. cbn [fst snd] in *. destruct A as [_ A]. apply upper_colon in A.
  destruct ty as [t|]; unfold param_text.
  - rewrite after_some by exact A. now rewrite cut_nocolon.
  - now apply after_none.
Qed.

Lemma fix_dups_spec : forall pre post, Forall param_ok pre ->
  (forall x, In x (pnames pre) -> ~ In x (pnames post)) ->
  fix_dups (length pre) (map param_text (pre ++ post)) (pnames (pre ++ post)) =
  if repeats_typed [] pre
  then Ok (map param_text (renamed 0 [] pre ++ post), pnames (renamed 0 [] pre ++ post))
  else Err IndexErr.
Proof.
  induction pre as [|[x ty] pre IH] using rev_ind; intros post P D; [reflexivity|].
  apply Forall_app in P. destruct P as [P Px]. inversion Px as [|? ? Px' _]; subst. clear Px.
  rewrite app_length. cbn [length]. rewrite Nat.add_comm. cbn [plus fix_dups].
  rewrite <- app_assoc. cbn [app].
  replace (nth (length pre) (pnames (pre ++ (x, ty) :: post)) "") with x.
  2:{ unfold pnames. rewrite map_app. cbn [map fst]. rewrite <- (map_length fst pre). now rewrite nth_mid. }
  assert (Dx : ~ In x (pnames post)).
  { apply D. unfold pnames. rewrite map_app. apply in_or_app. right. now left. }
  assert (C : count_str x (pnames (pre ++ (x, ty) :: post)) = count_str x (pnames pre) + 1).
  { unfold pnames. rewrite map_app. cbn [map fst]. rewrite count_app.
    change (x :: map fst post) with ([x] ++ map fst post). rewrite count_app.
    rewrite (count_0 x (map fst post)) by exact Dx. unfold count_str at 2. cbn [filter].
    rewrite String.eqb_refl. cbn [length]. lia. }
  rewrite C. rewrite typed_app, renamed_app. cbn [repeats_typed renamed plus].
  rewrite app_nil_r, existsb_rev, andb_true_r.
  destruct (existsb (String.eqb x) (pnames pre)) eqn:E.
  - apply existsb_eqb in E. pose proof (count_in x _ E) as C1.
    replace (Nat.ltb 1 (count_str x (pnames pre) + 1)) with true by (symmetry; apply Nat.ltb_lt; lia).
    replace (nth (length pre) (map param_text (pre ++ (x, ty) :: post)) "") with (param_text (x, ty)).
    2:{ rewrite map_app. cbn [map]. rewrite <- (map_length param_text pre). now rewrite nth_mid. }
    rewrite after_param by exact Px'.
    destruct ty as [t|].
    2:{ cbn [negb orb]. now rewrite andb_false_r. }
    cbn [negb orb]. rewrite andb_true_r.
    change (("dummy" ++ show (length pre)) ++ ": " ++ type_text t)%string with (param_text (dummy (length pre), Some t)).
    change ("dummy" ++ show (length pre))%string with (dummy (length pre)).
    replace (set_nth (length pre) (param_text (dummy (length pre), Some t)) (map param_text (pre ++ (x, Some t) :: post)))
      with (map param_text (pre ++ (dummy (length pre), Some t) :: post)).
    2:{ rewrite !map_app. cbn [map]. symmetry. apply set_mid_n. now rewrite map_length. }
    replace (set_nth (length pre) (dummy (length pre)) (pnames (pre ++ (x, Some t) :: post)))
      with (pnames (pre ++ (dummy (length pre), Some t) :: post)).
    2:{ unfold pnames. rewrite !map_app. cbn [map fst]. symmetry. apply set_mid_n. now rewrite map_length. }
    rewrite IH; [| exact P |].
    + rewrite <- app_assoc. reflexivity.
    + intros y Iy Iy'. cbn [pnames map fst] in Iy'. destruct Iy' as [Ey|Iy'].
      * unfold pnames in Iy. apply in_map_iff in Iy. destruct Iy as [p [Ep Ip]].
        rewrite Forall_forall in P. destruct (P p Ip) as [U _]. rewrite Ep in U.
        exact (dummy_not_upper _ _ U Ey).
      * apply (D y); [|exact Iy']. unfold pnames. rewrite map_app. apply in_or_app. now left.
  - apply existsb_eqb_f in E.
    rewrite (count_0 x (pnames pre) E). cbn [plus Nat.ltb Nat.leb negb orb]. rewrite andb_true_r.
    rewrite IH; [| exact P |].
    + rewrite <- app_assoc. reflexivity.
    + intros y Iy Iy'. cbn [pnames map fst] in Iy'. destruct Iy' as [Ey|Iy'].
      * subst y. contradiction.
      * apply (D y); [|exact Iy']. unfold pnames. rewrite map_app. apply in_or_app. now left.
Qed.

Lemma no_dups_same : forall ps i seen, has_dups (pnames ps) = false ->
  (forall x, In x (pnames ps) -> ~ In x seen) ->
  renamed i seen ps = ps /\ repeats_typed seen ps = true.
Proof.
  induction ps as [|[x ty] ps IH]; intros i seen H D; [split; reflexivity|].
  cbn [pnames map fst has_dups] in H. apply orb_false_iff in H. destruct H as [H1 H2].
  apply existsb_eqb_f in H1.
  assert (E : existsb (String.eqb x) seen = false).
  { apply existsb_eqb_f. apply D. now left. }
  cbn [renamed repeats_typed]. rewrite E. cbn [negb orb andb].
  destruct (IH (S i) (x :: seen) H2) as [A B].
  - intros y Iy [Ey|Iy']; [subst y; contradiction|]. apply (D y); [now right|exact Iy'].
  - rewrite A, B. split; reflexivity.
Qed.

(** ** Headers *)

Definition hpart (h : hitem) : string * option (string * string) :=
  match h with
  | HWord w => (snd (word_tok w), None)
  | HD => ("d", None)
  | HParam x => ("X", Some (x, x))
  | HTyped x ty => ("X", Some ((x ++ ": " ++ type_text ty)%string, x))
  end.

Lemma mapM_hpart : forall hs, mapM header_part (map node_h hs) = Ok (map hpart hs).
Proof.
  induction hs as [|h hs IH]; [reflexivity|]. cbn [map mapM].
  destruct h; cbn [node_h header_part hpart bind]; rewrite IH; reflexivity.
Qed.

Lemma upper_good : forall x, good (tUPPERNAME, x) -> a_word upper_letter x.
Proof.
  intros x A. unfold good in A. cbn in A. inversion A; subst; [assumption|].
  match goal with K : keyword _ _ |- _ => inversion K end.
Qed.

Lemma good_param : forall hs, Forall good (flat_map toks_h hs) -> Forall param_ok (params hs).
Proof.
  induction hs as [|h hs IH]; intros G; [constructor|].
  cbn [flat_map] in G. apply Forall_app in G. destruct G as [G1 G2]. specialize (IH G2).
  unfold params. cbn [flat_map]. apply Forall_app. split; [|exact IH].
  destruct h as [w| |x|x ty]; cbn [param_of]; [constructor|constructor| |].
  - constructor; [|constructor]. split; [|exact Logic.I].
    inversion G1 as [|? ? A B]; subst. exact (upper_good _ A).
  - constructor; [|constructor].
    cbn [toks_h] in G1. inversion G1 as [|? ? A B]; subst. inversion B as [|? ? A' B']; subst.
    inversion B' as [|? ? A2 _]; subst. split; [exact (upper_good _ A)|]. cbn [snd].
    unfold type_text, dtype.
    destruct ty as [|s]; cbn [ptype_tok snd] in *.
    + repeat (constructor; [discriminate|]). constructor.
    + destruct (String.eqb s "s"); [repeat (constructor; [discriminate|]); constructor|].
      destruct (String.eqb s "n"); [repeat (constructor; [discriminate|]); constructor|].
      destruct (String.eqb s "d"); [repeat (constructor; [discriminate|]); constructor|].
      unfold good in A2. cbn in A2. inversion A2; subst.
      * match goal with K : keyword _ _ |- _ => inversion K end.
      * match goal with K : a_word lower_letter _ |- _ => destruct K as [_ K]; exact (lower_colon _ K) end.
Qed.

Lemma args_params : forall hs,
  flat_map (fun p => map fst (opt_list (snd p))) (map hpart hs) = map param_text (params hs) /\
  flat_map (fun p => map snd (opt_list (snd p))) (map hpart hs) = pnames (params hs).
Proof.
  induction hs as [|h hs [IH1 IH2]]; [split; reflexivity|].
  unfold params, pnames in *. cbn [map flat_map]. rewrite map_app, map_app, IH1, IH2.
  destruct h; split; reflexivity.
Qed.

Theorem header_gen : forall fl hs, Forall good (flat_map toks_h hs) ->
  header fl (map node_h hs) =
  if header_ok hs
  then Ok (mangle fl (header_shape hs), map param_text (renamed 0 [] (params hs)),
           pnames (renamed 0 [] (params hs)))
  else Err IndexErr.
Proof.
  intros fl hs G. unfold header. rewrite mapM_hpart. cbn [bind].
  destruct (args_params hs) as [-> ->].
  assert (N : join "_" ((if fl_prefix fl then ["f"] else []) ++ map fst (map hpart hs)) = mangle fl (header_shape hs)).
  { unfold mangle, header_shape. rewrite !map_map. do 2 f_equal. apply map_ext. now intros []. }
  rewrite N. unfold header_ok. rewrite map_length.
  destruct (has_dups (pnames (params hs))) eqn:E.
  - pose proof (fix_dups_spec (params hs) [] (good_param hs G)) as F. rewrite !app_nil_r in F.
    rewrite F by (intros x _ []). destruct (repeats_typed [] (params hs)); reflexivity.
  - destruct (no_dups_same (params hs) 0 [] E) as [A B]; [intros x _ []|]. rewrite A, B. reflexivity.
Qed.

(** ** What renaming achieves *)

Lemma to_uint_nonnil : forall n, Nat.to_uint n <> Decimal.Nil.
Proof.
  intros n E. pose proof (Unsigned.of_to n) as H. rewrite E in H. cbn in H. subst n. discriminate.
Qed.

Lemma show_inj : forall m n, show m = show n -> m = n.
Proof.
  intros m n E. unfold show in E.
  assert (H : Some (Nat.to_uint m) = Some (Nat.to_uint n)).
  { rewrite <- !NilZero.usu by apply to_uint_nonnil. now rewrite E. }
  injection H as H. now apply Unsigned.to_uint_inj.
Qed.

Lemma dummy_inj : forall m n, dummy m = dummy n -> m = n.
Proof. intros m n E. apply show_inj. unfold dummy in E. cbn in E. now injection E. Qed.

Lemma type_annotation : forall ty, type_text ty = annotation ty.
Proof.
  intros [|s]; [reflexivity|]. unfold type_text, dtype. cbn [ptype_tok snd].
  destruct (String.eqb_spec s "s") as [->|A]; [reflexivity|].
  destruct (String.eqb_spec s "n") as [->|B]; [reflexivity|].
  destruct (String.eqb_spec s "d") as [->|C]; [reflexivity|].
  unfold annotation. destruct s as [|c [|d s]]; try reflexivity;
    destruct c as [[] [] [] [] [] [] [] []]; try reflexivity; exfalso; congruence.
Qed.

Lemma renamed_length : forall ps i seen, length (renamed i seen ps) = length ps.
Proof. induction ps as [|[x ty] ps IH]; intros i seen; cbn; [reflexivity|]. now rewrite IH. Qed.

Lemma renamed_types : forall ps i seen, map snd (renamed i seen ps) = map snd ps.
Proof. induction ps as [|[x ty] ps IH]; intros i seen; cbn; [reflexivity|]. now rewrite IH. Qed.

Lemma renamed_in : forall ps i seen y, In y (pnames (renamed i seen ps)) ->
  (In y (pnames ps) /\ ~ In y seen) \/ (exists k, i <= k /\ y = dummy k).
Proof.
  induction ps as [|[x ty] ps IH]; intros i seen y H; [contradiction|].
  cbn [renamed pnames map fst] in H. destruct H as [H|H].
  - destruct (existsb (String.eqb x) seen) eqn:E.
    + right. exists i. split; [lia|congruence].
    + left. subst y. apply existsb_eqb_f in E. split; [now left|exact E].
  - apply IH in H. destruct H as [[A B]|[k [A B]]].
    + left. split; [now right|]. intros C. apply B. now right.
    + right. exists k. split; [lia|exact B].
Qed.

Lemma renamed_nodup : forall ps i seen, Forall param_ok ps -> NoDup (pnames (renamed i seen ps)).
Proof.
  induction ps as [|[x ty] ps IH]; intros i seen F; [constructor|].
  cbn [renamed pnames map fst]. constructor; [|exact (IH (S i) (x :: seen) (Forall_inv_tail F))].
  intros H. apply renamed_in in H. pose proof (Forall_inv F) as [U _]. cbn [fst] in U.
  destruct (existsb (String.eqb x) seen).
  - destruct H as [[A _]|[k [A B]]].
    + unfold pnames in A. apply in_map_iff in A. destruct A as [q [E I]]. apply Forall_inv_tail in F.
      rewrite Forall_forall in F. destruct (F q I) as [V _]. rewrite E in V. exact (dummy_not_upper _ _ V eq_refl).
    + apply dummy_inj in B. lia.
  - destruct H as [[_ A]|[k [A B]]].
    + apply A. now left.
    + exact (dummy_not_upper k x U (eq_sym B)).
Qed.

Lemma renamed_first : forall ps i seen k x ty, nth_error ps k = Some (x, ty) -> ~ In x seen ->
  (forall j, j < k -> nth_error (pnames ps) j <> Some x) ->
  nth_error (renamed i seen ps) k = Some (x, ty).
Proof.
  induction ps as [|[y ty'] ps IH]; intros i seen k x ty H N D; [destruct k; discriminate|].
  destruct k as [|k]; cbn [nth_error renamed] in *.
  - injection H as -> ->. apply existsb_eqb_f in N. now rewrite N.
  - apply IH; [exact H| |].
    + intros [E|I']; [|contradiction]. apply (D 0); [lia|]. cbn. now rewrite E.
    + intros j L. exact (D (S j) ltac:(lia)).
Qed.

Theorem header_params : forall fl hs, Forall good (flat_map toks_h hs) -> header_ok hs = true ->
  exists texts names, header fl (map node_h hs) = Ok (mangle fl (header_shape hs), texts, names) /\
  length texts = length (params hs) /\ length names = length (params hs) /\ NoDup names /\
  forall i x ty, nth_error (params hs) i = Some (x, ty) ->
    exists n, nth_error names i = Some n /\
      nth_error texts i = Some (match ty with None => n | Some t => n ++ ": " ++ annotation t end)%string /\
      ((forall j, j < i -> nth_error (map fst (params hs)) j <> Some x) -> n = x).
Proof.
  intros fl hs G H. rewrite header_gen by exact G. rewrite H.
  eexists _, _. split; [reflexivity|].
  rewrite map_length. unfold pnames. rewrite map_length, renamed_length.
  split; [reflexivity|split; [reflexivity|split; [exact (renamed_nodup _ 0 [] (good_param hs G))|]]].
  intros i x ty N.
  assert (L : exists q, nth_error (renamed 0 [] (params hs)) i = Some q).
  { destruct (nth_error (renamed 0 [] (params hs)) i) eqn:E; [eauto|].
    apply nth_error_None in E. rewrite renamed_length in E.
    assert (X : nth_error (params hs) i <> None) by congruence. apply nth_error_Some in X. lia. }
  destruct L as [[n ty'] L].
  assert (T : ty' = ty).
  { pose proof (map_nth_error snd _ _ L) as A. rewrite renamed_types in A.
    pose proof (map_nth_error snd _ _ N) as B. cbn [snd] in *. congruence. }
  subst ty'. exists n. split; [exact (map_nth_error fst _ _ L)|]. split.
  - rewrite (map_nth_error param_text _ _ L). unfold param_text. destruct ty as [t|]; [|reflexivity].
    now rewrite type_annotation.
  - intros D. pose proof (renamed_first (params hs) 0 [] i x ty N (fun A => A) D) as R. congruence.
Qed.
