(** The values of programs are never None or lists: operators and helpers. *)
From Coq Require Import String Ascii List ZArith Bool.
From Verif Require Import PyBase Num Val RVModel UtilModel Obj AtModel CastModel DispModel RollModel RollerModel
  LibModel SettingsModel LexModel ParseModel SynSpec Runtime RunModel KindSpec.
Import ListNotations.
Open Scope list_scope.

Definition fine (o : obj) : Prop := match o with ONone | OIter _ => False | _ => True end.
Lemma fine_value o : fine o <-> dice_value o.
Proof.
  split; [|intros []; exact Logic.I]. destruct o as [[n|s]|s|l|l|l|x|b|]; intros H; try destruct H; constructor.
Qed.

(** a result that is fine *)
Definition okf (r : res obj) : Prop := match r with Ok o => fine o | Err _ => True end.
Definition okfo (r : res (option obj)) : Prop := match r with Ok (Some o) => fine o | _ => True end.
Lemma okf_bind {A} (m : res A) f : (forall a, m = Ok a -> okf (f a)) -> okf (bind m f).
Proof. destruct m; cbn; auto. Qed.
Lemma okfo_bind {A} (m : res A) f : (forall a, m = Ok a -> okfo (f a)) -> okfo (bind m f).
Proof. destruct m; cbn; auto. Qed.
Lemma okf_bindo (m : res obj) f : okf m -> (forall a, fine a -> okf (f a)) -> okf (bind m f).
Proof. destruct m; cbn; auto. Qed.
Lemma okf_map {A} (g : A -> obj) (m : res A) : (forall a, fine (g a)) -> okf (rmap g m).
Proof. intros H. destruct m; cbn; auto. Qed.
Lemma okfo_done m : okf m -> okfo (done m).
Proof. destruct m; cbn; auto. Qed.
Lemma okf_get_seq l : okf (get_seq l).
Proof.
  unfold get_seq. cbv zeta. match goal with |- okf (if ?b then _ else _) => destruct b end.
  - destruct (all_some _); exact Logic.I.
  - unfold assert_. match goal with |- okf (if ?b then _ else _) => destruct b end; [|exact Logic.I]. destruct (all_some _); exact Logic.I.
Qed.
Lemma okf_mk_seq l : okf (mk_seq l).
Proof. unfold mk_seq. cbv zeta. unfold assert_. match goal with |- okf (if ?b then _ else _) => destruct b end; [|exact Logic.I]. destruct (all_some _); exact Logic.I. Qed.

(** *** Operators *)
Section disp.
  Variable c : cfg.
  Variable disp : Val.binop -> obj -> obj -> res obj.
  Hypothesis D : forall o a b, fine a -> fine b -> okf (disp o a b).

  Lemma okf_count_holds o l b : okf (count_holds o l b).
  Proof. destruct b; cbn; try exact Logic.I; destruct o; try exact Logic.I; destruct l; exact Logic.I. Qed.
  Lemma okf_compare o a b : fine b -> okf (compare_to disp o a b).
  Proof.
    intros F. destruct b; cbn [compare_to]; try destruct F; try exact Logic.I;
      first [apply okf_count_holds | apply okf_bind; intros ? _; first [exact Logic.I | apply D; exact Logic.I]].
  Qed.
  Lemma okfo_seq_fwd o a b : fine b -> okfo (seq_fwd disp o a b).
  Proof.
    intros F. unfold seq_fwd. destruct (is_cmp o); [apply okfo_done, okf_compare, F|]. apply okfo_bind. intros s _.
    assert (X : okfo (done (disp o (OV s) b))) by (apply okfo_done, D; [exact Logic.I|exact F]).
    destruct (is_bool o); [|exact X]. destruct b as [[n|t]|t|l|l|l|x|k|]; try exact X. exact Logic.I.
  Qed.
  Lemma okfo_seq_rev o a b : fine b -> okfo (seq_rev disp o a b).
  Proof.
    intros F. unfold seq_rev. apply okfo_bind. intros s _.
    assert (X : okfo (done (disp o b (OV s)))) by (apply okfo_done, D; [exact F|exact Logic.I]).
    destruct (is_bool o); [|exact X]. destruct b as [[n|t]|t|l|l|l|x|k|]; try exact X. exact Logic.I.
  Qed.
  Ltac rvs := repeat first [exact Logic.I | apply okfo_done, okf_map; intros ?; exact Logic.I | apply okfo_bind; intros ? _].
  Lemma okfo_convolve o x b : okfo (convolve c o x b).
  Proof. destruct b; cbn [convolve]; rvs. Qed.
  Lemma okfo_rconvolve o x b : okfo (rconvolve c o x b).
  Proof. destruct b; cbn [rconvolve]; rvs. Qed.
  Lemma okf_neg a : okf (neg_obj c a).
  Proof. destruct a as [[n|t]|t|l|l|l|x|k|]; cbn [neg_obj]; try exact Logic.I. apply okf_map. intros; exact Logic.I. Qed.
  Lemma okfo_blank_fwd o s b : fine b -> okfo (blank_fwd c o s b).
  Proof.
    intros F. unfold blank_fwd. cbv zeta. destruct o, s; try exact Logic.I; try exact F; try (destruct b; try exact Logic.I; exact F).
    destruct b; repeat first [apply okfo_done, okf_neg | apply okfo_bind; intros ? _].
  Qed.
  Lemma okfo_blank_rev o s b : fine b -> okfo (blank_rev o s b).
  Proof. intros F. unfold blank_rev. cbv zeta. destruct o, s; try exact Logic.I; try exact F; destruct b; try exact Logic.I; exact F. Qed.
  Lemma okfo_text o s t : okfo (text_op o s t).
  Proof. destruct o; exact Logic.I. Qed.
  Lemma okfo_times k s : okfo (text_times k s).
  Proof. destruct k as [[[z|m e]|t]|t|l|l|l|x|b|]; exact Logic.I. Qed.
  Lemma okf_value_op o v w : okf (value_op o v w).
  Proof.
    unfold value_op. destruct o; try (apply okf_map; intros; exact Logic.I); destruct v as [[z|m e]|t], w as [[z'|m' e']|t']; exact Logic.I.
  Qed.
  Lemma okfo_fwd o a b : fine a -> fine b -> okfo (fwd disp c o a b).
  Proof.
    intros Fa Fb. destruct a as [v|s|l|l|l|x|k|]; try destruct Fa; cbn [fwd].
    - destruct v as [n|t], b as [w|s|l|l|l|x|k|]; try destruct Fb; try exact Logic.I; try (apply okfo_done, okf_value_op); destruct o; try exact Logic.I;
        apply okfo_times.
    - destruct b as [w|t|l|l|l|x|k|]; try destruct Fb; try apply okfo_text; destruct o; try exact Logic.I; apply okfo_times.
    - apply okfo_seq_fwd, Fb.
    - apply okfo_seq_fwd, Fb.
    - apply okfo_convolve.
    - apply okfo_blank_fwd, Fb.
  Qed.
  Lemma okfo_rev o a b : fine a -> fine b -> okfo (rev_op disp c o a b).
  Proof.
    intros Fa Fb. unfold rev_op. destruct (is_cmp o); [apply okfo_fwd; assumption|].
    destruct b as [[n|t]|s|l|l|l|x|k|]; try destruct Fb;
      first [exact Logic.I | apply okfo_seq_rev; exact Fa | apply okfo_rconvolve | apply okfo_blank_rev; exact Fa | destruct o; exact Logic.I].
  Qed.
End disp.
Lemma okf_dispatch c n : forall o a b, fine a -> fine b -> okf (dispatch n c o a b).
Proof.
  induction n as [|n IH]; intros o a b Fa Fb; [exact Logic.I|]. cbn [dispatch]. cbv zeta.
  assert (X : okfo ((if other_first o a b then rev_op else fwd) (dispatch n c) c o a b))
    by (destruct (other_first o a b); [apply okfo_rev|apply okfo_fwd]; assumption).
  assert (Y : okfo ((if other_first o a b then fwd else rev_op) (dispatch n c) c o a b))
    by (destruct (other_first o a b); [apply okfo_fwd|apply okfo_rev]; assumption).
  destruct ((if other_first o a b then rev_op else fwd) (dispatch n c) c o a b) as [[v|]|e]; cbn [bind]; [exact X| |exact Logic.I].
  destruct ((if other_first o a b then fwd else rev_op) (dispatch n c) c o a b) as [[v|]|e]; cbn [bind]; [exact Y| |exact Logic.I].
  unfold default. destruct o, a, b; exact Logic.I.
Qed.
Lemma okf_py_op c o a b : fine a -> fine b -> okf (py_op c o a b).
Proof. apply okf_dispatch. Qed.
Lemma okf_my_op c o a b : fine a -> fine b -> okf (my_op c o a b).
Proof.
  intros Fa Fb. pose proof (okf_py_op c o a b Fa Fb) as X. unfold my_op. destruct o; try exact X;
    destruct a as [[[z|m e]|t]|t|l|l|l|x|k|]; try exact X; destruct b as [[[z'|m' e']|t']|t'|l'|l'|l'|x'|k'|]; try exact X; exact Logic.I.
Qed.
Lemma okf_invert c a : okf (my_invert c a).
Proof.
  destruct a as [[[z|m e]|t]|t|l|l|l|x|k|]; cbn [my_invert];
    first [exact Logic.I | apply okf_map; intros; exact Logic.I | apply okf_bind; intros; exact Logic.I | destruct k; exact Logic.I].
Qed.
Lemma okf_rv_rmatmul c a x : okf (rv_rmatmul c a x).
Proof.
  assert (X : okf (s <- get_seq [a] ;; match all_some (map as_int (seq_entries s)) with
      | None => Err AssertErr
      | Some [k] => r <- kth_order c (rv_die x) (rv_roll x) k ;; Ok (match r with Some r => ORV r | None => oint 0 end)
      | Some locs => rv_sum_at c x locs end)).
  { apply okf_bind. intros s _. destruct (all_some (map as_int (seq_entries s))) as [[|k [|k' ks]]|]; [| | |exact Logic.I].
    - unfold rv_sum_at. repeat (apply okf_bind; intros ? _). match goal with |- okf (Ok (match ?m with _ => _ end)) => destruct m end; exact Logic.I.
    - apply okf_bind. intros [r|] _; exact Logic.I.
    - unfold rv_sum_at. repeat (apply okf_bind; intros ? _). match goal with |- okf (Ok (match ?m with _ => _ end)) => destruct m end; exact Logic.I. }
  destruct a; try exact X. exact Logic.I.
Qed.
Lemma okf_matmul c a b : fine b -> okf (matmul c a b).
Proof.
  intros Fb. unfold matmul.
  assert (S : forall a, okf (seq_matmul c a b)).
  { intros s. unfold seq_matmul. destruct b as [[[z|m e]|t]|t|l|l|l|x|k|];
      first [apply okf_rv_rmatmul | apply okf_bind; intros ? _; apply okf_bind; intros ? _; apply okf_map; intros; exact Logic.I | idtac].
    destruct k; [|exact Logic.I]. destruct (forallb _ _); exact Logic.I. }
  assert (R : forall s, okf (seq_rmatmul s a)).
  { intros s. unfold seq_rmatmul. destruct a as [[[z|m e]|t]|t|l|l|l|x|k|];
      first [exact Logic.I | apply okf_bind; intros ? _; apply okf_bind; intros ? _; apply okf_map; intros; exact Logic.I | apply okf_map; intros; exact Logic.I]. }
  assert (B : okf match b with OSeq _ | OSSeq _ => seq_rmatmul b a | ORV x => rv_rmatmul c a x | OBlank s => Ok (blank_rmatmul s a) | _ => Err TypeErr end).
  { destruct b as [v|t|l|l|l|x|k|]; try exact Logic.I; try apply R; [apply okf_rv_rmatmul|].
    cbn [okf]. unfold blank_rmatmul. destruct k; [|exact Logic.I]. destruct a as [v|t|l|l|l|x|k|]; try exact Logic.I. destruct (veqb v (vint 1)); exact Logic.I. }
  destruct a; try exact B; try apply S; exact Logic.I.
Qed.
Lemma okf_my_matmul c a b : fine b -> okf (my_matmul c a b).
Proof.
  intros F. pose proof (okf_matmul c a b F) as X. unfold my_matmul.
  destruct a as [[[z|m e]|t]|t|l|l|l|x|k|]; try exact X; destruct b as [[[z'|m' e']|t']|t'|l'|l'|l'|x'|k'|]; try exact X.
  cbv zeta. match goal with |- okf (if ?b then _ else _) => destruct b end; [|exact Logic.I]. apply okf_bind. intros; exact Logic.I.
Qed.
Lemma okf_roll c a b m : okf (fst (roll c a b m)).
Proof.
  unfold roll. unfold sbind at 1. unfold slift at 1. destruct (roll_args a b) as [[n d]|e]; [|exact Logic.I].
  assert (X : forall n d, okf (fst ((match as_count n, as_die d with
      | Some n, Some d => sbind (roll_core c n d) (fun r => sret (ORV r)) | _, _ => slift (Err Unmodelled) end) m))).
  { intros n0 d0. destruct (as_count n0) as [n1|], (as_die d0) as [d1|]; try exact Logic.I.
    unfold sbind. destruct (roll_core c n1 d1 m) as [[r|e] m']; exact Logic.I. }
  destruct n as [v|s|l|l|l|x|k|], d as [v'|s'|[|z l']|[|z l']|l'|x'|k'|]; try exact Logic.I; apply X.
Qed.
Lemma fine_items o l : fine o -> items_of o = Ok l -> Forall fine l.
Proof.
  intros F. destruct o as [v|s|l'|l'|l'|x|k|]; try discriminate; try destruct F; intros [= <-]; apply Forall_forall; intros y H.
  - unfold CastModel.chars, letters in H. apply in_map_iff in H as [a [<- _]]. exact Logic.I.
  - apply in_map_iff in H as [a [<- _]]. exact Logic.I.
  - apply in_map_iff in H as [a [<- _]]. exact Logic.I.
Qed.

(** *** The decorator *)
Definition fine_args (a : args) : Prop := Forall (fun ko => fine (snd ko)) a.
Lemma cast1_new c e o o' : cast1 c e o = Ok (CNew o') -> fine o'.
Proof.
  assert (K : forall (o1 : obj) (casted : bool), (casted = true -> fine o1) -> forall r,
    match e, o1 with
    | AN, (OSeq _ | OSSeq _) => t <- meta_sum o1 ;; Ok (CNew (OV t))
    | AN, ORV x => Ok (CHard x)
    | AS, OV (VN (NI _)) => s <- get_seq [OIter [o1]] ;; Ok (CNew s)
    | AS, ORV x => Ok (CHard x)
    | AD, OV (VN _) => x <- get_rv c o1 ;; Ok (CNew (ORV x))
    | AD, (OSeq _ | OSSeq _) => x <- get_rv c o1 ;; Ok (CNew (ORV x))
    | _, _ => Ok (if casted then CNew o1 else CKeep)
    end = Ok (CNew r) -> fine r).
  { intros o1 casted F r.
    assert (X : Ok (if casted then CNew o1 else CKeep) = Ok (CNew r) -> fine r) by (destruct casted; [intros [= <-]; exact (F eq_refl)|discriminate]).
    assert (S : (s <- get_seq [OIter [o1]] ;; Ok (CNew s)) = Ok (CNew r) -> fine r).
    { pose proof (okf_get_seq [OIter [o1]]) as G. destruct (get_seq [OIter [o1]]) as [s|]; [|discriminate]. intros [= <-]. exact G. }
    assert (T : (t <- meta_sum o1 ;; Ok (CNew (OV t))) = Ok (CNew r) -> fine r).
    { destruct (meta_sum o1) as [t|]; [|discriminate]. intros [= <-]. exact Logic.I. }
    assert (G : (x <- get_rv c o1 ;; Ok (CNew (ORV x))) = Ok (CNew r) -> fine r).
    { destruct (get_rv c o1) as [t|]; [|discriminate]. intros [= <-]. exact Logic.I. }
    destruct e, o1 as [[[z|m k]|t]|t|l|l|l|x|b|]; first [exact X | exact S | exact T | exact G | discriminate]. }
  unfold cast1. pose proof (fun l => okf_get_seq l) as G.
  destruct o as [v|s|l|l|l|x|b|]; try (destruct e; discriminate); cbn [spread].
  - refine (K (OV v) false _ o'). discriminate.
  - specialize (G (chars s)). destruct (get_seq (chars s)) as [q|]; [|discriminate]. refine (K q true _ o'). intros _. exact G.
  - refine (K (OSeq l) false _ o'). discriminate.
  - refine (K (OSSeq l) false _ o'). discriminate.
  - specialize (G l). destruct (get_seq l) as [q|]; [|discriminate]. refine (K q true _ o'). intros _. exact G.
Qed.
Lemma set_arg_fine k o a : fine o -> fine_args a -> fine_args (set_arg k o a).
Proof.
  intros Fo Fa. unfold fine_args, set_arg. apply Forall_map. eapply Forall_impl; [|exact Fa]. intros [k' o'] H. cbn [fst snd] in *.
  destruct (key_eqb k k'); cbn [snd]; assumption.
Qed.
Lemma cast_all_fine c s todo : forall a h a' h', fine_args a -> cast_all c s todo a h = Ok (Some (a', h')) -> fine_args a'.
Proof.
  induction todo as [|[k o] todo IH]; intros a h a' h' F; cbn [cast_all]; [intros [= <- <-]; exact F|].
  destruct (annotation s k) as [e|]; [|apply IH; exact F].
  destruct (cast1 c e o) as [t|] eqn:E; [|discriminate]. cbn [bind]. destruct t as [|o'|x|].
  - apply IH, F.
  - apply IH, set_arg_fine; [exact (cast1_new c e o o' E)|exact F].
  - apply IH, F.
  - discriminate.
Qed.
Lemma mapM_all {A B} (f : A -> res B) (P : B -> Prop) l l' : (forall a b, f a = Ok b -> P b) -> mapM f l = Ok l' -> Forall P l'.
Proof.
  intros H. revert l'. induction l as [|x l IH]; intros l'; cbn [mapM]; [intros [= <-]; constructor|].
  destruct (f x) as [y|] eqn:E; [|discriminate]. cbn [bind]. destruct (mapM f l) as [ys|]; [|discriminate]. cbn [bind].
  intros [= <-]. constructor; [exact (H x y E)|exact (IH ys eq_refl)].
Qed.
Lemma hard_fine ex l : hard_values ex = Ok l -> Forall (fun vw => fine (fst vw)) l.
Proof.
  assert (M : forall x, Forall (fun vw => fine (fst vw)) (map (fun vp : pval * Z => (OV (fst vp), snd vp)) (rv_dist x)))
    by (intros x; apply Forall_map, Forall_forall; intros ? _; exact Logic.I).
  destruct ex as [e x]. destruct e; cbn [hard_values]; try (intros [= <-]; apply M).
  unfold roll_seqs. destruct (expanded_rolls x) as [rolls|]; [|discriminate]. cbn [bind]. apply mapM_all.
  intros rp b. destruct (rv_roll x =? 1)%Z.
  - pose proof (okf_get_seq (map OV (fst rp))) as G. destruct (get_seq (map OV (fst rp))) as [q|]; [|discriminate]. intros [= <-]. exact G.
  - intros [= <-]. exact Logic.I.
Qed.
Lemma product_fine ls : Forall (Forall (fun vw : obj * Z => fine (fst vw))) ls -> Forall (fun t => Forall fine (fst t)) (product ls).
Proof.
  induction 1 as [|l ls H _ IH]; cbn [product]; [constructor; [constructor|constructor]|].
  apply Forall_flat_map. eapply Forall_impl; [|exact H]. intros x Fx. apply Forall_map. eapply Forall_impl; [|exact IH].
  intros t Ft. cbn [fst]. constructor; assumption.
Qed.
Lemma fill_fine ks vs : forall a, Forall fine vs -> fine_args a -> fine_args (fill a ks vs).
Proof.
  unfold fill. revert vs. induction ks as [|k ks IH]; intros vs a Fv Fa; [exact Fa|]. destruct vs as [|v vs]; [exact Fa|].
  inversion Fv as [|? ? Hv Hvs]; subst. cbn [combine fold_left]. apply IH; [exact Hvs|]. now apply set_arg_fine.
Qed.
Lemma plan_fine c s a p : fine_args a -> make_plan c s a = Ok p ->
  match p with PAbort => True | PDirect a' => fine_args a' | PProduct calls => Forall (fun aw => fine_args (fst aw)) calls end.
Proof.
  intros F. unfold make_plan. destruct (cast_all c s a a []) as [[[a' h]|]|] eqn:E; [| |discriminate]; cbn [bind].
  - pose proof (cast_all_fine c s a a [] a' h F E) as Fa. destruct h as [|k h]; [intros [= <-]; exact Fa|].
    destruct (mapM hard_values (map snd (k :: h))) as [ls|] eqn:L; [|discriminate]. cbn [bind]. intros [= <-].
    pose proof (mapM_all hard_values _ _ _ (fun ex l => hard_fine ex l) L) as Fl. apply product_fine in Fl.
    apply Forall_map. eapply Forall_impl; [|exact Fl]. intros t Ft. cbn [fst]. now apply fill_fine.
  - intros [= <-]. exact Logic.I.
Qed.
Lemma okf_merge c os ws : okf (merge c os ws).
Proof. unfold merge. apply okf_bind. intros ms _. apply okf_bind. intros [r|] _; exact Logic.I. Qed.
Lemma okf_casting c s f a : (forall a, fine_args a -> okf (f a)) -> fine_args a -> okf (casting c s f a).
Proof.
  intros H F. unfold casting, casting_in. apply okf_bind. intros p E. pose proof (plan_fine c s a p F E) as P. destruct p as [|a'|calls].
  - exact Logic.I.
  - apply H, P.
  - apply okf_bind. intros os _. apply okf_merge.
Qed.
Lemma positional_fine l : Forall fine l -> fine_args (positional l).
Proof.
  unfold positional. generalize 0%nat. induction l as [|o l IH]; intros i F; [constructor|]. inversion F; subst. constructor; [assumption|now apply IH].
Qed.

(** *** The library *)
Lemma need_fine i n a x : fine_args a -> need i n a = Ok x -> fine x.
Proof.
  unfold need. intros F. induction F as [|[k o] a Fo _ IH]; cbn [param]; [discriminate|].
  destruct (key_eqb k (KPos i) || key_eqb k (KName n))%bool; [intros [= <-]; exact Fo|exact IH].
Qed.
Ltac need_ := apply okf_bind; let x := fresh "x" in let E := fresh "E" in intros x E; eapply need_fine in E; [|eassumption].
Lemma okf_foldM {A} (f : obj -> A -> res obj) l : (forall r x, fine r -> okf (f r x)) -> forall r, fine r -> okf (foldM f r l).
Proof.
  intros H. induction l as [|x l IH]; intros r F; cbn [foldM]; [exact F|]. apply okf_bindo; [now apply H|]. exact IH.
Qed.
Section lib.
  Variable c : cfg.
  Lemma okf_absolute a : fine_args a -> okf (absolute c a).
  Proof.
    apply okf_casting. clear a. intros a F. unfold absolute_body. need_. apply okf_bind. intros [|] _; [apply okf_neg|exact E].
  Qed.
  Lemma okf_contains a : fine_args a -> okf (contains c a).
  Proof.
    apply okf_casting. clear a. intros a F. unfold contains_body. need_. need_.
    apply okf_bindo; [now apply okf_py_op|]. intros n Fn. apply okf_py_op; [exact Fn|exact Logic.I].
  Qed.
  Lemma okf_count_in a : fine_args a -> okf (count_in c a).
  Proof.
    apply okf_casting. clear a. intros a F. unfold count_in_body. need_. need_. apply okf_bind. intros n _. apply okf_foldM; [|exact Logic.I].
    intros r p Fr. apply okf_bindo; [now apply okf_matmul|]. intros v Fv. apply okf_bindo; [now apply okf_py_op|]. intros e Fe. now apply okf_py_op.
  Qed.
  Lemma okf_reverse a : fine_args a -> okf (reverse c a).
  Proof. apply okf_casting. clear a. intros a F. unfold reverse_body. need_. destruct x; try exact Logic.I; apply okf_mk_seq. Qed.
  Lemma okf_sort a : fine_args a -> okf (sort c a).
  Proof. apply okf_casting. clear a. intros a F. unfold sort_body. need_. destruct x; try exact Logic.I; apply okf_mk_seq. Qed.
  Lemma okf_maximum a : fine_args a -> okf (maximum_of c a).
  Proof.
    apply okf_casting. clear a. intros a F. unfold maximum_body. need_. apply okf_bindo; [apply okf_mk_seq|]. intros s Fs.
    apply okf_bindo; [apply okf_reverse, positional_fine; constructor; [exact Fs|constructor]|]. intros r Fr. now apply okf_matmul.
  Qed.
  Lemma explode_args_fine n mx d depth : fine n -> fine mx -> fine d -> fine_args (explode_args n mx d depth).
  Proof. intros. unfold explode_args. repeat constructor; assumption. Qed.
  Lemma okf_explode_helper fuel : forall a, fine_args a -> okf (explode_helper c fuel a).
  Proof.
    induction fuel as [|fuel IH]; intros a0 F0; cbn [explode_helper]; refine (okf_casting c _ _ a0 _ F0); clear a0 F0; intros a F;
      need_; need_; need_; apply okf_bind; intros depth _; apply okf_bind; intros t _; destruct ((t && (0 <? depth)%Z)%bool); try exact E; [exact Logic.I|].
    apply okf_bindo; [apply IH, explode_args_fine; assumption|]. intros r Fr. now apply okf_py_op.
  Qed.
  Lemma okf_explode a : fine_args a -> okf (explode c a).
  Proof.
    apply okf_casting. clear a. intros a F. unfold explode_body. need_. apply okf_bind. intros depth _.
    apply okf_bindo; [apply okf_maximum, positional_fine; constructor; [exact E|constructor]|]. intros mx Fm.
    apply okf_explode_helper, explode_args_fine; assumption.
  Qed.
  Ltac steps := repeat first [need_ | apply okf_bind; intros ? _].
  Lemma okf_highest a : fine_args a -> okf (highest_N_of_D c a).
  Proof. apply okf_casting. clear a. intros a F. unfold highest_of_body. need_. need_. do 3 (apply okf_bind; intros ? _). now apply okf_matmul. Qed.
  Lemma okf_lowest a : fine_args a -> okf (lowest_N_of_D c a).
  Proof. apply okf_casting. clear a. intros a F. unfold lowest_of_body. need_. need_. do 5 (apply okf_bind; intros ? _). now apply okf_matmul. Qed.
  Lemma okf_middle a : fine_args a -> okf (middle_N_of_D c a).
  Proof.
    apply okf_casting. clear a. intros a F. unfold middle_of_body. need_. need_. do 2 (apply okf_bind; intros ? _).
    match goal with |- okf (if ?b then _ else _) => destruct b end; [assumption|]. apply okf_bind; intros one _. destruct one; [now apply okf_matmul|].
    do 6 (apply okf_bind; intros ? _). now apply okf_matmul.
  Qed.
  Lemma okf_pick o a : fine_args a -> okf (casting c two_sig (pick_body c o) a).
  Proof. apply okf_casting. clear a. intros a F. unfold pick_body. need_. need_. apply okf_bind. intros [|] _; assumption. Qed.
End lib.
