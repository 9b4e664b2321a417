(** Facts about get_seq, truth values and blanks. *)
From Coq Require Import String List ZArith QArith Bool Lia.
From Verif Require Import PyBase Num Val RVModel Obj AtModel DispModel Spec SeqSpec CmpFacts NumFacts MassFacts RVFacts ConstructFacts ConvFacts OpFacts UnaryFacts DispFacts.
Import ListNotations.
Open Scope Z_scope.

(** ** C48 *)

Lemma leaves_flat : forall o, leaves o (flat1 o).
Proof.
  fix IH 1. intros [v|s|l|l|l|x|b|]; try constructor. cbn [flat1]. rewrite flat_map_concat_map. constructor.
  induction l as [|o l IHl]; cbn [map]; constructor; [apply IH|exact IHl].
Qed.

Lemma flat_leaves : forall o L, leaves o L -> flat1 o = L.
Proof.
  fix IH 3. intros o L [os Ls F| | | | | | | ]; try reflexivity. cbn [flat1]. rewrite flat_map_concat_map. f_equal.
  induction F as [|o' L' os Ls H F IHF]; cbn [map]; [reflexivity|]. f_equal; [apply IH, H|exact IHF].
Qed.

Lemma flatten_leaves src L : leaves (OIter src) L -> flatten src = L.
Proof. intros H. apply flat_leaves in H. exact H. Qed.

Definition leaf (o : obj) : bool := match o with OIter _ | OSeq _ | OSSeq _ => false | _ => true end.

Lemma flat1_leaf o : Forall (fun x => leaf x = true) (flat1 o).
Proof.
  revert o. fix IH 1. intros [v|s|l|l|l|x|b|]; cbn [flat1]; try (constructor; [reflexivity|constructor]).
  - apply Forall_forall. intros x I. apply in_map_iff in I. destruct I as [v [<- _]]. reflexivity.
  - apply Forall_forall. intros x I. apply in_map_iff in I. destruct I as [v [<- _]]. reflexivity.
  - induction l as [|o l IHl]; cbn [flat_map]; [constructor|]. apply Forall_app. split; [apply IH|exact IHl].
Qed.

Lemma flatten_leaf src : Forall (fun x => leaf x = true) (flatten src).
Proof.
  unfold flatten. induction src as [|o src IH]; cbn [flat_map]; [constructor|]. apply Forall_app. split; [apply flat1_leaf|exact IH].
Qed.

Lemma all_some_app {A} (l1 l2 : list (option A)) : all_some (l1 ++ l2) =
  match all_some l1, all_some l2 with Some a, Some b => Some (a ++ b) | _, _ => None end.
Proof.
  induction l1 as [|[a|] l1 IH]; cbn; [destruct (all_some l2); reflexivity| |reflexivity].
  rewrite IH. destruct (all_some l1), (all_some l2); reflexivity.
Qed.

Definition is_none (o : obj) : bool := match o with ONone => true | _ => false end.

(** the entries, when no leaf is None *)
Lemma plain_entries L : Forall (fun x => leaf x = true) L ->
  all_some (map leaf_val (filter (fun o => negb (is_meta_rv o)) L)) =
  if existsb is_none L then None else Some (flat_map plain_of L).
Proof.
  intros F. induction F as [|o L H F IH]; [reflexivity|].
  destruct o; try discriminate; cbn [filter is_meta_rv negb map leaf_val all_some existsb is_none orb flat_map plain_of app];
    rewrite ?IH; destruct (existsb is_none L); reflexivity.
Qed.

Lemma faces_eq L : flat_map rv_leaf_vals L = flat_map faces_of L.
Proof. reflexivity. Qed.

Lemma get_seq_entries src L : leaves (OIter src) L ->
  all_some (map leaf_val (filter (fun o => negb (is_meta_rv o)) L ++ map OV (flat_map rv_leaf_vals L))) =
  if existsb is_none L then None else Some (contents L).
Proof.
  intros H. apply flatten_leaves in H. rewrite map_app, all_some_app, plain_entries by (subst; apply flatten_leaf).
  rewrite all_some_values. destruct (existsb is_none L); reflexivity.
Qed.

Definition number_like (o : obj) : Prop :=
  match o with
  | OV v => is_number v = true
  | ORV x => numbers (map fst (rv_dist x))
  | OBlank _ => True
  | _ => False
  end.

Lemma existsb_none {A} (f : A -> bool) l : Forall (fun x => f x = false) l -> existsb f l = false.
Proof. intros F. induction F as [|x l H F IH]; cbn; [reflexivity|]. rewrite H. exact IH. Qed.

Lemma get_seq_numbers src L : leaves (OIter src) L -> Forall number_like L -> get_seq src = Ok (OSeq (contents L)).
Proof.
  intros H F. unfold get_seq. pose proof (get_seq_entries src L H) as E. rewrite (flatten_leaves src L H).
  assert (N : existsb is_none L = false).
  { apply existsb_none. eapply Forall_impl; [|exact F]. intros o Ho. destruct o; try reflexivity. destruct Ho. }
  rewrite N in E.
  assert (G : Forall (fun o => is_number_leaf o = true) (filter (fun o => negb (is_meta_rv o)) L ++ map OV (flat_map rv_leaf_vals L))).
  { apply Forall_app. split.
    - apply Forall_forall. intros o I. apply filter_In in I. destruct I as [I M]. apply (proj1 (Forall_forall _ _) F) in I.
      destruct o as [[v|v]| | | | | | |]; try discriminate; try destruct I; reflexivity.
    - apply Forall_forall. intros o I. apply in_map_iff in I. destruct I as [v [<- I]]. apply in_flat_map in I.
      destruct I as [o [I V]]. apply (proj1 (Forall_forall _ _) F) in I. destruct o; try destruct V.
      pose proof (proj1 (Forall_forall _ _) I v V) as K. destruct v; [reflexivity|discriminate]. }
  rewrite existsb_none.
  - assert (B : forallb is_number_leaf (filter (fun o => negb (is_meta_rv o)) L ++ map OV (flat_map rv_leaf_vals L)) = true)
      by (apply forallb_forall; exact (proj1 (Forall_forall _ _) G)).
    rewrite B, E. reflexivity.
  - eapply Forall_impl; [|exact G]. intros o Ho. destruct o as [[v|v]| | | | | | |]; try discriminate; reflexivity.
Qed.

Definition has_label (o : obj) : bool :=
  match o with
  | OV v => negb (is_number v)
  | OStr _ => true
  | ORV x => existsb (fun v => negb (is_number v)) (map fst (rv_dist x))
  | _ => false
  end.

Lemma label_leaf_value v : is_label_leaf (OV v) = negb (is_number v).
Proof. destruct v; reflexivity. Qed.

Lemma label_leaves L :
  existsb is_label_leaf (filter (fun o => negb (is_meta_rv o)) L ++ map OV (flat_map rv_leaf_vals L)) = existsb has_label L.
Proof.
  apply eq_true_iff_eq. rewrite !existsb_exists. split.
  - intros [o [I H]]. apply in_app_or in I. destruct I as [I|I].
    + apply filter_In in I. exists o. split; [apply I|]. destruct o as [[v|v]| | | | | | |]; try discriminate; reflexivity.
    + apply in_map_iff in I. destruct I as [v [<- I]]. apply in_flat_map in I. destruct I as [o [I V]]. exists o. split; [exact I|].
      destruct o; try destruct V. cbn [has_label]. apply existsb_exists. exists v. split; [exact V|]. rewrite <- label_leaf_value. exact H.
  - intros [o [I H]]. destruct o as [v|s| | | |x| | ]; try discriminate.
    + exists (OV v). split; [|rewrite label_leaf_value; exact H]. apply in_or_app. left. apply filter_In. auto.
    + exists (OStr s). split; [|reflexivity]. apply in_or_app. left. apply filter_In. auto.
    + cbn [has_label] in H. apply existsb_exists in H. destruct H as [v [V N]]. exists (OV v). split; [|rewrite label_leaf_value; exact N].
      apply in_or_app. right. apply in_map, in_flat_map. exists (ORV x). auto.
Qed.

Lemma get_seq_labels src L : leaves (OIter src) L -> ~ In ONone L -> existsb has_label L = true -> get_seq src = Ok (OSSeq (contents L)).
Proof.
  intros H N B. unfold get_seq. pose proof (get_seq_entries src L H) as E. rewrite (flatten_leaves src L H), label_leaves, B, E.
  assert (Z : existsb is_none L = false).
  { apply existsb_none, Forall_forall. intros o I. destruct o; try reflexivity. destruct (N I). }
  rewrite Z. reflexivity.
Qed.

Lemma get_seq_none src L : leaves (OIter src) L -> In ONone L -> existsb has_label L = false -> get_seq src = Err AssertErr.
Proof.
  intros H N B. unfold get_seq. rewrite (flatten_leaves src L H), label_leaves, B.
  assert (Z : forallb is_number_leaf (filter (fun o => negb (is_meta_rv o)) L ++ map OV (flat_map rv_leaf_vals L)) = false).
  { apply not_true_iff_false. intros F. rewrite forallb_forall in F. enough (is_number_leaf ONone = true) by discriminate. apply F.
    apply in_or_app. left. apply filter_In. auto. }
  rewrite Z. reflexivity.
Qed.

Lemma contents_values l : contents (map OV l) = l.
Proof.
  unfold contents. assert (A : flat_map plain_of (map OV l) = l) by (induction l as [|v l IH]; cbn; [|rewrite IH]; reflexivity).
  rewrite A. change (flat_map faces_of (map OV l)) with (flat_map rv_leaf_vals (map OV l)). rewrite faces_values. apply app_nil_r.
Qed.

Lemma get_seq_idem src s : get_seq src = Ok s -> get_seq [s] = Ok s.
Proof.
  unfold get_seq at 1. set (r := filter _ _ ++ _). intros H.
  assert (V : forall l, all_some (map leaf_val r) = Some l ->
                existsb is_label_leaf (map OV l) = existsb is_label_leaf r /\ (forallb is_number_leaf r = true -> numbers l)).
  { clear H. induction r as [|o r IH]; cbn [map all_some]; intros l E.
    - injection E as <-. split; [reflexivity|constructor].
    - destruct (leaf_val o) as [v|] eqn:O; [|discriminate]. destruct (all_some (map leaf_val r)) as [l'|]; [|discriminate].
      cbn in E. injection E as <-. destruct (IH l' eq_refl) as [A B]. cbn [map existsb forallb]. rewrite A.
      destruct o as [w|s'| | | | | | ]; try discriminate; cbn in O; injection O as <-.
      + split; [reflexivity|]. intros F. apply andb_true_iff in F. constructor; [destruct w; [reflexivity|destruct F; discriminate]|apply B, F].
      + split; [reflexivity|]. intros F. discriminate. }
  assert (Lv : forall l, leaves (OIter [OSeq l]) (map OV l) /\ leaves (OIter [OSSeq l]) (map OV l)).
  { intros l. split.
    - pose proof (leaves_flat (OIter [OSeq l])) as X. cbn [flat1 flat_map] in X. rewrite app_nil_r in X. exact X.
    - pose proof (leaves_flat (OIter [OSSeq l])) as X. cbn [flat1 flat_map] in X. rewrite app_nil_r in X. exact X. }
  destruct (existsb is_label_leaf r) eqn:B.
  - destruct (all_some (map leaf_val r)) as [l|]; [|discriminate]. injection H as <-. destruct (V l eq_refl) as [A _].
    rewrite (get_seq_labels [OSSeq l] (map OV l)); [rewrite contents_values; reflexivity|apply Lv| |].
    + intros I. apply in_map_iff in I. destruct I as [? [? _]]. discriminate.
    + rewrite <- A. clear. induction l as [|v l IH]; cbn [map existsb]; [reflexivity|]. rewrite IH, label_leaf_value. reflexivity.
  - unfold assert_ in H. destruct (forallb is_number_leaf r) eqn:F; [|discriminate].
    destruct (all_some (map leaf_val r)) as [l|]; [|discriminate]. injection H as <-. destruct (V l eq_refl) as [_ N].
    rewrite (get_seq_numbers [OSeq l] (map OV l)); [rewrite contents_values; reflexivity|apply Lv|].
    apply Forall_forall. intros o I. apply in_map_iff in I. destruct I as [v [<- I]]. apply (proj1 (Forall_forall _ _) (N eq_refl) v I).
Qed.

Lemma get_seq_nesting src : get_seq [OIter src] = get_seq src.
Proof. unfold get_seq, flatten. cbn [flat_map flat1]. rewrite app_nil_r. reflexivity. Qed.

(** ** C49 *)

Lemma ntruth_Q n : ntruth n = negb (Qeq_bool (numQ n) 0).
Proof.
  unfold ntruth. f_equal. apply eq_true_iff_eq. rewrite Qeq_bool_iff, Z.eqb_eq. pose proof (ncmp_Q n (NI 0)) as E.
  change (numQ (NI 0)) with 0%Q in E. rewrite Qeq_alt, <- E, (ncmp_at (Z.min 0 (expo n))) by (cbn; lia).
  cbn [mant expo]. unfold shl. rewrite Z.mul_0_l, Z.compare_eq_iff.
  assert (P : 2 ^ (expo n - Z.min 0 (expo n)) <> 0) by (apply Z.pow_nonzero; lia). nia.
Qed.

Lemma vtruth_truthy v : vtruth v = truthy v.
Proof. destruct v; [apply ntruth_Q|reflexivity]. Qed.

Lemma nonzero_truthy v : nonzero v = truthy v.
Proof.
  destruct v as [n|s]; [|reflexivity]. unfold nonzero, truthy. f_equal. apply eq_true_iff_eq. rewrite Qeq_bool_iff.
  apply (veqb_Q n (NI 0)).
Qed.

Lemma vop_bool o a b : is_bool o = true -> vop o a b = Ok (b01 (connect o (truthy a) (truthy b))).
Proof. intros B. destruct o; try discriminate; cbn [vop connect]; rewrite !vtruth_truthy; reflexivity. Qed.

Lemma truth2_connect o a b : is_bool o = true -> truth2 o a b = OV (b01 (connect o a b)).
Proof. destruct o; try discriminate; reflexivity. Qed.

Lemma my_ints c o x y : is_bool o = true ->
  my_op c o (oint x) (oint y) = Ok (OV (b01 (connect o (negb (x =? 0)) (negb (y =? 0))))).
Proof. intros B. destruct o; try discriminate; reflexivity. Qed.

Lemma my_op_py c o a b : match a, b with OV _, OV _ => False | _, _ => True end -> my_op c o a b = py_op c o a b.
Proof. destruct o; try reflexivity; destruct a as [[[]|]| | | | | | |]; try reflexivity; destruct b as [[[]|]| | | | | | |]; try reflexivity; intros []. Qed.

Lemma bool_not_cmp o : is_bool o = true -> is_cmp o = false.
Proof. destruct o; try discriminate; reflexivity. Qed.

Lemma my_seq_number c o l s n : is_bool o = true -> seq_sum l = Ok s ->
  my_op c o (OSeq l) (OV (VN n)) = Ok (OV (b01 (connect o (truthy s) (truthy (VN n))))) /\
  my_op c o (OV (VN n)) (OSeq l) = Ok (OV (b01 (connect o (truthy s) (truthy (VN n))))).
Proof.
  intros B E. rewrite !my_op_py by exact Logic.I. split; unfold py_op; rewrite dispatch_S; unfold other_first; rewrite (bool_not_cmp o B); cbn [andb].
  - cbn [fwd]. unfold seq_fwd. rewrite (bool_not_cmp o B), B. cbn [meta_sum]. rewrite E. cbn [bind].
    rewrite truth2_connect, !nonzero_truthy by exact B. reflexivity.
  - cbn [fwd nimpl bind]. unfold rev_op. rewrite (bool_not_cmp o B). unfold seq_rev. rewrite B. cbn [meta_sum]. rewrite E. cbn [bind].
    rewrite truth2_connect, !nonzero_truthy by exact B. reflexivity.
Qed.

Lemma connect_comm o a b : connect o a b = connect o b a.
Proof. destruct o, a, b; reflexivity. Qed.

Lemma my_seq_seq c o l s l' s' : is_bool o = true -> seq_sum l = Ok (VN s) -> seq_sum l' = Ok (VN s') ->
  my_op c o (OSeq l) (OSeq l') = Ok (OV (b01 (connect o (truthy (VN s)) (truthy (VN s'))))).
Proof.
  intros B E E'. rewrite my_op_py by exact Logic.I. unfold py_op. rewrite (dispatch_S 2). unfold other_first. rewrite (bool_not_cmp o B). cbn [andb].
  cbn [fwd]. unfold seq_fwd. rewrite (bool_not_cmp o B), B. cbn [meta_sum]. rewrite E. cbn [bind].
  pose proof (proj2 (my_seq_number c o l' (VN s') s B E')) as X. rewrite my_op_py in X by exact Logic.I.
  assert (D : dispatch 2 c o (OV (VN s)) (OSeq l') = py_op c o (OV (VN s)) (OSeq l')).
  { unfold py_op. symmetry. apply dispatch_enough_gen; [cbn|]; lia. }
  rewrite D, X. cbn. rewrite connect_comm. reflexivity.
Qed.

Lemma my_die_value c o x v : is_bool o = true -> my_op c o (ORV x) (OV v) = rmap ORV (rv_op_const c o (rv_dist x) v).
Proof. intros B. rewrite my_op_py by exact Logic.I. apply py_die_value. Qed.

(** the law of a truth value computed from an outcome *)
Lemma truth_law {A} (l : list (A * Z)) d (P : A -> bool) (f : A -> res pval) :
  (forall a, f a = Ok (b01 (P a))) ->
  (forall z, (Pr d z == PrP (fun a => yields (f a) z) l)%Q) ->
  (Pr d (vint 1) == PrP P l)%Q /\ (Pr d (vint 0) == PrP (fun a => negb (P a)) l)%Q.
Proof.
  intros H HP. split; rewrite HP; apply PrP_ext; intros a w _; rewrite H; cbn [yields]; destruct (P a); reflexivity.
Qed.

Lemma my_dice_law c o x y : is_bool o = true -> cfg_trunc c = false -> proper (rv_dist x) -> proper (rv_dist y) ->
  total (rv_dist x) * total (rv_dist y) <= SUM_LIMIT ->
  exists r, my_op c o (ORV x) (ORV y) = Ok (ORV r) /\
    (Pr (rv_dist r) (vint 1) == PrP (fun ab => connect o (truthy (fst ab)) (truthy (snd ab))) (indep (rv_dist x) (rv_dist y)))%Q /\
    (Pr (rv_dist r) (vint 0) == PrP (fun ab => negb (connect o (truthy (fst ab)) (truthy (snd ab)))) (indep (rv_dist x) (rv_dist y)))%Q.
Proof.
  intros B T X Y L. destruct (proj2 (rv_conv_succeeds c (vop o) (rv_dist x) (rv_dist y) T (proj1 X) (proj1 Y) L)) as [r E].
  { intros a b _ _. rewrite vop_bool by exact B. eauto. }
  exists r. rewrite my_op_py by exact Logic.I. rewrite py_die_die. unfold rv_op. rewrite E. split; [reflexivity|].
  destruct (rv_conv_law c (vop o) _ _ r T X Y L E) as [HP _].
  apply (truth_law _ _ (fun ab => connect o (truthy (fst ab)) (truthy (snd ab))) _ (fun ab => vop_bool o (fst ab) (snd ab) B) HP).
Qed.

Lemma my_die_number_law c o x n : is_bool o = true -> cfg_trunc c = false -> proper (rv_dist x) ->
  exists r r', my_op c o (ORV x) (OV (VN n)) = Ok (ORV r) /\ my_op c o (OV (VN n)) (ORV x) = Ok (ORV r') /\
    forall d, d = rv_dist r \/ d = rv_dist r' ->
    (Pr d (vint 1) == PrP (fun a => connect o (truthy a) (truthy (VN n))) (rv_dist x))%Q /\
    (Pr d (vint 0) == PrP (fun a => negb (connect o (truthy a) (truthy (VN n)))) (rv_dist x))%Q.
Proof.
  intros B T X. destruct (proj2 (rv_map_succeeds c (fun a => vop o a (VN n)) (rv_dist x) T (proj1 X))) as [r E].
  { intros a _. rewrite vop_bool by exact B. eauto. }
  destruct (proj2 (rv_map_succeeds c (fun a => vop o (VN n) a) (rv_dist x) T (proj1 X))) as [r' E'].
  { intros a _. rewrite vop_bool by exact B. eauto. }
  exists r, r'. rewrite !my_op_py by exact Logic.I. rewrite py_die_value, py_number_die by (apply bool_not_cmp, B).
  unfold rv_op_const, const_op_rv. rewrite E, E'. split; [reflexivity|]. split; [reflexivity|]. intros d [->| ->].
  - destruct (rv_map_law c _ _ r T X E) as [HP _].
    apply (truth_law _ _ (fun a => connect o (truthy a) (truthy (VN n))) _ (fun a => vop_bool o a (VN n) B) HP).
  - destruct (rv_map_law c _ _ r' T X E') as [HP _].
    apply (truth_law _ _ (fun a => connect o (truthy a) (truthy (VN n))) (fun a => vop o (VN n) a)); [|exact HP].
    intros a. rewrite vop_bool, connect_comm by exact B. reflexivity.
Qed.

(** dice and sequences: the sum takes the place of the sequence *)
Lemma my_die_seq c o x l s : is_bool o = true -> seq_sum l = Ok (VN s) ->
  my_op c o (ORV x) (OSeq l) = my_op c o (ORV x) (OV (VN s)) /\ my_op c o (OSeq l) (ORV x) = my_op c o (OV (VN s)) (ORV x).
Proof.
  intros B E. rewrite !my_op_py by exact Logic.I. split.
  - rewrite py_die_value. unfold py_op. rewrite dispatch_S. unfold other_first. rewrite (bool_not_cmp o B). cbn [andb fwd]. unfold convolve. cbn [meta_sum].
    rewrite E. cbn [bind]. unfold done. destruct (rv_op_const c o (rv_dist x) (VN s)); reflexivity.
  - rewrite py_seq_l; [|apply bool_not_cmp, B|split; [reflexivity|exact Logic.I]|exact Logic.I]. rewrite E. reflexivity.
Qed.

Lemma my_inverts c : (forall z, my_invert c (oint z) = Ok (OV (b01 (z =? 0)))) /\
  (forall l s, seq_sum l = Ok s -> my_invert c (OSeq l) = Ok (OV (b01 (negb (truthy s))))).
Proof.
  split; [reflexivity|]. intros l s E. cbn [my_invert meta_sum]. rewrite E. cbn [bind]. rewrite <- nonzero_truthy. unfold nonzero.
  rewrite negb_involutive. reflexivity.
Qed.

(** ** C50 *)

Lemma py_blank_l c o b a : match a with OStr _ => False | _ => True end ->
  py_op c o (OBlank b) a = (r <- blank_fwd c o b a ;; match r with Some v => Ok v | None => Err TypeErr end).
Proof.
  intros T. unfold py_op. rewrite dispatch_S. unfold other_first. rewrite andb_false_r.
  assert (F : fwd (dispatch 2 c) c o (OBlank b) a = blank_fwd c o b a) by (destruct a; try reflexivity; destruct T). rewrite F.
  destruct (blank_fwd c o b a) as [[v|]|e] eqn:E; try reflexivity. exfalso.
  revert E. destruct o; cbn [blank_fwd]; try (intros E; discriminate); try (destruct b; intros E; discriminate).
  destruct b; [intros E; discriminate|]. unfold done. destruct a; try (destruct (neg_obj c _); intros E; discriminate); try destruct T;
    (destruct (get_seq _); cbn [bind]; [|intros E; discriminate]); (destruct (meta_sum _); cbn [bind]; [|intros E; discriminate]);
    destruct (neg_obj c _); intros E; discriminate.
Qed.

Definition num_or_die (a : obj) : Prop := match a with OV (VN _) | ORV _ => True | _ => False end.

Lemma py_blank_r c o b a : num_or_die a -> is_cmp o = false ->
  py_op c o a (OBlank b) = (r <- blank_rev o b a ;; match r with Some v => Ok v | None => Err TypeErr end).
Proof.
  intros T C. unfold py_op. rewrite dispatch_S. unfold other_first. rewrite C. cbn [andb].
  assert (F : fwd (dispatch 2 c) c o a (OBlank b) = nimpl) by (destruct a as [[]| | | | | | |]; try destruct T; reflexivity). rewrite F.
  cbn [nimpl bind]. unfold rev_op. rewrite C. destruct o; try discriminate; reflexivity.
Qed.

Lemma py_blank_r_cmp c o b a : num_or_die a -> is_cmp o = true -> py_op c o a (OBlank b) = Ok (if b then oint 1 else OBlank b).
Proof.
  intros T C. unfold py_op. rewrite dispatch_S. unfold other_first. rewrite C.
  assert (N : match a with OSeq _ => false | _ => false end = false) by (destruct a; reflexivity).
  assert (F : fwd (dispatch 2 c) c o a (OBlank b) = nimpl) by (destruct a as [[]| | | | | | |]; try destruct T; reflexivity).
  assert (O : match a with OSeq _ => match OBlank b with OSSeq _ => true | _ => false end | _ => false end = false) by (destruct a; reflexivity).
  rewrite O. cbn [andb]. rewrite F. cbn [nimpl bind]. unfold rev_op. rewrite C.
  destruct a as [[]| | | | | | |]; try destruct T; destruct o; try discriminate; reflexivity.
Qed.

Definition absorbing (o : binop) : bool := match o with OMul | OFloorDiv | OTrueDiv | OPow | OMod => true | _ => false end.

Lemma plain_blank c x : num_or_die x ->
  py_op c OAdd (OBlank false) x = Ok x /\ py_op c OAdd x (OBlank false) = Ok x /\
  py_op c OSub x (OBlank false) = Ok x /\
  (forall n, x = OV (VN n) -> exists m, py_op c OSub (OBlank false) x = Ok (OV (VN m)) /\ (numQ m == - numQ n)%Q) /\
  (forall d, x = ORV d -> py_op c OSub (OBlank false) x = rmap ORV (rv_neg c (rv_dist d))) /\
  (forall o, absorbing o = true -> py_op c o (OBlank false) x = Ok (OBlank false) /\ py_op c o x (OBlank false) = Ok (OBlank false)) /\
  (forall o, relational o = true -> py_op c o (OBlank false) x = Ok (OBlank false) /\ py_op c o x (OBlank false) = Ok (OBlank false)) /\
  py_op c OOr (OBlank false) x = Ok x /\ py_op c OOr x (OBlank false) = Ok x /\
  py_op c OAnd (OBlank false) x = Ok (OBlank false) /\ py_op c OAnd x (OBlank false) = Ok (OBlank false).
Proof.
  intros T. assert (S : match x with OStr _ => False | _ => True end) by (destruct x; try exact Logic.I; destruct T).
  rewrite !py_blank_l, !py_blank_r by auto. cbn [blank_fwd blank_rev bind].
  split; [reflexivity|]. split; [reflexivity|]. split; [reflexivity|]. split; [|split; [|split; [|split]]].
  - intros n ->. exists (nneg n). split; [reflexivity|apply numQ_neg].
  - intros d ->. cbn [neg_obj]. unfold done. destruct (rv_neg c (rv_dist d)); reflexivity.
  - intros o A. rewrite py_blank_l, py_blank_r by (auto; destruct o; try discriminate; reflexivity). destruct o; try discriminate; split; reflexivity.
  - intros o A. rewrite py_blank_l, py_blank_r_cmp by (auto; destruct o; try discriminate; reflexivity). destruct o; try discriminate; split; reflexivity.
  - destruct x as [[]| | | | | | |]; try destruct T; repeat split.
Qed.

Lemma special_blank c x : num_or_die x ->
  (forall o, arithmetic o = true -> py_op c o (OBlank true) x = Ok (OBlank true) /\ py_op c o x (OBlank true) = Ok (OBlank true)) /\
  (forall o, arithmetic o = false -> py_op c o (OBlank true) x = Ok (oint 1) /\ py_op c o x (OBlank true) = Ok (oint 1)).
Proof.
  intros T. assert (S : match x with OStr _ => False | _ => True end) by (destruct x; try exact Logic.I; destruct T). split.
  - intros o A. rewrite py_blank_l, py_blank_r by (auto; destruct o; try discriminate; reflexivity). destruct o; try discriminate; split; reflexivity.
  - intros o A. rewrite py_blank_l by auto. destruct (is_cmp o) eqn:C.
    + rewrite py_blank_r_cmp by auto. destruct o; try discriminate; split; reflexivity.
    + rewrite py_blank_r by auto. destruct o; try discriminate; split; reflexivity.
Qed.

Lemma two_blanks c a b : 
  py_op c OAdd (OBlank a) (OBlank b) = Ok (OBlank (a || b)) /\
  py_op c OOr (OBlank a) (OBlank b) = Ok (if a then oint 1 else OBlank false) /\
  (forall o, absorbing o = true -> py_op c o (OBlank a) (OBlank b) = Ok (OBlank a)).
Proof.
  split; [destruct a, b; reflexivity|]. split; [destruct a, b; reflexivity|].
  intros o A. destruct o, a, b; try discriminate; reflexivity.
Qed.

(** ** C51 *)
Lemma blank_plus_seq c l s : seq_sum l = Ok (VN s) ->
  py_op c OAdd (OBlank false) (OSeq l) = Ok (OSeq l) /\ py_op c OAdd (OSeq l) (OBlank false) = Ok (OV (VN s)).
Proof.
  intros E. split; [reflexivity|]. rewrite py_seq_l; [|reflexivity|discriminate|exact Logic.I]. rewrite E. cbn [bind].
  apply (plain_blank c (OV (VN s)) Logic.I).
Qed.
