(** Facts about roll on the arguments a user passes. *)
From Coq Require Import String Ascii List ZArith QArith Qabs Bool Permutation Sorted Lia Lqa.
From Verif Require Import PyBase Num Val Sorting RVModel UtilModel Obj RollModel RollSpec Spec CmpFacts SortFacts MassFacts NumFacts RVFacts ConstructFacts ConvFacts IntFacts RoundFacts LimitFacts OpFacts UnaryFacts UtilFacts RollFacts RollErrFacts.
Import ListNotations.
Open Scope Z_scope.

(** ** Uniform dice *)
Lemma zrange_uniform a b : map (fun v => (v, 1)) (zrange a (b + 1)) = uniform a b.
Proof.
  unfold zrange, uniform. rewrite map_map. replace (b + 1 - a) with (b - a + 1) by lia. reflexivity.
Qed.

Lemma combine_ones (l : list pval) : combine l (map (fun _ => 1) l) = map (fun v => (v, 1)) l.
Proof. induction l; cbn; congruence. Qed.

Lemma uniform_int lo hi : int_vals (uniform lo hi).
Proof. unfold uniform, int_vals. apply Forall_map. apply Forall_forall. reflexivity. Qed.

Lemma uniform_nonneg lo hi : nonneg (uniform lo hi).
Proof. unfold uniform, nonneg. apply Forall_map. apply Forall_forall. cbn. lia. Qed.

Lemma ones_total {A} (l : list A) : total (map (fun v => (v, 1)) l) = Z.of_nat (length l).
Proof. unfold total. induction l; [reflexivity|]. cbn [map mass length]. rewrite IHl. lia. Qed.

Lemma uniform_total lo hi : total (uniform lo hi) = Z.max 0 (hi - lo + 1).
Proof.
  unfold uniform. rewrite <- (map_map (fun i => vint (lo + Z.of_nat i)) (fun v => (v, 1))).
  rewrite ones_total, map_length, seq_length. lia.
Qed.

Lemma uniform_proper lo hi : lo <= hi -> proper (uniform lo hi).
Proof. intro H. split; [apply uniform_nonneg|]. rewrite uniform_total. lia. Qed.

Lemma seq_strict lo n k : strict (map (fun i => (vint (lo + Z.of_nat i), 1)) (seq k n)).
Proof.
  revert k. induction n as [|n IH]; intros k; [constructor|]. cbn [seq map]. constructor; [apply IH|].
  apply Forall_map. apply Forall_forall. intros i Hi. apply in_seq in Hi.
  unfold vlt, vint. cbn [fst vcmp]. rewrite ncmp_Q. cbn [numQ]. rewrite inject_Z_compare. apply Z.compare_lt_iff. lia.
Qed.

Lemma ones_gcd (l : list Z) : l <> [] -> Forall (fun p => p = 1) l -> gcd_list l = 1.
Proof.
  destruct l as [|p l]; [congruence|]. intros _ H. inversion H; subst. unfold gcd_list. cbn [fold_right].
  apply Z.gcd_1_l.
Qed.

Lemma uniform_canon lo hi : lo <= hi -> canon (uniform lo hi).
Proof.
  intro H. unfold uniform. destruct (Z.to_nat (hi - lo + 1)) as [|n] eqn:E; [lia|].
  split; [split; [discriminate|split; [apply seq_strict|]]|].
  - rewrite <- E. apply uniform_nonneg.
  - left. apply ones_gcd; [discriminate|]. unfold probs. rewrite map_map. apply Forall_map, Forall_forall. reflexivity.
Qed.

Lemma uniform_positive lo hi : positive_weights (uniform lo hi).
Proof. unfold uniform, positive_weights, probs. rewrite map_map. apply Forall_map, Forall_forall. cbn. lia. Qed.

Lemma from_seq_normal c l : cfg_trunc c = false -> l <> [] -> from_seq c l = Ok (rv_of (normal c (map (fun v => (v, 1)) l))).
Proof.
  intros Ht Hn. unfold from_seq, mk_rv. destruct l as [|a l]; [congruence|].
  rewrite mk_dist_ok; auto.
  - cbn [rmap]. now rewrite combine_ones.
  - now rewrite map_length.
  - apply Forall_map, Forall_forall. lia.
Qed.

Lemma from_seq_range c a b : cfg_trunc c = false -> a <= b -> from_seq c (zrange a (b + 1)) = Ok (rv_of (uniform a b)).
Proof.
  intros Ht H. rewrite from_seq_normal, zrange_uniform; auto.
  - rewrite normal_id_int; auto; [now apply uniform_canon|intros _; apply uniform_positive|apply uniform_int].
  - unfold zrange. destruct (Z.to_nat (b + 1 - a)) eqn:E; [lia|discriminate].
Qed.


Lemma to_die_int c m : cfg_trunc c = false -> to_die c (DInt m) = Ok (rv_of (int_die m)).
Proof.
  intro Ht. unfold to_die, int_die. destruct (Z.ltb_spec 0 m).
  - now apply from_seq_range; [|lia].
  - destruct (Z.eqb_spec m 0); [now apply from_const_int|]. change 0 with (-1 + 1) at 1. apply from_seq_range; auto; lia.
Qed.

Lemma int_die_good m : proper (int_die m) /\ int_vals (int_die m) /\ canon (int_die m).
Proof.
  unfold int_die. destruct (Z.ltb_spec 0 m); [|destruct (Z.eqb_spec m 0)].
  - repeat split; try apply uniform_proper; try apply uniform_int; try apply uniform_canon; lia.
  - repeat split; try (repeat constructor; discriminate); try discriminate; auto.
  - repeat split; try apply uniform_proper; try apply uniform_int; try apply uniform_canon; lia.
Qed.

Lemma int_die_total m : total (int_die m) = Z.max 1 (Z.abs m).
Proof.
  unfold int_die. destruct (Z.ltb_spec 0 m); [|destruct (Z.eqb_spec m 0)].
  - rewrite uniform_total. lia.
  - subst. reflexivity.
  - rewrite uniform_total. lia.
Qed.

(** ** Rolls *)
Lemma roll_single c m M : roll c (oint m) None M = roll c (oint 1) (Some (oint m)) M.
Proof. reflexivity. Qed.

(** the two stages of roll *)
Definition roll_body (c : cfg) (n d : obj) : ST obj :=
  match n, d with
  | _, OBlank _ => sret (OBlank false)
  | OBlank _, _ => sret (OBlank true)
  | _, OSeq [] | _, OSSeq [] => sret (OBlank false)
  | _, _ =>
      match as_count n, as_die d with
      | Some n, Some d => r <~ roll_core c n d ;; sret (ORV r)
      | _, _ => slift (Err Unmodelled)
      end
  end.
Lemma roll_stages c n d M :
  roll c n d M = match roll_args n d with Ok nd => roll_body c (fst nd) (snd nd) M | Err e => (Err e, M) end.
Proof. unfold roll, sbind, slift. destruct (roll_args n d) as [[n' d']|]; reflexivity. Qed.

Definition count_norm (n : obj) : res obj :=
  match n with
  | OV (VN (NF m e)) => Ok (oint (nceil (NF m e)))
  | OIter l => get_seq l
  | n => Ok n
  end.
Definition die_norm (d : obj) : res obj :=
  match d with
  | OStr s => get_seq [OIter [OStr s]]
  | OV (VN (NF _ _)) => get_seq [d]
  | OIter l => get_seq l
  | d => Ok d
  end.
Definition is_str (o : obj) : bool := match o with OStr _ => true | _ => false end.

Lemma get_seq_kind l o : get_seq l = Ok o -> exists e, o = OSeq e \/ o = OSSeq e.
Proof.
  unfold get_seq. destruct (existsb _ _).
  - destruct (all_some _); intro H; inversion H; eauto.
  - unfold assert_. destruct (forallb _ _); [|discriminate]. destruct (all_some _); intro H; inversion H; eauto.
Qed.

Lemma roll_args_some n d : is_str n = false ->
  roll_args n (Some d) = (d' <- die_norm d ;; n' <- count_norm n ;; Ok (n', d')).
Proof.
  intro Hs. unfold roll_args. replace (roll_args0 n (Some d)) with (Ok (n, Some d)) by (destruct n; auto; discriminate).
  cbn [bind].
  set (n1 := match n with OV (VN (NF m e)) => oint (nceil (NF m e)) | n0 => n0 end).
  assert (N1 : forall X : obj -> res (obj * obj), bind (match n1 with OIter l => get_seq l | n0 => Ok n0 end) X = bind (count_norm n) X).
  { intro X. unfold n1. destruct n as [[[z|m e]|s]| | | | | | | ]; reflexivity. }
  destruct d as [[[z|m e]|s]|s|l|l|l|x|b| ]; cbn [bind die_norm rmap]; try apply N1.
  destruct (get_seq l) as [o|] eqn:E; [|reflexivity]. cbn [bind]. apply N1.
Qed.

Lemma roll_some c n d M : is_str n = false ->
  roll c n (Some d) M =
  match die_norm d with
  | Err e => (Err e, M)
  | Ok d' => match count_norm n with Err e => (Err e, M) | Ok n' => roll_body c n' d' M end
  end.
Proof.
  intro Hs. rewrite roll_stages, roll_args_some by exact Hs.
  destruct (die_norm d) as [d'|]; [|reflexivity]. cbn [bind]. destruct (count_norm n) as [n'|]; reflexivity.
Qed.

(** the die is used only through the RV it is converted to *)
Lemma body_die c n d dd x M : as_die d = Some dd -> to_die c dd = Ok x -> d <> OSeq [] -> d <> OSSeq [] ->
  roll_body c n d M = roll_body c n (ORV x) M.
Proof.
  intros A T N1 N2.
  assert (E : forall k, roll_core c k dd M = roll_core c k (DRV x) M).
  { intro k. unfold roll_core, sbind, slift. now rewrite T. }
  destruct n as [[[z|m e]|s]|s|l|l|l|y|b| ];
    (destruct d as [[[z'|m' e']|s']|s'|[|a l']|[|a l']|l'|x'|b'| ]; try discriminate; try congruence;
     inversion A; subst; cbn [roll_body as_count as_die]; try reflexivity;
     unfold sbind; rewrite E; reflexivity).
Qed.

Lemma roll_int_die c n m M : cfg_trunc c = false ->
  roll c n (Some (oint m)) M = roll c n (Some (ORV (rv_of (int_die m)))) M.
Proof.
  intro Ht. destruct (is_str n) eqn:S; [destruct n; try discriminate; reflexivity|].
  rewrite !roll_some by exact S. cbn [die_norm oint vint].
  destruct (count_norm n); [|reflexivity]. apply (body_die c _ _ (DInt m)); try discriminate; [reflexivity|].
  now apply to_die_int.
Qed.


Lemma roll_seq_die c n l M : cfg_trunc c = false -> l <> [] ->
  roll c n (Some (OSeq l)) M = roll c n (Some (ORV (rv_of (normal c (fair l))))) M.
Proof.
  intros Ht Hl. destruct (is_str n) eqn:S; [destruct n; try discriminate; reflexivity|].
  rewrite !roll_some by exact S. cbn [die_norm].
  destruct (count_norm n); [|reflexivity]. apply (body_die c _ _ (DSeq l)); try discriminate; [reflexivity| |congruence].
  cbn [to_die]. now apply from_seq_normal.
Qed.

Lemma fair_wt l v : wt (fair l) v = Z.of_nat (length (filter (veqb v) l)).
Proof.
  unfold wt, fair. induction l as [|a l IH]; [reflexivity|]. cbn [map mass filter]. rewrite IH.
  destruct (veqb v a); cbn [length]; lia.
Qed.
Lemma fair_proper l : l <> [] -> proper (fair l).
Proof.
  intro H. split.
  - unfold fair, nonneg. apply Forall_map, Forall_forall. cbn. lia.
  - unfold fair. rewrite ones_total. destruct l; [congruence|]. cbn [length]. lia.
Qed.
Lemma fair_Pr c l v : l <> [] ->
  (Pr (normal c (fair l)) v == inject_Z (Z.of_nat (length (filter (veqb v) l))) / inject_Z (Z.of_nat (length l)))%Q.
Proof.
  intro H. rewrite normal_Pr by now apply fair_proper. unfold Pr. rewrite fair_wt. unfold fair. now rewrite ones_total.
Qed.

(** ** Sequences as counts *)
Lemma seq_sum_acc s zs : foldM (vop OAdd) (vint s) (map vint zs) = Ok (vint (s + sumZ zs)).
Proof.
  revert s. induction zs as [|z zs IH]; intro s; cbn [map foldM].
  - unfold sumZ. cbn [fold_right]. now rewrite Z.add_0_r.
  - rewrite vop_add_int by reflexivity. cbn [bind]. change (toZ (vint s)) with s. change (toZ (vint z)) with z.
    rewrite IH. unfold sumZ. cbn [fold_right]. now rewrite Z.add_assoc.
Qed.
Lemma seq_sum_ints zs : seq_sum (map vint zs) = Ok (vint (sumZ zs)).
Proof. unfold seq_sum. rewrite seq_sum_acc. reflexivity. Qed.

Lemma body_seq_count c l s d M : seq_sum l = Ok (vint s) -> roll_body c (OSeq l) d M = roll_body c (oint s) d M.
Proof.
  intro E.
  assert (R : forall x, roll_core c (CSeq (OSeq l)) x M = roll_core c (CInt s) x M).
  { intro x. unfold roll_core, sbind, slift. destruct (to_die c x) as [r|]; [|reflexivity].
    cbn [roll_count meta_sum]. unfold sbind, slift. rewrite E. reflexivity. }
  destruct d as [[[z'|m' e']|s']|s'|[|a l']|[|a l']|l'|x'|b'| ]; cbn [roll_body oint vint as_count as_die]; try reflexivity;
    unfold sbind; rewrite R; reflexivity.
Qed.

Lemma roll_seq_count c l s d M : seq_sum l = Ok (vint s) ->
  roll c (OSeq l) (Some d) M = roll c (oint s) (Some d) M.
Proof.
  intro E. rewrite !roll_some by reflexivity. destruct (die_norm d); [|reflexivity]. cbn [count_norm oint vint].
  now apply body_seq_count.
Qed.

Lemma all_some_OV (l : list pval) : all_some (map leaf_val (map OV l)) = Some l.
Proof. induction l as [|a l IH]; [reflexivity|]. cbn [map leaf_val all_some]. rewrite IH. reflexivity. Qed.

Lemma flatten_ints zs : flatten (map oint zs) = map oint zs.
Proof. unfold flatten. induction zs as [|z zs IH]; [reflexivity|]. cbn [map flat_map oint flat1 app] in *. now rewrite IH. Qed.

Lemma get_seq_ints zs : get_seq (map oint zs) = Ok (OSeq (map vint zs)).
Proof.
  unfold get_seq. rewrite flatten_ints.
  replace (filter _ (map oint zs)) with (map oint zs).
  2:{ induction zs as [|z zs IH]; [reflexivity|]. cbn [map filter oint is_meta_rv negb] in *. now rewrite <- IH. }
  replace (flat_map rv_leaf_vals (map oint zs)) with (@nil pval).
  2:{ induction zs as [|z zs IH]; [reflexivity|]. cbn [map flat_map oint rv_leaf_vals app] in *. exact IH. }
  cbn [map]. rewrite app_nil_r.
  replace (existsb is_label_leaf (map oint zs)) with false.
  2:{ symmetry. induction zs as [|z zs IH]; [reflexivity|]. cbn [map existsb oint vint is_label_leaf orb] in *. exact IH. }
  replace (forallb is_number_leaf (map oint zs)) with true.
  2:{ symmetry. induction zs as [|z zs IH]; [reflexivity|]. cbn [map forallb oint vint is_number_leaf andb] in *. exact IH. }
  unfold assert_. change oint with (fun z => OV (vint z)). rewrite <- (map_map vint OV), all_some_OV. reflexivity.
Qed.

Lemma roll_list_count c zs d M :
  roll c (OIter (map oint zs)) (Some d) M = roll c (oint (sumZ zs)) (Some d) M /\
  roll c (OSeq (map vint zs)) (Some d) M = roll c (oint (sumZ zs)) (Some d) M.
Proof.
  split; [|apply roll_seq_count, seq_sum_ints].
  rewrite !roll_some by reflexivity. destruct (die_norm d); [|reflexivity]. cbn [count_norm]. rewrite get_seq_ints.
  cbn [oint vint]. apply body_seq_count, seq_sum_ints.
Qed.

(** a list of integers as die *)
Lemma roll_list_die c n zs M : roll c n (Some (OIter (map oint zs))) M = roll c n (Some (OSeq (map vint zs))) M.
Proof.
  destruct (is_str n) eqn:S; [destruct n; try discriminate; reflexivity|].
  rewrite !roll_some by exact S. cbn [die_norm]. now rewrite get_seq_ints.
Qed.

Lemma roll_empty_die c n M : roll c (oint n) (Some (OSeq [])) M = (Ok (OBlank false), M).
Proof. reflexivity. Qed.

(** ** Integer dice and the table *)
Section ObjInd.
Variable P : obj -> Prop.
Hypothesis HV : forall v, P (OV v).
Hypothesis HStr : forall s, P (OStr s).
Hypothesis HSeq : forall l, P (OSeq l).
Hypothesis HSSeq : forall l, P (OSSeq l).
Hypothesis HIter : forall l, Forall P l -> P (OIter l).
Hypothesis HRV : forall x, P (ORV x).
Hypothesis HBlank : forall b, P (OBlank b).
Hypothesis HNone : P ONone.
Fixpoint obj_ind' (o : obj) : P o :=
  match o with
  | OV v => HV v
  | OStr s => HStr s
  | OSeq l => HSeq l
  | OSSeq l => HSSeq l
  | OIter l => HIter l ((fix go (l : list obj) : Forall P l :=
                           match l with [] => Forall_nil P | o :: l' => Forall_cons o (obj_ind' o) (go l') end) l)
  | ORV x => HRV x
  | OBlank b => HBlank b
  | ONone => HNone
  end.
End ObjInd.

Definition ints (l : list obj) : Prop := Forall (fun o => int_obj o = true) l.

Lemma forallb_Forall {A} (f : A -> bool) l : forallb f l = true <-> Forall (fun a => f a = true) l.
Proof. rewrite forallb_forall, Forall_forall. reflexivity. Qed.

Lemma flat1_int o : int_obj o = true -> ints (flat1 o).
Proof.
  induction o as [v|s|l|l|l IH|x|b|] using obj_ind'; intro H; cbn [flat1]; try (repeat constructor; exact H).
  - unfold ints. apply Forall_map. apply forallb_Forall. exact H.
  - unfold ints. apply Forall_map. apply forallb_Forall. exact H.
  - cbn [int_obj] in H. apply forallb_Forall in H. unfold ints. induction IH as [|o l Ho Hl IHl]; [constructor|].
    inversion H; subst. cbn [flat_map]. apply Forall_app. split; [now apply Ho|now apply IHl].
Qed.

Lemma flatten_int l : ints l -> ints (flatten l).
Proof.
  unfold flatten, ints. induction 1 as [|o l Ho Hl IH]; [constructor|]. cbn [flat_map]. apply Forall_app. split; auto.
  now apply flat1_int.
Qed.

Lemma all_some_int res l : all_some (map leaf_val res) = Some l -> ints res -> Forall (fun v => v_is_int v = true) l.
Proof.
  revert l. induction res as [|o res IH]; intros l E H; cbn [map all_some] in E.
  - inversion E. constructor.
  - inversion H as [|? ? H1 H2]; subst. destruct (leaf_val o) as [v|] eqn:L; [|discriminate].
    destruct (all_some (map leaf_val res)) as [l'|]; [|discriminate]. inversion E; subst. constructor; auto.
    destruct o; try discriminate. inversion L; subst. exact H1.
Qed.

Lemma get_seq_int l o : ints l -> get_seq l = Ok o -> int_obj o = true.
Proof.
  intros H. unfold get_seq.
  set (res_ := filter (fun o => negb (is_meta_rv o)) (flatten l) ++ map OV (flat_map rv_leaf_vals (flatten l))).
  assert (R : ints res_).
  { pose proof (flatten_int l H) as F. unfold res_, ints. apply Forall_app. split.
    - apply Forall_forall. intros x Hx. apply filter_In in Hx as [Hx _]. now apply (proj1 (Forall_forall _ _) F).
    - apply Forall_map. apply Forall_forall. intros v Hv. apply in_flat_map in Hv as [x [Hx Hv]].
      apply (proj1 (Forall_forall _ _) F) in Hx. destruct x; try contradiction. cbn [rv_leaf_vals int_obj] in *.
      apply in_map_iff in Hv as [e [<- He]]. now apply (proj1 (forallb_forall _ _) Hx). }
  destruct (existsb is_label_leaf res_).
  - destruct (all_some (map leaf_val res_)) as [e|] eqn:E; intro K; inversion K; subst. cbn [int_obj].
    apply forallb_Forall. eapply all_some_int; eauto.
  - unfold assert_. destruct (forallb is_number_leaf res_); [|discriminate].
    destruct (all_some (map leaf_val res_)) as [e|] eqn:E; intro K; inversion K; subst. cbn [int_obj].
    apply forallb_Forall. eapply all_some_int; eauto.
Qed.

Lemma die_norm_int d d' : int_obj d = true -> die_norm d = Ok d' -> int_obj d' = true.
Proof.
  intros H E. destruct d as [[[z|m e]|s]|s|l|l|l|x|b|]; cbn [die_norm] in E; try discriminate; try (inversion E; subst; exact H).
  eapply get_seq_int; [|exact E]. apply forallb_Forall. exact H.
Qed.

Definition int_dist (x : rv) : Prop := int_vals (rv_dist x).

Lemma from_seq_int c l x : Forall (fun v => v_is_int v = true) l -> from_seq c l = Ok x -> int_dist x.
Proof.
  intros H E. unfold from_seq, mk_rv in E. unfold int_dist.
  assert (G : forall vs ps, Forall (fun v => v_is_int v = true) vs -> rmap rv_of (mk_dist c vs ps) = Ok x -> int_vals (rv_dist x)).
  { intros vs ps F K. destruct (mk_dist c vs ps) as [d|] eqn:D; inversion K; subst. cbn. eapply mk_dist_int_vals; eauto. }
  destruct l; eapply G; try exact E; auto.
Qed.

Lemma to_die_int_vals c d x dd : int_obj d = true -> as_die d = Some dd -> to_die c dd = Ok x -> int_dist x.
Proof.
  intros H A E.
  assert (Z : forall a b, Forall (fun v => v_is_int v = true) (zrange a b)).
  { intros. unfold zrange. apply Forall_map, Forall_forall. reflexivity. }
  destruct d as [[[z|m e]|s]|s|l|l|l|y|b|]; inversion A; subst; cbn [to_die] in E.
  - destruct (0 <? z); [eapply from_seq_int; eauto|]. destruct (z =? 0); [|eapply from_seq_int; eauto].
    unfold from_const, mk_rv in E. destruct (mk_dist c [vint 0] [1]) as [d|] eqn:D; inversion E; subst.
    unfold int_dist. cbn. eapply mk_dist_int_vals; eauto.
  - apply (from_seq_int c l x); [now apply forallb_Forall|exact E].
  - apply (from_seq_int c l x); [now apply forallb_Forall|exact E].
  - inversion E; subst. unfold int_dist, int_vals. apply forallb_Forall. exact H.
Qed.

Definition body_pure (c : cfg) (n d : obj) : res obj :=
  match n, d with
  | _, OBlank _ => Ok (OBlank false)
  | OBlank _, _ => Ok (OBlank true)
  | _, OSeq [] | _, OSSeq [] => Ok (OBlank false)
  | _, _ =>
      match as_count n, as_die d with
      | Some n, Some d => x <- to_die c d ;; rmap ORV (roll_count_pure c n x)
      | _, _ => Err Unmodelled
      end
  end.
Definition roll_fresh (c : cfg) (n : obj) (d : option obj) : res obj :=
  nd <- roll_args n d ;; body_pure c (fst nd) (snd nd).

Lemma core_is_pure c n d dd m : int_obj d = true -> as_die d = Some dd -> memo_ok c m ->
  exists m', (r <~ roll_core c n dd ;; sret (ORV r)) m = ((x <- to_die c dd ;; rmap ORV (roll_count_pure c n x)), m') /\ memo_ok c m'.
Proof.
  intros H A M. unfold roll_core, sbind, slift, sret. destruct (to_die c dd) as [x|] eqn:E; [|eexists; split; [reflexivity|exact M]].
  pose proof (to_die_int_vals c d x dd H A E) as I.
  destruct (roll_count_is_pure c n x I m M) as (m' & R & M'). rewrite R.
  exists m'. split; [|exact M']. cbn [bind]. destruct (roll_count_pure c n x); reflexivity.
Qed.

Lemma body_is_pure c n d m : int_obj d = true -> memo_ok c m ->
  exists m', roll_body c n d m = (body_pure c n d, m') /\ memo_ok c m'.
Proof.
  intros H M. assert (T : forall r : res obj, exists m', (r, m) = (r, m') /\ memo_ok c m') by (intro; eexists; split; [reflexivity|exact M]).
  destruct n as [[[z|mm e]|s]|s|l|l|l|y|b| ];
    destruct d as [[[z'|m' e']|s']|s'|[|a l']|[|a l']|l'|x'|b'| ];
    unfold roll_body, body_pure; cbn [as_count as_die]; try apply T; eapply core_is_pure; eauto; reflexivity.
Qed.

Lemma roll_args_int n d n' d' : int_call (n, d) -> roll_args n d = Ok (n', d') -> int_obj d' = true.
Proof.
  intros H E.
  assert (G : forall k dd, is_str k = false -> int_obj dd = true -> roll_args k (Some dd) = Ok (n', d') -> int_obj d' = true).
  { intros k dd S I R. rewrite roll_args_some in R by exact S.
    destruct (die_norm dd) as [d1|] eqn:D; [|discriminate]. cbn [bind] in R.
    destruct (count_norm k) as [k1|]; [|discriminate]. cbn [bind] in R. inversion R; subst.
    eapply die_norm_int; eauto. }
  destruct (is_str n) eqn:S.
  - destruct n as [| s | | | | | | ]; try discriminate. destruct d as [d|]; [discriminate|].
    unfold roll_args in E. cbn [roll_args0] in E. destruct (parse_roll s) as [[p q]|]; [|discriminate].
    cbn in E. inversion E; subst. reflexivity.
  - destruct d as [d|].
    + apply (G n d S); auto. destruct n; try discriminate; exact H.
    + apply (G (oint 1) n); [reflexivity|destruct n; try discriminate; exact H|].
      rewrite <- E. destruct n as [[[z|mm e]|s]|s|l|l|l|y|b| ]; try discriminate; reflexivity.
Qed.

Lemma roll_is_fresh c n d m : int_call (n, d) -> memo_ok c m ->
  exists m', roll c n d m = (roll_fresh c n d, m') /\ memo_ok c m'.
Proof.
  intros H M. rewrite roll_stages. unfold roll_fresh. destruct (roll_args n d) as [[n' d']|] eqn:E.
  - cbn [bind]. apply body_is_pure; auto. eapply roll_args_int; eauto.
  - exists m. split; [reflexivity|exact M].
Qed.

Lemma memo_nil c : memo_ok c [].
Proof. constructor. Qed.

Lemma after_ok c calls : Forall int_call calls -> memo_ok c (after c calls).
Proof.
  unfold after. generalize (memo_nil c). generalize (@nil ((Z * dist) * rv)).
  induction calls as [|[n d] calls IH]; intros m M H; [exact M|]. inversion H; subst. cbn [after_from].
  destruct (roll_is_fresh c n d m) as (m' & E & M'); auto. rewrite E. cbn [snd]. now apply IH.
Qed.

Lemma roll_after_fresh c calls n d : Forall int_call calls -> int_call (n, d) -> roll_after c calls n d = roll_fresh c n d.
Proof.
  intros H1 H2. unfold roll_after. destruct (roll_is_fresh c n d (after c calls) H2 (after_ok c calls H1)) as (m' & E & _).
  now rewrite E.
Qed.

Lemma history_invisible c calls n d : Forall int_call calls -> int_call (n, d) ->
  roll_after c calls n d = roll_after c [] n d.
Proof. intros. rewrite !roll_after_fresh; auto. Qed.

(** ** What is rolled *)
Lemma int_obj_rv x : int_obj (ORV x) = true <-> int_vals (rv_dist x).
Proof. cbn [int_obj]. apply forallb_Forall. Qed.

Lemma roll_rv_fresh c calls n x : Forall int_call calls -> int_vals (rv_dist x) ->
  roll_after c calls (oint n) (Some (ORV x)) = rmap ORV (roll_int_pure c n x).
Proof.
  intros H I. rewrite roll_after_fresh; [|auto|apply int_obj_rv; exact I]. reflexivity.
Qed.

Lemma roll_count_fresh c calls N x : Forall int_call calls -> int_vals (rv_dist x) ->
  roll_after c calls (ORV N) (Some (ORV x)) = rmap ORV (roll_count_pure c (CRV N) x).
Proof.
  intros H I. rewrite roll_after_fresh; [|auto|apply int_obj_rv; exact I]. reflexivity.
Qed.

Lemma roll_law_user c n x : proper x -> int_vals x ->
  forall d, roll_law c n d x ->
  (forall v, (Pr x v == Pr (dice_total n d) v)%Q) /\
  (cfg_skip0 c = false -> forall v, listed v x = listed v (dice_total n d)).
Proof.
  intros P I d [S _ _]. split.
  - apply (stands_same_law c); auto. apply dice_total_int.
  - intros Hs. apply listed_int_ext; auto; [apply dice_total_int|]. destruct S as [g [_ [_ S]]]. now apply S.
Qed.

Lemma roll_exact c calls n x : Forall int_call calls -> cfg_trunc c = false ->
  proper (rv_dist x) -> int_vals (rv_dist x) -> total (rv_dist x) ^ Z.abs n <= SUM_LIMIT ->
  exists r, roll_after c calls (oint n) (Some (ORV x)) = Ok (ORV r) /\
    (forall v, (Pr (rv_dist r) v == Pr (dice_total n (rv_dist x)) v)%Q) /\
    (cfg_skip0 c = false -> forall v, listed v (rv_dist r) = listed v (dice_total n (rv_dist x))).
Proof.
  intros H Ht P I L. destruct (roll_int_pure_law c n x Ht P I L) as (r & E & R).
  exists r. rewrite roll_rv_fresh, E by auto. split; [reflexivity|].
  apply roll_law_user; auto; apply R.
Qed.

Lemma roll_close c calls n x lo hi : Forall int_call calls -> cfg_trunc c = false ->
  proper (rv_dist x) -> int_vals (rv_dist x) -> total (rv_dist x) <= SUM_LIMIT ->
  Forall (fun e => lo <= toZ (fst e) <= hi) (rv_dist x) -> Z.abs n * (hi - lo) + 1 <= 10 ^ 10 ->
  exists r, roll_after c calls (oint n) (Some (ORV x)) = Ok (ORV r) /\
    proper (rv_dist r) /\ int_vals (rv_dist r) /\ total (rv_dist r) <= SUM_LIMIT /\
    forall k, (Qabs (Pr (rv_dist r) (vint k) - Pr (dice_total n (rv_dist x)) (vint k)) <=
               inject_Z (Z.abs n) * (1 # 1000000000))%Q.
Proof.
  intros H Ht P I L W S. destruct (roll_int_pure_near c n x lo hi Ht P I L W S) as (r & E & R1 & R2 & R3 & R4).
  exists r. rewrite roll_rv_fresh, E by auto. split; [reflexivity|]. repeat split; auto; try apply R1.
Qed.

Lemma roll_zero c calls x : Forall int_call calls -> cfg_trunc c = false -> int_vals (rv_dist x) ->
  roll_after c calls (oint 0) (Some (ORV x)) = Ok (ORV (rv_of [(vint 0, 1)])).
Proof. intros H Ht I. rewrite roll_rv_fresh by auto. cbn [roll_int_pure]. now rewrite from_const_int. Qed.

Lemma roll_negative c calls n x : Forall int_call calls -> int_vals (rv_dist x) -> 0 < n ->
  roll_after c calls (oint (- n)) (Some (ORV x)) =
  match roll_after c calls (oint n) (Some (ORV x)) with
  | Ok (ORV r) => rmap ORV (rv_neg c (rv_dist r))
  | o => o
  end.
Proof.
  intros H I Hn. rewrite !roll_rv_fresh by auto. destruct n as [|p|p]; try lia. cbn [Z.opp roll_int_pure].
  destruct (roll_pure c p x) as [r|]; [|reflexivity]. cbn [bind rmap]. reflexivity.
Qed.

(** ** Mirror images *)
Lemma tuples_image {A B} (g : A -> B) n (l : list (A * Z)) : tuples n (image g l) = image (map g) (tuples n l).
Proof.
  induction n as [|n IH]; [reflexivity|]. cbn [tuples]. rewrite IH. unfold image, indep.
  generalize (tuples n l) as T. intro T. clear IH. rewrite map_map. induction l as [|[a w] l IHl]; [reflexivity|]. cbn [map flat_map fst snd]. rewrite !map_app. f_equal.
  - rewrite !map_map. reflexivity.
  - exact IHl.
Qed.

Lemma wsum_indep_perm {A B} f (a a' : list (A * Z)) (b b' : list (B * Z)) : Permutation a a' ->
  (forall g, wsum g b = wsum g b') -> wsum f (indep a b) = wsum f (indep a' b').
Proof.
  intros H1 H2. rewrite !wsum_indep. rewrite (wsum_perm _ _ _ H1). apply wsum_ext. intros. apply H2.
Qed.

Lemma wsum_tuples_perm {A} n (l l' : list (A * Z)) : Permutation l l' -> forall f, wsum f (tuples n l) = wsum f (tuples n l').
Proof.
  intro H. induction n as [|n IH]; intro f; [reflexivity|]. cbn [tuples].
  change (map (fun xy : A * list A * Z => (fst (fst xy) :: snd (fst xy), snd xy)) (indep l (tuples n l)))
    with (image (fun ab : A * list A => fst ab :: snd ab) (indep l (tuples n l))).
  change (map (fun xy : A * list A * Z => (fst (fst xy) :: snd (fst xy), snd xy)) (indep l' (tuples n l')))
    with (image (fun ab : A * list A => fst ab :: snd ab) (indep l' (tuples n l'))).
  rewrite !wsum_image. now apply wsum_indep_perm.
Qed.

Lemma tsum_opp t : tsum (map (fun v => vint (- toZ v)) t) = - tsum t.
Proof.
  unfold tsum, sumZ. induction t as [|v t IH]; [reflexivity|]. cbn [map fold_right]. rewrite IH.
  change (toZ (vint (- toZ v))) with (- toZ v). lia.
Qed.

Lemma mirror_law d d' n k : int_vals d -> Permutation d' (image (fun v => vint (- toZ v)) d) ->
  (Pr (dice_total n d') (vint k) == Pr (dice_total n d) (vint (- k)))%Q.
Proof.
  intros I H. unfold Pr. rewrite !dice_total_total. unfold total at 1. rewrite (mass_perm _ _ _ H).
  change (mass (fun _ : pval => true) ?x) with (total x). rewrite total_image.
  rewrite !wt_int by apply dice_total_int.
  rewrite (dice_total_wsum n d' (fun z => ind (z =? k))), (dice_total_wsum n d (fun z => ind (z =? - k))).
  rewrite (wsum_tuples_perm _ _ _ H), tuples_image, wsum_image.
  erewrite wsum_ext; [reflexivity|]. intros t w _. cbn beta. rewrite tsum_opp. f_equal.
  destruct (Z.eqb_spec (Z.sgn n * - tsum t) k), (Z.eqb_spec (Z.sgn n * tsum t) (- k)); auto; lia.
Qed.

Lemma uniform_mirror m : 0 < m -> Permutation (uniform (- m) (-1)) (image (fun v => vint (- toZ v)) (uniform 1 m)).
Proof.
  intro H. unfold uniform, image. replace (-1 - - m + 1) with m by lia. replace (m - 1 + 1) with m by lia. rewrite map_map.
  apply Permutation_trans with
    (map (fun i => (vint (- m + Z.of_nat i), 1)) (map (fun i => (Z.to_nat m - 1 - i)%nat) (seq 0 (Z.to_nat m)))).
  - apply Permutation_map. apply NoDup_Permutation_bis.
    + apply seq_NoDup.
    + rewrite map_length. apply Nat.le_refl.
    + intros x Hx. apply in_seq in Hx. apply in_map_iff. exists (Z.to_nat m - 1 - x)%nat. rewrite in_seq. lia.
  - rewrite map_map. match goal with |- Permutation ?a ?b => replace b with a; [reflexivity|] end.
    apply map_ext_in. intros i Hi. apply in_seq in Hi. cbn [fst snd]. f_equal.
    change (toZ (vint (1 + Z.of_nat i))) with (1 + Z.of_nat i). f_equal. lia.
Qed.

Lemma int_die_pos m : 0 < m -> int_die m = uniform 1 m.
Proof. intro H. unfold int_die. destruct (Z.ltb_spec 0 m); [reflexivity|lia]. Qed.
Lemma int_die_neg m : 0 < m -> int_die (- m) = uniform (- m) (-1).
Proof. intro H. unfold int_die. destruct (Z.ltb_spec 0 (- m)); [lia|]. destruct (Z.eqb_spec (- m) 0); [lia|reflexivity]. Qed.

Lemma roll_after_int_die c calls n m : cfg_trunc c = false ->
  roll_after c calls n (Some (oint m)) = roll_after c calls n (Some (ORV (rv_of (int_die m)))).
Proof. intro Ht. unfold roll_after. now rewrite roll_int_die. Qed.

Lemma roll_mirror c calls n m r r' : Forall int_call calls -> cfg_trunc c = false -> 0 < m -> m ^ Z.abs n <= SUM_LIMIT ->
  roll_after c calls (oint n) (Some (oint m)) = Ok (ORV r) ->
  roll_after c calls (oint n) (Some (oint (- m))) = Ok (ORV r') ->
  forall k, (Pr (rv_dist r') (vint k) == Pr (rv_dist r) (vint (- k)))%Q.
Proof.
  intros H Ht Hm L E E' k. rewrite roll_after_int_die in E, E' by auto.
  destruct (int_die_good m) as (P & I & _). destruct (int_die_good (- m)) as (P' & I' & _).
  destruct (roll_exact c calls n (rv_of (int_die m)) H Ht P I) as (q & Q1 & Q2 & _).
  { cbn [rv_dist rv_of]. rewrite int_die_total. replace (Z.max 1 (Z.abs m)) with m by lia. exact L. }
  destruct (roll_exact c calls n (rv_of (int_die (- m))) H Ht P' I') as (q' & Q1' & Q2' & _).
  { cbn [rv_dist rv_of]. rewrite int_die_total. replace (Z.max 1 (Z.abs (- m))) with m by lia. exact L. }
  rewrite E in Q1. rewrite E' in Q1'. inversion Q1; inversion Q1'; subst. rewrite Q2, Q2'. cbn [rv_dist rv_of].
  rewrite (int_die_pos m), (int_die_neg m) by auto. apply mirror_law; [apply uniform_int|]. now apply uniform_mirror.
Qed.

(** ** Length of a roll *)
Lemma roll_pure_length c p x r : p <> xH -> roll_pure c p x = Ok r -> rv_roll r = Zpos p /\ rv_src r = Some (rv_dist x).
Proof.
  intros N E. destruct p as [p|p|]; [| |congruence]; cbn [roll_pure] in E;
    destruct (roll_pure c p x) as [h|]; try discriminate; cbn [bind] in E;
    destruct (rv_op c OAdd (rv_dist h) (rv_dist h)) as [f|]; try discriminate; cbn [bind] in E.
  - destruct (rv_op c OAdd (rv_dist f) (rv_dist x)) as [g|]; try discriminate. cbn [bind] in E.
    injection E as <-. split; reflexivity.
  - injection E as <-. split; reflexivity.
Qed.

Lemma mk_rv_length c vs ps r : mk_rv c vs ps = Ok r -> rv_roll r = 1 /\ rv_src r = None.
Proof. unfold mk_rv. destruct (mk_dist c vs ps); intro E; inversion E; subst. split; reflexivity. Qed.

Lemma rv_map_length c f x r : rv_map c f x = Ok r -> rv_roll r = 1 /\ rv_src r = None.
Proof. unfold rv_map. destruct (mapM f (vals x)); [|discriminate]. apply mk_rv_length. Qed.

Lemma rv_conv_length c f x y r : rv_conv c f x y = Ok r -> rv_roll r = 1 /\ rv_src r = None.
Proof.
  unfold rv_conv. destruct (fast_convolve f x y) as [m|]; [|discriminate]. cbn [bind].
  destruct (mk_dist c (vals m) (probs m)) as [d|]; [|discriminate]. cbn [bind].
  destruct (prob_limit d) as [d'|]; [|discriminate]. intro E. inversion E; subst. split; reflexivity.
Qed.

Lemma roll_length c calls n x r : Forall int_call calls -> int_vals (rv_dist x) ->
  roll_after c calls (oint n) (Some (ORV x)) = Ok (ORV r) ->
  rv_roll r = (if n =? 1 then rv_roll x else if 2 <=? n then n else 1) /\
  (n = 1 -> r = x) /\ (2 <= n -> rv_src r = Some (rv_dist x)).
Proof.
  intros H I E. rewrite roll_rv_fresh in E by auto.
  destruct (roll_int_pure c n x) as [r'|] eqn:R; inversion E; subst r'.
  destruct n as [|p|p]; cbn [roll_int_pure] in R.
  - apply mk_rv_length in R as [R _]. rewrite R. repeat split; intros; lia.
  - destruct (Pos.eq_dec p xH) as [->|N].
    + inversion R; subst. repeat split; intros; lia.
    + apply roll_pure_length in R as [R1 R2]; auto. rewrite R1.
      destruct (Z.eqb_spec (Zpos p) 1); [lia|]. destruct (Z.leb_spec 2 (Zpos p)); [|lia].
      repeat split; auto; intros; lia.
  - destruct (roll_pure c p x) as [h|]; [|discriminate]. cbn [bind] in R. apply rv_map_length in R as [R _].
    rewrite R. repeat split; intros; lia.
Qed.

Lemma roll_count_length c calls N x r : Forall int_call calls -> int_vals (rv_dist x) ->
  roll_after c calls (ORV N) (Some (ORV x)) = Ok (ORV r) -> rv_roll r = 1 /\ rv_src r = Some (rv_dist x).
Proof.
  intros H I E. rewrite roll_count_fresh in E by auto. cbn [roll_count_pure] in E.
  destruct (all_some _) as [ns|]; [|discriminate]. destruct (mapM _ ns) as [dies|]; [|discriminate]. cbn [bind] in E.
  destruct (from_rvs _ _ _) as [[q|]|]; try discriminate. inversion E; subst. split; reflexivity.
Qed.

(** ** Dice notation *)
Lemma split_d_none l : Forall (fun a => Ascii.eqb a "d" = false) l -> split_d l = [l].
Proof. induction 1 as [|a l H Hl IH]; [reflexivity|]. cbn [split_d]. now rewrite IH, H. Qed.

Lemma split_d_two l r : Forall (fun a => Ascii.eqb a "d" = false) l -> Forall (fun a => Ascii.eqb a "d" = false) r ->
  split_d (l ++ "d"%char :: r) = [l; r].
Proof.
  intros Hl Hr. induction Hl as [|a l H Hl IH]; cbn [app split_d].
  - now rewrite (split_d_none r Hr).
  - now rewrite IH, H.
Qed.

Lemma list_ascii_app s t : list_ascii_of_string (s ++ t) = list_ascii_of_string s ++ list_ascii_of_string t.
Proof. induction s as [|a s IH]; [reflexivity|]. cbn [String.append list_ascii_of_string app]. now rewrite IH. Qed.

Lemma Z_chars_string z : list_ascii_of_string (str_of_Z z) = Z_chars z.
Proof. now rewrite str_of_Z_chars, list_ascii_of_string_of_list_ascii. Qed.

Lemma py_int_chars z : py_int (string_of_list_ascii (Z_chars z)) = Some z.
Proof. rewrite <- str_of_Z_chars. apply py_int_str. Qed.

Lemma parse_notation n m : parse_roll (str_of_Z n ++ "d" ++ str_of_Z m) = Ok (n, m).
Proof.
  unfold parse_roll. rewrite !list_ascii_app, !Z_chars_string. cbn [list_ascii_of_string app].
  destruct (Z_chars_plain n) as (_ & Dn & Nn). destruct (Z_chars_plain m) as (_ & Dm & _).
  rewrite split_d_two by auto. rewrite !py_int_chars. destruct (Z_chars n); [congruence|reflexivity].
Qed.

Lemma parse_notation1 m : parse_roll ("d" ++ str_of_Z m) = Ok (1, m).
Proof.
  unfold parse_roll. rewrite !list_ascii_app, !Z_chars_string. cbn [list_ascii_of_string app].
  destruct (Z_chars_plain m) as (_ & Dm & _). change ("d"%char :: Z_chars m) with ([] ++ "d"%char :: Z_chars m).
  rewrite split_d_two by auto. now rewrite !py_int_chars.
Qed.

Lemma roll_notation c n m M :
  roll c (OStr (str_of_Z n ++ "d" ++ str_of_Z m)) None M = roll c (oint n) (Some (oint m)) M /\
  roll c (OStr ("d" ++ str_of_Z m)) None M = roll c (oint 1) (Some (oint m)) M.
Proof.
  rewrite !roll_stages. unfold roll_args. cbn [roll_args0]. rewrite parse_notation, parse_notation1. split; reflexivity.
Qed.

(** ** A random number of dice *)
Lemma roll_random_count c calls (N x : rv) : Forall int_call calls -> cfg_trunc c = false ->
  proper (rv_dist x) -> int_vals (rv_dist x) -> proper (rv_dist N) -> int_vals (rv_dist N) ->
  total (rv_dist x) ^ sumZ (map (fun v => Z.abs (toZ v)) (vals (rv_dist N))) * total (rv_dist N) <= SUM_LIMIT ->
  exists r, roll_after c calls (ORV N) (Some (ORV x)) = Ok (ORV r) /\
    forall v, (Pr (rv_dist r) v == average (fun n => Pr (dice_total (toZ n) (rv_dist x)) v) (rv_dist N))%Q.
Proof.
  intros H Ht P I PN IN L. destruct (roll_count_rv_law c N x Ht P I PN IN L) as (r & E & _ & _ & _ & _ & R).
  exists r. rewrite roll_count_fresh, E by auto. split; [reflexivity|exact R].
Qed.

Lemma seq_die c l : cfg_trunc c = false -> l <> [] ->
  exists x, (forall n M, roll c n (Some (OSeq l)) M = roll c n (Some (ORV x)) M) /\
    forall v, (Pr (rv_dist x) v ==
               inject_Z (Z.of_nat (length (filter (veqb v) l))) / inject_Z (Z.of_nat (length l)))%Q.
Proof.
  intros T N. exists (rv_of (normal c (fair l))). split; intros; [now apply roll_seq_die|now apply fair_Pr].
Qed.
