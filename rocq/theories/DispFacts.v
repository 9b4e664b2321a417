(** Facts about operators on sequences and blanks. *)
From Coq Require Import String Ascii List ZArith QArith Bool Lia.
From Verif Require Import PyBase Num Val RVModel UtilModel Obj AtModel DispModel Spec SeqSpec CmpFacts NumFacts UtilFacts.
Import ListNotations.
Open Scope Z_scope.

(** ** Three levels are enough *)

Definition not_seq (a : obj) : bool := match a with OSeq _ | OSSeq _ => false | _ => true end.

Lemma dispatch_S n c o a b : dispatch (S n) c o a b =
  (r <- (if other_first o a b then rev_op else fwd) (dispatch n c) c o a b ;;
   match r with
   | Some v => Ok v
   | None =>
       r <- (if other_first o a b then fwd else rev_op) (dispatch n c) c o a b ;;
       match r with Some v => Ok v | None => default o a b end
   end).
Proof. reflexivity. Qed.

Lemma enough1 n c o a b : not_seq a = true -> not_seq b = true -> dispatch (S n) c o a b = dispatch 1 c o a b.
Proof.
  intros A B. rewrite !dispatch_S.
  assert (E : other_first o a b = false) by (unfold other_first; destruct a; try discriminate; apply andb_false_r).
  rewrite E.
  destruct a as [[x|x]| | | | | | |], b as [[y|y]| | | | | | |]; try discriminate; destruct o; reflexivity.
Qed.

Lemma bind_ext {A B} (x : res A) (f g : A -> res B) : (forall a, x = Ok a -> f a = g a) -> bind x f = bind x g.
Proof. destruct x; cbn; auto. Qed.

(** a sequence on one side *)
Lemma enough2_l n c o a b : not_seq b = true -> dispatch (S (S n)) c o a b = dispatch 2 c o a b.
Proof.
  intros B. destruct (not_seq a) eqn:A; [rewrite enough1, (enough1 1); auto|].
  rewrite (dispatch_S (S n)), (dispatch_S 1).
  assert (E : other_first o a b = false) by (unfold other_first; destruct a, b; try discriminate; apply andb_false_r).
  rewrite E. f_equal.
  - destruct a; try discriminate; destruct b as [[y|y]| | | | | | |]; try discriminate;
      destruct o; cbn [fwd seq_fwd is_cmp is_bool compare_to]; try reflexivity;
      apply bind_ext; intros s _; rewrite (enough1 n), (enough1 0); reflexivity.
  - assert (R : rev_op (dispatch (S n) c) c o a b = rev_op (dispatch 1 c) c o a b)
      by (destruct b as [[y|y]| | | | | | |]; try discriminate; destruct a; try discriminate; destruct o; reflexivity).
    rewrite R. reflexivity.
Qed.

Lemma fwd_plain d d' c o a b : not_seq a = true -> fwd d c o a b = fwd d' c o a b.
Proof. intros A. destruct a as [[x|x]| | | | | | |]; try discriminate; destruct b as [[y|y]| | | | | | |]; reflexivity. Qed.

Lemma seq_fwd_ext d d' c o a b : not_seq a = false -> (forall s, d o (OV s) b = d' o (OV s) b) -> fwd d c o a b = fwd d' c o a b.
Proof.
  intros A H.
  destruct a; try discriminate; destruct b as [[y|y]| | | | | | |];
    cbn [fwd]; unfold seq_fwd, compare_to; destruct (is_cmp o); try reflexivity;
    try (unfold done; f_equal; apply bind_ext; intros u _; apply H);
    apply bind_ext; intros u _; destruct (is_bool o); try reflexivity; rewrite H; reflexivity.
Qed.

Lemma seq_rev_ext d d' c o a b : not_seq b = false -> is_cmp o = false -> (forall s, d o a (OV s) = d' o a (OV s)) ->
  rev_op d c o a b = rev_op d' c o a b.
Proof.
  intros B C H. unfold rev_op. rewrite C.
  destruct b; try discriminate; unfold seq_rev; apply bind_ext; intros u _;
    destruct (is_bool o), a as [[y|y]| | | | | | |]; try reflexivity; rewrite H; reflexivity.
Qed.

Lemma rev_plain d d' c o a b : not_seq b = true -> rev_op d c o a b = rev_op d' c o a b.
Proof.
  intros B. unfold rev_op. destruct (is_cmp o); [apply fwd_plain, B|].
  destruct b as [[y|y]| | | | | | |]; try discriminate; reflexivity.
Qed.

(** the level of the answer *)
Definition seqs (a b : obj) : nat := (if not_seq a then 0 else 1) + (if not_seq b then 0 else 1).

Lemma dispatch_enough_gen m : forall n c o a b, (seqs a b < m)%nat -> (m <= n)%nat -> dispatch n c o a b = dispatch m c o a b.
Proof.
  induction m as [|m IH]; intros n c o a b L N; [lia|]. destruct n as [|n]; [lia|].
  rewrite !dispatch_S.
  assert (Ff : forall o a b, (seqs a b < S m)%nat -> fwd (dispatch n c) c o a b = fwd (dispatch m c) c o a b).
  { intros o' a' b' L'. destruct (not_seq a') eqn:A; [apply fwd_plain, A|]. apply seq_fwd_ext; [exact A|].
    intros s. apply IH; [|lia]. unfold seqs in *. rewrite A in L'. cbn [not_seq] in *. lia. }
  assert (Fr : rev_op (dispatch n c) c o a b = rev_op (dispatch m c) c o a b).
  { destruct (not_seq b) eqn:B; [apply rev_plain, B|]. destruct (is_cmp o) eqn:C.
    - unfold rev_op. rewrite C. apply Ff. unfold seqs in *. lia.
    - apply seq_rev_ext; auto. intros s. apply IH; [|lia]. unfold seqs in *. rewrite B in L. cbn [not_seq] in *. lia. }
  destruct (other_first o a b); rewrite Fr, Ff by exact L; reflexivity.
Qed.

Lemma dispatch_enough n c o a b : (3 <= n)%nat -> dispatch n c o a b = py_op c o a b.
Proof. intros L. apply dispatch_enough_gen; [|exact L]. unfold seqs. destruct (not_seq a), (not_seq b); cbn; lia. Qed.

(** ** C44 *)

Lemma seq_sum_numbers l s : seq_sum l = Ok s -> numbers l -> is_number s = true.
Proof.
  unfold seq_sum. assert (G : forall l t s, is_number t = true -> numbers l -> foldM (vop OAdd) t l = Ok s -> is_number s = true).
  { clear. intros l. induction l as [|v l IH]; cbn [foldM]; intros t s T F E; [injection E as <-; exact T|].
    inversion F as [|? ? V F']; subst. destruct t as [t|], v as [v|]; try discriminate.
    cbn in E. destruct (nadd t v) as [u|]; cbn in E; [|discriminate]. revert E. apply IH; [reflexivity|exact F']. }
  intros E F. revert F E. apply G. reflexivity.
Qed.

Lemma arith_kinds o : arithmetic o = true -> is_cmp o = false /\ is_bool o = false.
Proof. destruct o; intros E; try discriminate; split; reflexivity. Qed.

Lemma value_arith o v w : arithmetic o = true -> value_op o v w = rmap OV (vop o v w).
Proof. destruct o; intros E; try discriminate; reflexivity. Qed.

Lemma py_values c o v w : py_op c o (OV v) (OV w) = value_op o v w.
Proof.
  unfold py_op. rewrite dispatch_S. unfold other_first. rewrite andb_false_r. assert (E : fwd (dispatch 2 c) c o (OV v) (OV w) = done (value_op o v w)) by (destruct v; reflexivity).
  rewrite E. unfold done. destruct (value_op o v w); reflexivity.
Qed.

Lemma py_number_die c o n x : is_cmp o = false -> py_op c o (OV (VN n)) (ORV x) = rmap ORV (const_op_rv c o (VN n) (rv_dist x)).
Proof.
  intros C. unfold py_op. rewrite dispatch_S. unfold other_first. rewrite C. cbn [andb fwd]. unfold rev_op. rewrite C.
  unfold nimpl, rconvolve, done. cbn [bind]. destruct (const_op_rv c o (VN n) (rv_dist x)); reflexivity.
Qed.

Lemma py_die_value c o x v : py_op c o (ORV x) (OV v) = rmap ORV (rv_op_const c o (rv_dist x) v).
Proof.
  unfold py_op. rewrite dispatch_S. unfold other_first. rewrite andb_false_r. cbn [fwd]. unfold convolve, done.
  destruct (rv_op_const c o (rv_dist x) v); reflexivity.
Qed.

Lemma py_die_die c o x y : py_op c o (ORV x) (ORV y) = rmap ORV (rv_op c o (rv_dist x) (rv_dist y)).
Proof.
  unfold py_op. rewrite dispatch_S. unfold other_first. rewrite andb_false_r. cbn [fwd]. unfold convolve, done.
  destruct (rv_op c o (rv_dist x) (rv_dist y)); reflexivity.
Qed.

Lemma py_number_die_cmp c o n x : is_cmp o = true ->
  py_op c o (OV (VN n)) (ORV x) = rmap ORV (rv_op_const c (mirror o) (rv_dist x) (VN n)).
Proof.
  intros C. unfold py_op. rewrite dispatch_S. unfold other_first. rewrite andb_false_r. cbn [fwd nimpl bind].
  unfold rev_op. rewrite C. cbn [fwd]. unfold convolve, done.
  destruct (rv_op_const c (mirror o) (rv_dist x) (VN n)); reflexivity.
Qed.

(** a sequence is replaced by its sum *)
Lemma py_seq_l c o l b : is_cmp o = false -> (is_bool o = true -> not_seq b = true /\ match b with OV _ => False | _ => True end) ->
  match b with OStr _ => False | _ => True end ->
  py_op c o (OSeq l) b = (s <- seq_sum l ;; py_op c o (OV s) b).
Proof.
  intros C H T. unfold py_op at 1. rewrite (dispatch_S 2). unfold other_first. rewrite C. cbn [andb].
  assert (E : fwd (dispatch 2 c) c o (OSeq l) b = (s <- seq_sum l ;; done (dispatch 2 c o (OV s) b))).
  { destruct b as [[y|y]| | | | | | |]; cbn [fwd]; try destruct T; unfold seq_fwd; rewrite C; cbn [meta_sum];
      apply bind_ext; intros s _; destruct (is_bool o) eqn:B; try reflexivity.
    destruct (H eq_refl) as [_ []]. }
  rewrite E. destruct (seq_sum l) as [s|e]; [|reflexivity]. cbn [bind].
  assert (D : dispatch 2 c o (OV s) b = py_op c o (OV s) b).
  { unfold py_op. symmetry. apply dispatch_enough_gen; [|lia]. unfold seqs. cbn. destruct (not_seq b); lia. }
  rewrite D. destruct (py_op c o (OV s) b); reflexivity.
Qed.

Lemma py_seq_r c o n l : is_cmp o = false -> is_bool o = false ->
  py_op c o (OV (VN n)) (OSeq l) = (s <- seq_sum l ;; value_op o (VN n) s).
Proof.
  intros C B. unfold py_op. rewrite dispatch_S. unfold other_first. rewrite C. cbn [andb fwd nimpl bind].
  unfold rev_op. rewrite C. unfold seq_rev. rewrite B. cbn [meta_sum].
  destruct (seq_sum l) as [s|e]; [|reflexivity]. cbn [bind].
  assert (D : dispatch 2 c o (OV (VN n)) (OV s) = value_op o (VN n) s).
  { rewrite <- (py_values c). unfold py_op. symmetry. apply dispatch_enough_gen; [cbn|]; lia. }
  rewrite D. unfold done. destruct (value_op o (VN n) s); reflexivity.
Qed.

Lemma seq_arith c o l s : arithmetic o = true -> seq_sum l = Ok (VN s) ->
  (forall v, py_op c o (OSeq l) (OV v) = rmap OV (vop o (VN s) v)) /\
  (forall n, py_op c o (OV (VN n)) (OSeq l) = rmap OV (vop o (VN n) (VN s))) /\
  (forall x, py_op c o (OSeq l) (ORV x) = rmap ORV (const_op_rv c o (VN s) (rv_dist x))) /\
  (forall x, py_op c o (ORV x) (OSeq l) = rmap ORV (rv_op_const c o (rv_dist x) (VN s))) /\
  (forall l' s', seq_sum l' = Ok (VN s') -> py_op c o (OSeq l) (OSeq l') = rmap OV (vop o (VN s) (VN s'))).
Proof.
  intros A E. destruct (arith_kinds o A) as [C B].
  assert (Hb : is_bool o = true -> False) by (rewrite B; discriminate).
  split; [|split; [|split; [|split]]].
  - intros v. rewrite py_seq_l by (auto; tauto). rewrite E. cbn [bind]. rewrite py_values. apply value_arith, A.
  - intros n. rewrite py_seq_r by auto. rewrite E. cbn [bind]. apply value_arith, A.
  - intros x. rewrite py_seq_l by (auto; tauto). rewrite E. cbn [bind]. apply py_number_die, C.
  - intros x. unfold py_op. rewrite dispatch_S. unfold other_first. rewrite C. cbn [andb fwd]. unfold convolve. cbn [meta_sum].
    rewrite E. cbn [bind]. unfold done. destruct (rv_op_const c o (rv_dist x) (VN s)); reflexivity.
  - intros l' s' E'. rewrite py_seq_l by (auto; tauto). rewrite E. cbn [bind]. rewrite py_seq_r by auto. rewrite E'. cbn [bind].
    apply value_arith, A.
Qed.

(** a list or tuple next to a die *)
Lemma list_arith c o src l s x : arithmetic o = true -> get_seq src = Ok (OSeq l) -> seq_sum l = Ok (VN s) ->
  py_op c o (OIter src) (ORV x) = rmap ORV (const_op_rv c o (VN s) (rv_dist x)) /\
  py_op c o (ORV x) (OIter src) = rmap ORV (rv_op_const c o (rv_dist x) (VN s)).
Proof.
  intros A G E. destruct (arith_kinds o A) as [C B]. split; unfold py_op; rewrite dispatch_S; unfold other_first; rewrite C; cbn [andb fwd].
  - unfold rev_op. rewrite C. unfold nimpl, rconvolve. cbn [bind]. rewrite G. cbn [bind meta_sum]. rewrite E. cbn [bind]. unfold done.
    destruct (const_op_rv c o (VN s) (rv_dist x)); reflexivity.
  - unfold convolve. rewrite G. cbn [bind meta_sum]. rewrite E. cbn [bind]. unfold done.
    destruct (rv_op_const c o (rv_dist x) (VN s)); reflexivity.
Qed.

(** None against None *)
Lemma none_ops c o : py_op c o ONone ONone =
  match o with OEq => Ok (oint 1) | ONe => Ok (oint 0) | _ => Err TypeErr end.
Proof. destruct o; reflexivity. Qed.

(** a position in a blank *)
Lemma blank_position c n b : matmul c (oint n) (OBlank b) = Ok (if b then if n =? 1 then OBlank true else oint 0 else OBlank false).
Proof.
  destruct b; [|reflexivity]. change (matmul c (oint n) (OBlank true)) with (@Ok obj (if veqb (vint n) (vint 1) then OBlank true else oint 0)).
  now rewrite veqb_int.
Qed.

(** ** C45 *)

Lemma how_many_filter {A} (P : A -> bool) l : how_many P l = Z.of_nat (length (filter P l)).
Proof.
  induction l as [|x l IH]; cbn [how_many filter]; [reflexivity|]. rewrite IH. destruct (P x); cbn [length]; lia.
Qed.

Lemma cmp_holds_Q o x y : relational o = true -> cmp_holds o (x ?= y)%Q = related o x y.
Proof.
  intros R.
  assert (L1 : Qle_bool x y = match (x ?= y)%Q with Gt => false | _ => true end).
  { destruct (Qle_bool x y) eqn:E.
    - apply Qle_bool_iff in E. destruct (x ?= y)%Q eqn:F; [reflexivity|reflexivity|destruct (E F)].
    - destruct (x ?= y)%Q eqn:F; auto; exfalso; enough (Qle_bool x y = true) by congruence; apply Qle_bool_iff, Qle_alt; congruence. }
  assert (L2 : Qle_bool y x = match (x ?= y)%Q with Lt => false | _ => true end).
  { rewrite <- (Qcompare_antisym y x).
    destruct (Qle_bool y x) eqn:E.
    - apply Qle_bool_iff in E. destruct (y ?= x)%Q eqn:F; [reflexivity|reflexivity|destruct (E F)].
    - destruct (y ?= x)%Q eqn:F; auto; exfalso; enough (Qle_bool y x = true) by congruence; apply Qle_bool_iff, Qle_alt; congruence. }
  assert (L3 : Qeq_bool x y = match (x ?= y)%Q with Eq => true | _ => false end).
  { destruct (Qeq_bool x y) eqn:E.
    - apply Qeq_bool_iff in E. apply Qeq_alt in E. rewrite E. reflexivity.
    - destruct (x ?= y)%Q eqn:F; auto. apply Qeq_alt in F. apply Qeq_bool_iff in F. congruence. }
  destruct o; try discriminate; unfold related; rewrite ?L1, ?L2, ?L3; destruct (x ?= y)%Q; reflexivity.
Qed.

Lemma relational_cmp o : relational o = is_cmp o.
Proof. destruct o; reflexivity. Qed.

Lemma seq_count c o l x : relational o = true -> numbers l ->
  py_op c o (OSeq l) (OV (VN x)) = Ok (oint (how_many (fun v => related o (vq v) (numQ x)) l)).
Proof.
  intros R F. unfold py_op. rewrite dispatch_S. unfold other_first. rewrite andb_false_r. cbn [fwd].
  unfold seq_fwd. rewrite <- relational_cmp, R. unfold compare_to, count_holds. cbn [seq_entries done rmap bind].
  do 2 f_equal. rewrite how_many_filter. do 2 f_equal. apply filter_ext_in. intros v I.
  destruct v as [n|]; [|exfalso; apply (proj1 (Forall_forall _ _) F) in I; discriminate].
  cbn [vcmp vq]. rewrite ncmp_Q. apply cmp_holds_Q, R.
Qed.

Lemma related_mirror o x y : related (mirror o) x y = related o y x.
Proof.
  destruct o; try reflexivity; cbn; (destruct (Qeq_bool x y) eqn:E, (Qeq_bool y x) eqn:F; try reflexivity; exfalso).
  1,3: apply Qeq_bool_iff in E; apply Qeq_bool_neq in F; apply F; symmetry; exact E.
  all: apply Qeq_bool_iff in F; apply Qeq_bool_neq in E; apply E; symmetry; exact F.
Qed.

Lemma how_many_ext {A} (P Q : A -> bool) l : (forall x, P x = Q x) -> how_many P l = how_many Q l.
Proof. intros H. induction l as [|x l IH]; cbn [how_many]; [reflexivity|]. rewrite H, IH. reflexivity. Qed.

Lemma number_count c o l x : relational o = true -> numbers l ->
  py_op c o (OV (VN x)) (OSeq l) = Ok (oint (how_many (fun v => related o (numQ x) (vq v)) l)).
Proof.
  intros R F. assert (R' : relational (mirror o) = true) by (destruct o; try discriminate; reflexivity).
  pose proof (seq_count c (mirror o) l x R' F) as E. revert E.
  unfold py_op. rewrite !(dispatch_S 2). unfold other_first. rewrite !andb_false_r. cbn [fwd nimpl bind].
  unfold rev_op. rewrite <- (relational_cmp o), R. cbn [fwd]. intros E. unfold seq_fwd, compare_to, count_holds in *. cbn [seq_entries] in *.
  rewrite <- (relational_cmp (mirror o)), R' in *. cbn [done rmap bind] in *. rewrite E. apply (f_equal (fun z => Ok (oint z))). apply how_many_ext. intros v. apply related_mirror.
Qed.

Lemma three_counts l x :
  how_many (fun v => related OLt (vq v) x) l + how_many (fun v => related OEq (vq v) x) l + how_many (fun v => related OGt (vq v) x) l
  = Z.of_nat (length l).
Proof.
  induction l as [|v l IH]; cbn [how_many length]; [reflexivity|]. cbn [related] in *.
  assert (E : (if negb (Qle_bool x (vq v)) then 1 else 0) + (if Qeq_bool (vq v) x then 1 else 0) + (if negb (Qle_bool (vq v) x) then 1 else 0) = 1).
  { destruct (Qle_bool x (vq v)) eqn:A, (Qle_bool (vq v) x) eqn:B, (Qeq_bool (vq v) x) eqn:C; cbn [negb]; try reflexivity; exfalso.
    - apply Qle_bool_iff in A. apply Qle_bool_iff in B. apply Qeq_bool_neq in C. apply C, Qle_antisym; assumption.
    - apply Qeq_bool_iff in C. enough (Qle_bool (vq v) x = true) by congruence. apply Qle_bool_iff. rewrite C. apply Qle_refl.
    - apply Qeq_bool_iff in C. enough (Qle_bool x (vq v) = true) by congruence. apply Qle_bool_iff. rewrite C. apply Qle_refl.
    - apply Qeq_bool_iff in C. enough (Qle_bool x (vq v) = true) by congruence. apply Qle_bool_iff. rewrite C. apply Qle_refl.
    - destruct (Qlt_le_dec x (vq v)) as [L|L].
      + apply Qlt_le_weak, Qle_bool_iff in L. congruence.
      + apply Qle_bool_iff in L. congruence. }
  lia.
Qed.

(** ** C46 *)

Lemma entrywise_seq c o l1 l2 : relational o = true ->
  py_op c o (OSeq l1) (OSeq l2) = Ok (OV (b01 (entrywise o l1 l2))).
Proof.
  intros R. unfold py_op. rewrite dispatch_S. unfold other_first. rewrite andb_false_r. cbn [fwd].
  unfold seq_fwd. rewrite <- relational_cmp, R. reflexivity.
Qed.

Lemma zip_longest_nil l : zip_longest [] l = map (fun y => (None, Some y)) l.
Proof. destruct l as [|y l]; [reflexivity|]. cbn. reflexivity. Qed.

Lemma zip_longest_nil_r l : zip_longest l [] = map (fun x => (Some x, None)) l.
Proof. induction l as [|x l IH]; cbn; [reflexivity|]. f_equal. exact IH. Qed.

Lemma all_hold_cons o x y l1 l2 : all_hold o (x :: l1) (y :: l2) = cmp_holds o (vcmp x y) && all_hold o l1 l2.
Proof. reflexivity. Qed.

Lemma all_hold_nil_l o l : all_hold o [] l = match l with [] => true | _ => cmp_holds o Lt end.
Proof.
  unfold all_hold. rewrite zip_longest_nil. destruct l as [|y l]; [reflexivity|]. cbn [map forallb fst snd icmp].
  destruct (cmp_holds o Lt) eqn:E; [|reflexivity]. cbn [andb].
  induction l as [|z l IH]; cbn [map forallb fst snd icmp]; [reflexivity|]. rewrite E. exact IH.
Qed.

Lemma all_hold_nil_r o l : all_hold o l [] = match l with [] => true | _ => cmp_holds o Gt end.
Proof.
  unfold all_hold. rewrite zip_longest_nil_r. destruct l as [|y l]; [reflexivity|]. cbn [map forallb fst snd icmp].
  destruct (cmp_holds o Gt) eqn:E; [|reflexivity]. cbn [andb].
  induction l as [|z l IH]; cbn [map forallb fst snd icmp]; [reflexivity|]. rewrite E. exact IH.
Qed.

Lemma vcmp_related o x y : relational o = true -> is_number x = true -> is_number y = true ->
  cmp_holds o (vcmp x y) = related o (vq x) (vq y).
Proof.
  intros R X Y. destruct x as [x|], y as [y|]; try discriminate. cbn [vcmp vq]. rewrite ncmp_Q. apply cmp_holds_Q, R.
Qed.

Lemma all_hold_eq l1 : forall l2, numbers l1 -> numbers l2 ->
  all_hold OEq l1 l2 = true <-> Forall2 Qeq (map vq l1) (map vq l2).
Proof.
  induction l1 as [|x l1 IH]; intros l2 N1 N2.
  - rewrite all_hold_nil_l. destruct l2; cbn; split; intros H; try constructor; try discriminate; inversion H.
  - inversion N1 as [|? ? X N1']; subst. destruct l2 as [|y l2].
    + rewrite all_hold_nil_r. split; intros H; [discriminate|inversion H].
    + inversion N2 as [|? ? Y N2']; subst. rewrite all_hold_cons, andb_true_iff, vcmp_related, (IH l2 N1' N2') by auto.
      cbn [map related]. rewrite Qeq_bool_iff. split; [intros [A B]; constructor; auto|intros H; inversion H; auto].
Qed.

Lemma nth_nil {A} i : nth_error (@nil A) i = None.
Proof. destruct i; reflexivity. Qed.

Lemma all_hold_order o l1 : order_op o = true -> forall l2, numbers l1 -> numbers l2 ->
  all_hold o l1 l2 = true <-> forall i, holds_at o (nth_error (map vq l1) i) (nth_error (map vq l2) i).
Proof.
  intros O. assert (R : relational o = true) by (destruct o; try discriminate; reflexivity).
  induction l1 as [|x l1 IH]; intros l2 N1 N2.
  - rewrite all_hold_nil_l. destruct l2 as [|y l2]; split; intros H.
    + intros i. change (map vq []) with (@nil Q). rewrite ?nth_nil. exact Logic.I.
    + reflexivity.
    + intros i. change (map vq []) with (@nil Q). rewrite ?nth_nil. destruct (nth_error (map vq (y :: l2)) i); [|exact Logic.I].
      destruct o; try discriminate; cbn; auto.
    + specialize (H 0%nat). cbn in H. destruct H as [->| ->]; reflexivity.
  - inversion N1 as [|? ? X N1']; subst. destruct l2 as [|y l2].
    + rewrite all_hold_nil_r. split; intros H.
      * intros i. change (map vq []) with (@nil Q). rewrite ?nth_nil. destruct (nth_error (map vq (x :: l1)) i); [|exact Logic.I].
        destruct o; try discriminate; cbn; auto.
      * specialize (H 0%nat). cbn in H. destruct H as [->| ->]; reflexivity.
    + inversion N2 as [|? ? Y N2']; subst. rewrite all_hold_cons, andb_true_iff, vcmp_related, (IH l2 N1' N2') by auto.
      split.
      * intros [A B] [|i]; [exact A|apply B].
      * intros H. split; [exact (H 0%nat)|intros i; exact (H (S i))].
Qed.

Lemma b01_one b : Ok (OV (b01 b)) = Ok (oint 1) <-> b = true.
Proof. destruct b; split; intros H; auto; discriminate. Qed.

Lemma seq_compare c l1 l2 : numbers l1 -> numbers l2 ->
  (forall o, relational o = true -> py_op c o (OSeq l1) (OSeq l2) = Ok (oint 0) \/ py_op c o (OSeq l1) (OSeq l2) = Ok (oint 1)) /\
  (py_op c OEq (OSeq l1) (OSeq l2) = Ok (oint 1) <-> Forall2 Qeq (map vq l1) (map vq l2)) /\
  (py_op c ONe (OSeq l1) (OSeq l2) = Ok (oint 1) <-> ~ Forall2 Qeq (map vq l1) (map vq l2)) /\
  (forall o, order_op o = true ->
     (py_op c o (OSeq l1) (OSeq l2) = Ok (oint 1) <->
      forall i, holds_at o (nth_error (map vq l1) i) (nth_error (map vq l2) i))).
Proof.
  intros N1 N2. split; [|split; [|split]].
  - intros o R. rewrite entrywise_seq by auto. destruct (entrywise o l1 l2); auto.
  - rewrite entrywise_seq by auto. rewrite b01_one. apply all_hold_eq; auto.
  - rewrite entrywise_seq by auto. rewrite b01_one, <- (all_hold_eq l1 l2 N1 N2). unfold entrywise.
    destruct (all_hold OEq l1 l2); split; intros H; auto; try discriminate.
  - intros o O. rewrite entrywise_seq, b01_one by (destruct o; try discriminate; reflexivity).
    rewrite <- (all_hold_order o l1 O l2 N1 N2). destruct o; try discriminate; reflexivity.
Qed.

(** any iterable of numbers on either side is treated as a sequence *)
Lemma flatten_values l : flatten (map OV l) = map OV l.
Proof. unfold flatten. induction l as [|v l IH]; [reflexivity|]. cbn [map flat_map flat1 app]. rewrite IH. reflexivity. Qed.

Lemma filter_values l : filter (fun o => negb (is_meta_rv o)) (map OV l) = map OV l.
Proof. induction l as [|v l IH]; cbn; [reflexivity|]. rewrite IH. reflexivity. Qed.

Lemma all_some_values l : all_some (map leaf_val (map OV l)) = Some l.
Proof. induction l as [|v l IH]; cbn; [reflexivity|]. rewrite IH. reflexivity. Qed.

Lemma faces_values l : flat_map rv_leaf_vals (map OV l) = [].
Proof. induction l as [|v l IH]; cbn; auto. Qed.

Lemma number_leaves l : numbers l -> forallb is_number_leaf (map OV l) = true.
Proof. intros F. induction F as [|v l V F IH]; cbn; [reflexivity|]. destruct v; [exact IH|discriminate]. Qed.

Lemma mk_seq_numbers l : numbers l -> mk_seq (map OV l) = Ok (OSeq l).
Proof.
  intros F. unfold mk_seq. rewrite flatten_values, filter_values, number_leaves, all_some_values, faces_values by exact F.
  cbn. rewrite app_nil_r. reflexivity.
Qed.

Lemma seq_compare_iter c o l1 l2 : relational o = true -> numbers l1 -> numbers l2 ->
  py_op c o (OSeq l1) (OIter (map OV l2)) = py_op c o (OSeq l1) (OSeq l2) /\
  py_op c o (OIter (map OV l1)) (OSeq l2) = py_op c (mirror o) (OSeq l2) (OSeq l1).
Proof.
  intros R N1 N2. assert (R' : relational (mirror o) = true) by (destruct o; try discriminate; reflexivity). split.
  - rewrite entrywise_seq by exact R. unfold py_op. rewrite dispatch_S. unfold other_first. rewrite andb_false_r. cbn [fwd].
    unfold seq_fwd. rewrite <- relational_cmp, R. unfold compare_to. rewrite mk_seq_numbers by exact N2. reflexivity.
  - rewrite entrywise_seq by exact R'. unfold py_op. rewrite dispatch_S. unfold other_first. rewrite andb_false_r. cbn [fwd nimpl bind].
    unfold rev_op. rewrite <- (relational_cmp o), R. cbn [fwd].
    unfold seq_fwd. rewrite <- (relational_cmp (mirror o)), R'. unfold compare_to. rewrite mk_seq_numbers by exact N1. reflexivity.
Qed.

(** a sequence against dice: its sum *)
Lemma seq_compare_die c o l s x : relational o = true -> seq_sum l = Ok (VN s) ->
  py_op c o (OSeq l) (ORV x) = rmap ORV (rv_op_const c (mirror o) (rv_dist x) (VN s)) /\
  py_op c o (ORV x) (OSeq l) = rmap ORV (rv_op_const c o (rv_dist x) (VN s)).
Proof.
  intros R E. split.
  - unfold py_op. rewrite (dispatch_S 2). unfold other_first. rewrite andb_false_r. cbn [fwd].
    unfold seq_fwd. rewrite <- relational_cmp, R. unfold compare_to. cbn [meta_sum]. rewrite E. cbn [bind].
    assert (D : dispatch 2 c o (OV (VN s)) (ORV x) = rmap ORV (rv_op_const c (mirror o) (rv_dist x) (VN s))).
    { rewrite <- py_number_die_cmp by (rewrite <- relational_cmp; exact R). unfold py_op. symmetry. apply dispatch_enough_gen; [cbn|]; lia. }
    rewrite D. unfold done. destruct (rv_op_const c (mirror o) (rv_dist x) (VN s)); reflexivity.
  - unfold py_op. rewrite dispatch_S. unfold other_first. rewrite andb_false_r. cbn [fwd]. unfold convolve. cbn [meta_sum]. rewrite E. cbn [bind].
    unfold done. destruct (rv_op_const c o (rv_dist x) (VN s)); reflexivity.
Qed.

(** ** C47 *)

Lemma seq_get_entry l i : seq_get l i = entry i l.
Proof.
  unfold seq_get, entry. replace (0 <=? i - 1) with (1 <=? i) by (destruct (1 <=? i) eqn:A, (0 <=? i - 1) eqn:B; lia).
  replace (i - 1 <? Z.of_nat (length l)) with (i <=? Z.of_nat (length l))
    by (destruct (i <=? Z.of_nat (length l)) eqn:A, (i - 1 <? Z.of_nat (length l)) eqn:B; lia).
  reflexivity.
Qed.

Lemma position_number c n l : matmul c (OV (VN n)) (OSeq l) = Ok (OV (entry (ntrunc n) l)).
Proof. cbn [matmul seq_rmatmul obj_get rmap]. rewrite seq_get_entry. reflexivity. Qed.

Lemma int_entries_ints ks : int_entries (map vint ks) = Ok ks.
Proof.
  unfold int_entries. assert (E : all_some (map as_int (map vint ks)) = Some ks).
  { induction ks as [|k ks IH]; cbn; [reflexivity|]. cbn in IH. rewrite IH. reflexivity. }
  rewrite E. reflexivity.
Qed.

Lemma sum_ints l : Forall (fun v => v_is_int v = true) l -> forall z, foldM (vop OAdd) (vint z) l = Ok (vint (z + sumZ (map toZ l))).
Proof.
  intros F. induction F as [|v l V F IH]; intros z; cbn [foldM map]; [cbn; rewrite Z.add_0_r; reflexivity|].
  destruct v as [[k|]|]; try discriminate. change (vop OAdd (vint z) (VN (NI k))) with (Ok (vint (z + k))). cbn [bind]. rewrite IH.
  unfold sumZ. cbn [fold_right toZ]. apply (f_equal (fun t => Ok (vint t))). lia.
Qed.

Lemma sum_at_ints l ks : Forall (fun v => v_is_int v = true) l ->
  sum_at (OSeq l) ks = Ok (vint (sumZ (map (fun k => toZ (entry k l)) ks))).
Proof.
  intros F. unfold sum_at.
  assert (E : mapM (obj_get (OSeq l)) ks = Ok (map (fun k => entry k l) ks)).
  { clear F. induction ks as [|k ks IH]; cbn [mapM map]; [reflexivity|]. cbn [obj_get] in *. rewrite IH, seq_get_entry. reflexivity. }
  rewrite E. cbn [bind]. rewrite sum_ints.
  - rewrite map_map. reflexivity.
  - apply Forall_forall. intros v I. apply in_map_iff in I. destruct I as [k [<- _]]. unfold entry.
    destruct ((1 <=? k) && (k <=? Z.of_nat (length l))) eqn:B; [|reflexivity].
    apply (proj1 (Forall_forall _ _) F). apply nth_In. apply andb_true_iff in B. lia.
Qed.

Lemma positions_seq c ks l : Forall (fun v => v_is_int v = true) l ->
  matmul c (OSeq (map vint ks)) (OSeq l) = Ok (oint (sumZ (map (fun k => toZ (entry k l)) ks))).
Proof.
  intros F. unfold matmul, seq_matmul. cbn [bind seq_entries]. rewrite int_entries_ints. cbn [bind].
  rewrite sum_at_ints by exact F. reflexivity.
Qed.

(** decimal digits *)
Lemma read_digit_char d : is_dec d -> read_digit (digit_char d) = Ok d.
Proof.
  intros H. destruct (dec_cases d H) as [->|[->|[->|[->|[->|[->|[->|[->|[->| ->]]]]]]]]]; reflexivity.
Qed.

Lemma read_digits_all ds : Forall is_dec ds -> mapM read_digit (map digit_char ds) = Ok ds.
Proof.
  intros F. induction F as [|d ds D F IH]; cbn [map mapM]; [reflexivity|]. rewrite read_digit_char by exact D. cbn [bind].
  rewrite IH. reflexivity.
Qed.

Lemma dec_value_acc ds : forall a, dec_value ds a = a * 10 ^ Z.of_nat (length ds) + dec_value ds 0.
Proof.
  induction ds as [|d ds IH]; intros a; [cbn; lia|]. change (dec_value (d :: ds) a) with (dec_value ds (10 * a + d)).
  change (dec_value (d :: ds) 0) with (dec_value ds (10 * 0 + d)). rewrite (IH (10 * a + d)), (IH (10 * 0 + d)).
  cbn [length]. rewrite Nat2Z.inj_succ, Z.pow_succ_r by lia. ring.
Qed.

Lemma dec_value_bound ds : Forall is_dec ds -> 0 <= dec_value ds 0 < 10 ^ Z.of_nat (length ds).
Proof.
  intros F. induction F as [|d ds D F IH]; [cbn; lia|].
  change (dec_value (d :: ds) 0) with (dec_value ds (10 * 0 + d)). rewrite dec_value_acc.
  cbn [length]. rewrite Nat2Z.inj_succ, Z.pow_succ_r by lia. unfold is_dec in D.
  assert (0 < 10 ^ Z.of_nat (length ds)) by (apply Z.pow_pos_nonneg; lia). nia.
Qed.

Lemma dec_nth ds : Forall is_dec ds -> forall i, (i < length ds)%nat ->
  nth i ds 0 = (dec_value ds 0 / 10 ^ (Z.of_nat (length ds) - 1 - Z.of_nat i)) mod 10.
Proof.
  intros F. induction F as [|d ds D F IH]; intros i L; [cbn in L; lia|].
  change (dec_value (d :: ds) 0) with (dec_value ds (10 * 0 + d)). rewrite dec_value_acc. cbn [length] in *.
  pose proof (dec_value_bound ds F) as B. unfold is_dec in D.
  destruct i as [|i]; cbn [nth].
  - replace (Z.of_nat (S (length ds)) - 1 - Z.of_nat 0) with (Z.of_nat (length ds)) by lia.
    rewrite Z.div_add_l by (apply Z.pow_nonzero; lia). rewrite Z.div_small by exact B. rewrite Z.mod_small; lia.
  - rewrite IH by lia. replace (Z.of_nat (S (length ds)) - 1 - Z.of_nat (S i)) with (Z.of_nat (length ds) - 1 - Z.of_nat i) by lia.
    set (e := Z.of_nat (length ds) - 1 - Z.of_nat i). assert (0 <= e) by lia.
    replace (10 ^ Z.of_nat (length ds)) with (10 ^ (Z.of_nat i) * 10 * 10 ^ e)
      by (rewrite <- (Z.pow_1_r 10) at 2; rewrite <- !Z.pow_add_r by lia; f_equal; lia).
    replace ((10 * 0 + d) * (10 ^ Z.of_nat i * 10 * 10 ^ e)) with (d * 10 ^ Z.of_nat i * 10 * 10 ^ e) by ring.
    rewrite Z.div_add_l by (apply Z.pow_nonzero; lia). rewrite Z.add_comm, Z.mod_add by lia. reflexivity.
Qed.

(** no leading zero *)
Lemma digits_aux_head f : forall n acc, 0 < n < 2 ^ Z.of_nat f -> exists d ds, digits_aux f n acc = d :: ds /\ d <> 0.
Proof.
  induction f as [|f IH]; intros n acc B; [cbn in B; lia|]. cbn [digits_aux]. destruct (n <? 10) eqn:E.
  - exists n, acc. split; [reflexivity|lia].
  - apply IH. rewrite Nat2Z.inj_succ, Z.pow_succ_r in B by lia. split; [apply Z.div_str_pos; lia|].
    apply Z.div_lt_upper_bound; [lia|]. lia.
Qed.

Lemma digits_length n k : 0 <= n -> decimal_length n k -> Z.of_nat (length (digits n)) = k.
Proof.
  intros N [[-> ->]|[K B]]; [reflexivity|].
  assert (P : 0 < n). { assert (0 < 10 ^ (k - 1)) by (apply Z.pow_pos_nonneg; lia). lia. }
  destruct (digits_spec n N) as [F [_ V]].
  assert (H : exists d ds, digits n = d :: ds /\ d <> 0).
  { unfold digits. apply digits_aux_head. split; [exact P|]. rewrite Nat2Z.inj_succ, Z2Nat.id by apply Z.log2_nonneg.
    apply Z.log2_spec. exact P. }
  destruct H as [d [ds [E D]]]. rewrite E in *. inversion F as [|? ? Dd F']; subst. unfold is_dec in Dd.
  change (dec_value (d :: ds) 0) with (dec_value ds (10 * 0 + d)) in *. rewrite dec_value_acc in *.
  pose proof (dec_value_bound ds F') as Bd. cbn [length]. rewrite Nat2Z.inj_succ. set (m := Z.of_nat (length ds)) in *.
  assert (Pm : 0 < 10 ^ m) by (apply Z.pow_pos_nonneg; lia).
  assert (L1 : 10 ^ (k - 1) < 10 ^ (m + 1)). { rewrite Z.pow_add_r by lia. nia. }
  assert (L2 : 10 ^ m < 10 ^ k) by nia.
  apply Z.pow_lt_mono_r_iff in L1; [|lia|lia]. apply Z.pow_lt_mono_r_iff in L2; [|lia|lia]. lia.
Qed.

Lemma digit_entry n k i : 0 <= n -> decimal_length n k -> toZ (entry i (map vint (digits n))) = decimal_digit n k i.
Proof.
  intros N K. pose proof (digits_length n k N K) as L. destruct (digits_spec n N) as [F [_ V]].
  unfold entry, decimal_digit. rewrite map_length, L.
  destruct ((1 <=? i) && (i <=? k)) eqn:B; [|reflexivity]. apply andb_true_iff in B.
  change (vint 0) with ((fun z => vint z) 0). rewrite (map_nth vint). cbn [toZ].
  rewrite dec_nth by (auto; lia). rewrite V, L. replace (k - 1 - Z.of_nat (Z.to_nat (i - 1))) with (k - i) by lia. reflexivity.
Qed.

Lemma str_of_nonneg n : 0 <= n -> list_ascii_of_string (str_of_Z n) = map digit_char (digits n).
Proof.
  intros N. rewrite str_of_Z_chars, list_ascii_of_string_of_list_ascii. unfold Z_chars.
  destruct (n <? 0) eqn:E; [lia|reflexivity].
Qed.

Lemma positions_digits c ks n k : 0 <= n -> decimal_length n k ->
  matmul c (OSeq (map vint ks)) (oint n) = Ok (oint (sumZ (map (decimal_digit n k) ks))).
Proof.
  intros N K. destruct (digits_spec n N) as [F [_ V]]. change (oint n) with (OV (VN (NI n))). cbn [matmul seq_matmul].
  rewrite str_of_nonneg, read_digits_all by auto. cbn [bind seq_entries]. rewrite int_entries_ints. cbn [bind].
  rewrite sum_at_ints.
  - cbn [rmap]. apply (f_equal (fun l => Ok (oint (sumZ l)))). apply map_ext. intros i. apply digit_entry; auto.
  - apply Forall_forall. intros v I. apply in_map_iff in I. destruct I as [z [<- _]]. reflexivity.
Qed.

Lemma position_digit c i n k : 0 <= n -> decimal_length n k -> my_matmul c (oint i) (oint n) = Ok (oint (decimal_digit n k i)).
Proof.
  intros N K. pose proof (digits_length n k N K) as L. destruct (digits_spec n N) as [F [_ V]].
  change (oint n) with (OV (VN (NI n))). change (oint i) with (OV (VN (NI i))). cbn [my_matmul]. rewrite str_of_nonneg by exact N. rewrite map_length, L. unfold decimal_digit.
  replace ((0 <=? i - 1) && (i - 1 <? k)) with ((1 <=? i) && (i <=? k)) by (destruct (1 <=? i) eqn:A1, (0 <=? i - 1) eqn:A2, (i <=? k) eqn:A3, (i - 1 <? k) eqn:A4; lia || reflexivity).
  destruct ((1 <=? i) && (i <=? k)) eqn:B; [|reflexivity]. apply andb_true_iff in B.
  rewrite (nth_indep _ _ (digit_char 0)) by (rewrite map_length; lia). rewrite (map_nth digit_char).
  rewrite read_digit_char.
  - cbn [bind]. rewrite dec_nth by (auto; lia). rewrite V, L. replace (k - 1 - Z.of_nat (Z.to_nat (i - 1))) with (k - i) by lia. reflexivity.
  - apply (proj1 (Forall_forall _ _) F). apply nth_In. lia.
Qed.

Lemma negative_digits_fail c l n : n < 0 -> matmul c (OSeq l) (oint n) = Err ValueErr.
Proof.
  intros N. change (oint n) with (OV (VN (NI n))). cbn [matmul seq_matmul]. rewrite str_of_Z_chars, list_ascii_of_string_of_list_ascii. unfold Z_chars.
  destruct (n <? 0) eqn:E; [reflexivity|lia].
Qed.

Lemma len_digits n k : decimal_length (Z.abs n) k -> my_len (oint n) = Ok k.
Proof.
  intros K. change (oint n) with (OV (VN (NI n))). cbn [my_len]. f_equal. rewrite <- (digits_length (Z.abs n) k) by (auto; lia). f_equal.
  rewrite <- (map_length digit_char), <- str_of_nonneg by lia.
  generalize (str_of_Z (Z.abs n)). intros s. induction s as [|a s IH]; cbn; auto.
Qed.

Lemma decimal_length_exists n : 0 <= n -> exists k, decimal_length n k.
Proof.
  intros N. destruct (Z.eq_dec n 0) as [->|Z0]; [exists 1; left; auto|].
  destruct (digits_spec n N) as [F [NE V]].
  assert (H : exists d ds, digits n = d :: ds /\ d <> 0).
  { unfold digits. apply digits_aux_head. split; [lia|]. rewrite Nat2Z.inj_succ, Z2Nat.id by apply Z.log2_nonneg.
    apply Z.log2_spec. lia. }
  destruct H as [d [ds [E D]]]. rewrite E in *. inversion F as [|? ? Dd F']; subst. unfold is_dec in Dd.
  exists (Z.of_nat (length ds) + 1). right. pose proof (dec_value_bound _ F') as B'.
  change (dec_value (d :: ds) 0) with (dec_value ds (10 * 0 + d)) in *. rewrite dec_value_acc in *.
  assert (Pm : 0 < 10 ^ Z.of_nat (length ds)) by (apply Z.pow_pos_nonneg; lia).
  replace (Z.of_nat (length ds) + 1 - 1) with (Z.of_nat (length ds)) by lia. rewrite Z.pow_add_r by lia. nia.
Qed.

Lemma position_int c k l : matmul c (oint k) (OSeq l) = Ok (OV (entry k l)).
Proof.
  unfold oint, vint. rewrite position_number. assert (T : ntrunc (NI k) = k).
  { unfold ntrunc, nceil, nfloor, dy_floor. cbn [mant expo]. destruct (k <? 0); cbn; unfold shl; cbn; rewrite ?Z.div_1_r; lia. }
  rewrite T. reflexivity.
Qed.

Lemma counts_add_up c l x lt eq gt : numbers l ->
  py_op c OLt (OSeq l) (OV (VN x)) = Ok (oint lt) -> py_op c OEq (OSeq l) (OV (VN x)) = Ok (oint eq) ->
  py_op c OGt (OSeq l) (OV (VN x)) = Ok (oint gt) -> lt + eq + gt = Z.of_nat (length l).
Proof.
  intros N. rewrite !seq_count by auto. intros A B C. injection A as <-. injection B as <-. injection C as <-. apply three_counts.
Qed.
