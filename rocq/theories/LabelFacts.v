(** Facts about labels. *)
From Coq Require Import String List ZArith Bool Lia Permutation Sorted.
From Verif Require Import PyBase Num Sorting Val LabelModel SortFacts CmpFacts.
Import ListNotations.
Open Scope Z_scope.

Definition label_ok (a : label) : Prop :=
  NoDup (map fst (l_data a)) /\ l_keys a = isort (leb_of String.compare) (map fst (l_data a)).

(** ** Dicts *)
Lemma lookup_In d k v : lookup d k = Some v -> In (k, v) d.
Proof.
  induction d as [|[k' v'] d IH]; cbn; [discriminate|]. destruct (String.eqb_spec k' k) as [->|]; [intro E; injection E as ->; auto|auto].
Qed.
Lemma In_lookup d k v : NoDup (map fst d) -> In (k, v) d -> lookup d k = Some v.
Proof.
  induction d as [|[k' v'] d IH]; cbn [map fst lookup]; intros N I; [destruct I|]. inversion N as [|? ? N1 N2]; subst.
  destruct I as [E|I]; [injection E as -> ->; rewrite String.eqb_refl; reflexivity|].
  destruct (String.eqb_spec k' k) as [->|]; [|auto]. exfalso. apply N1, in_map_iff. exists (k, v). auto.
Qed.
Lemma lookup_key d k : lookup d k <> None <-> In k (map fst d).
Proof.
  induction d as [|[k' v'] d IH]; cbn [map fst lookup In]; [intuition congruence|].
  destruct (String.eqb_spec k' k) as [->|N]; [split; [auto|discriminate]|]. rewrite IH. intuition congruence.
Qed.
Lemma lookup_store d k v m : lookup (store d k v) m = if String.eqb k m then Some v else lookup d m.
Proof.
  induction d as [|[k' v'] d IH]; cbn [lookup store]; [reflexivity|].
  destruct (String.eqb_spec k' k) as [->|N]; cbn [lookup].
  - destruct (String.eqb k m); reflexivity.
  - destruct (String.eqb_spec k' m) as [->|M]; [|exact IH]. destruct (String.eqb_spec k m); [congruence|reflexivity].
Qed.
Lemma store_keys d k v m : In m (map fst (store d k v)) <-> m = k \/ In m (map fst d).
Proof. rewrite <- !lookup_key, lookup_store. destruct (String.eqb_spec k m) as [->|]; intuition congruence. Qed.
Lemma store_nodup d k v : NoDup (map fst d) -> NoDup (map fst (store d k v)).
Proof.
  induction d as [|[k' v'] d IH]; cbn [store map fst]; intro N; [repeat constructor; intros []|].
  inversion N as [|? ? N1 N2]; subst. destruct (String.eqb_spec k' k) as [->|M]; cbn [map fst]; [constructor; assumption|].
  constructor; [|auto]. rewrite store_keys. intros [E|E]; [congruence|contradiction].
Qed.

(** ** Labels that can be made *)
Definition add_step (d : list (string * num)) (kv : string * num) : res (list (string * num)) :=
  n <- nadd (match lookup d (fst kv) with Some v => v | None => NI 0 end) (snd kv) ;; Ok (store d (fst kv) n).
Lemma add_steps_nodup b : forall d d', NoDup (map fst d) -> foldM add_step d b = Ok d' -> NoDup (map fst d').
Proof.
  induction b as [|[k v] b IH]; intros d d' N E; cbn [foldM] in E; [injection E as <-; exact N|].
  unfold add_step at 1 in E. cbn [fst snd] in E. destruct (nadd _ v) as [n|]; cbn [bind] in E; [|discriminate E].
  apply (IH _ _ (store_nodup _ _ _ N) E).
Qed.
Lemma from_pairs_ok d : NoDup (map fst d) -> label_ok (from_pairs d).
Proof. intro N. split; [exact N|reflexivity]. Qed.
Lemma made_ok a : made a -> label_ok a.
Proof.
  induction 1 as [s|n|a b c Ma [Na Ka] Mb [Nb Kb] E].
  - split; [repeat constructor; intros []|reflexivity].
  - split; [repeat constructor; intros []|reflexivity].
  - unfold label_add in E. change (foldM _ (l_data a) (l_data b)) with (foldM add_step (l_data a) (l_data b)) in E.
    destruct (foldM add_step (l_data a) (l_data b)) as [d|] eqn:F; cbn [bind] in E; [|discriminate E]. injection E as <-.
    apply from_pairs_ok. apply (add_steps_nodup _ _ _ Na F).
Qed.

(** ** The walk over both labels *)
Lemma insert_fst p d : map fst (insert key_leb p d) = insert (leb_of String.compare) (fst p) (map fst d).
Proof. induction d as [|q d IH]; [reflexivity|]. cbn [insert map]. unfold key_leb at 1. destruct (leb_of String.compare (fst p) (fst q)); cbn [map]; [reflexivity|]. rewrite IH. reflexivity. Qed.
Lemma sorted_fst d : map fst (s_sorted d) = isort (leb_of String.compare) (map fst d).
Proof. unfold s_sorted. induction d as [|p d IH]; [reflexivity|]. cbn [isort map]. rewrite insert_fst, IH. reflexivity. Qed.
Lemma sorted_perm d : Permutation d (s_sorted d).
Proof. apply isort_perm. Qed.

Section Walk.
  Variables (o : order_op) (a b : label).
  Hypotheses (Ha : label_ok a) (Hb : label_ok b).
  Let A := s_sorted (l_data a).
  Let B := s_sorted (l_data b).

  Lemma keys_sorted x : label_ok x -> l_keys x = map fst (s_sorted (l_data x)).
  Proof. intros [_ K]. rewrite sorted_fst. exact K. Qed.

  Lemma nth_pair x i k : label_ok x -> nth_error (l_keys x) i = Some k ->
    exists v, nth_error (s_sorted (l_data x)) i = Some (k, v) /\ lookup (l_data x) k = Some v.
  Proof.
    intros H E. rewrite (keys_sorted x H), nth_error_map in E. destruct (nth_error (s_sorted (l_data x)) i) as [[k' v]|] eqn:N; [|discriminate E].
    injection E as <-. exists v. split; [reflexivity|]. apply In_lookup; [apply H|].
    apply (Permutation_in _ (Permutation_sym (sorted_perm (l_data x)))). apply (nth_error_In _ _ N).
  Qed.

  Lemma skipn_nth {T} (l : list T) i x : nth_error l i = Some x -> skipn i l = x :: skipn (S i) l.
  Proof. revert i. induction l as [|y l IH]; intros [|i] E; try discriminate E; [injection E as ->; reflexivity|]. apply (IH i E). Qed.

  Lemma walk_from fuel : forall i, (i <= length A)%nat -> (i <= length B)%nat -> (length A < fuel + i)%nat ->
    compare_from fuel o a b i = Some (op_holds o (lexcmp pair_cmp (skipn i A) (skipn i B))).
  Proof.
    assert (LA : length (l_keys a) = length A) by (rewrite (keys_sorted a Ha), map_length; reflexivity).
    assert (LB : length (l_keys b) = length B) by (rewrite (keys_sorted b Hb), map_length; reflexivity).
    induction fuel as [|fuel IH]; intros i I1 I2 F; [lia|]. cbn [compare_from]. rewrite LA, LB.
    destruct (Nat.leb_spec (length A) i) as [GA|GA]; cbn [orb].
    { rewrite (skipn_all2 A) by lia. f_equal. f_equal. destruct (Nat.eq_dec i (length B)) as [->|NB].
      - rewrite (skipn_all2 B) by lia. apply Nat.compare_eq_iff. lia.
      - destruct (skipn i B) eqn:S; [exfalso; apply (f_equal (@length _)) in S; rewrite skipn_length in S; cbn in S; lia|]. apply Nat.compare_lt_iff. lia. }
    destruct (Nat.leb_spec (length B) i) as [GB|GB].
    { rewrite (skipn_all2 B) by lia. f_equal. f_equal.
      destruct (skipn i A) eqn:S; [exfalso; apply (f_equal (@length _)) in S; rewrite skipn_length in S; cbn in S; lia|]. apply Nat.compare_gt_iff. lia. }
    destruct (nth_error (l_keys a) i) as [k|] eqn:EA; [|apply nth_error_None in EA; lia].
    destruct (nth_error (l_keys b) i) as [k'|] eqn:EB; [|apply nth_error_None in EB; lia].
    destruct (nth_pair a i k Ha EA) as (v & PA & GA'). destruct (nth_pair b i k' Hb EB) as (v' & PB & GB').
    rewrite (skipn_nth A _ _ PA), (skipn_nth B _ _ PB). cbn [lexcmp]. unfold pair_cmp at 1. cbn [fst snd].
    destruct (String.eqb_spec k k') as [->|N]; cbn [negb].
    - rewrite GA', GB'. assert (EQ : String.compare k' k' = Eq) by (apply string_compare_eq; reflexivity). rewrite EQ.
      unfold neqb. destruct (ncmp v v') eqn:C; cbn [negb]; try reflexivity. apply IH; lia.
    - destruct (String.compare k k') eqn:C; try reflexivity. apply string_compare_eq in C. contradiction.
  Qed.

  Lemma label_compare_walk : label_compare o a b = Some (op_holds o (scmp (l_data a) (l_data b))).
  Proof.
    unfold label_compare. rewrite walk_from; [reflexivity|lia|lia|]. rewrite (keys_sorted a Ha), map_length. unfold A. lia.
  Qed.
End Walk.

(** ** Equality *)
Definition same_coef (x y : option num) : Prop :=
  match x, y with Some v, Some w => neqb v w = true | None, None => True | _, _ => False end.

Lemma texts_eq_spec a : forall b, texts_eq a b = true <-> a = b.
Proof.
  induction a as [|x a IH]; intros [|y b]; cbn [texts_eq]; try (split; congruence). rewrite andb_true_iff, String.eqb_eq, IH. intuition congruence.
Qed.

Lemma str_sorted l : StronglySorted (fun x y => leb_of String.compare x y = true) (isort (leb_of String.compare) l).
Proof. apply isort_sorted; [intros x y; apply leb_of_total, string_compare_lawful|intros x y z; apply leb_of_trans, string_compare_lawful]. Qed.

Lemma sorted_unique (l l' : list string) :
  StronglySorted (fun x y => leb_of String.compare x y = true) l -> StronglySorted (fun x y => leb_of String.compare x y = true) l' ->
  Permutation l l' -> l = l'.
Proof.
  intros S. revert l'. induction S as [|x l S IH F]; intros l' S' P; [apply Permutation_nil in P; congruence|].
  destruct l' as [|y l']; [apply Permutation_sym, Permutation_nil in P; discriminate P|].
  inversion S' as [|? ? S1 F1]; subst.
  assert (E : x = y).
  { assert (I1 : In x (y :: l')) by (apply (Permutation_in _ P); left; reflexivity).
    assert (I2 : In y (x :: l)) by (apply (Permutation_in _ (Permutation_sym P)); left; reflexivity).
    destruct I1 as [E|I1]; [auto|]. destruct I2 as [E|I2]; [auto|].
    pose proof (proj1 (Forall_forall _ _) F _ I2) as L1. pose proof (proj1 (Forall_forall _ _) F1 _ I1) as L2. cbn beta in L1, L2.
    unfold leb_of in L1, L2. pose proof (lw_anti _ string_compare_lawful x y) as A. apply string_compare_eq.
    destruct (String.compare x y); [reflexivity| |discriminate L1]. rewrite A in L2. discriminate L2. }
  subst y. f_equal. apply IH; [exact S1|]. apply (Permutation_cons_inv P).
Qed.

Lemma label_eq_spec a b : label_ok a -> label_ok b ->
  (label_eq a b = true <-> forall k, same_coef (lookup (l_data a) k) (lookup (l_data b) k)).
Proof.
  intros [Na Ka] [Nb Kb]. unfold label_eq. rewrite andb_true_iff, texts_eq_spec. unfold dict_eq. rewrite andb_true_iff, Nat.eqb_eq, forallb_forall. split.
  - intros (K & L & F) k. rewrite Ka, Kb in K.
    assert (P : Permutation (map fst (l_data a)) (map fst (l_data b))).
    { apply (Permutation_trans (isort_perm (leb_of String.compare) _)). rewrite K. apply Permutation_sym, isort_perm. }
    destruct (lookup (l_data a) k) as [v|] eqn:E.
    + apply lookup_In in E. specialize (F _ E). cbn [fst snd] in F. destruct (lookup (l_data b) k); [exact F|discriminate F].
    + destruct (lookup (l_data b) k) as [w|] eqn:E'; [|exact Logic.I]. exfalso.
      assert (I : In k (map fst (l_data b))) by (apply lookup_key; congruence).
      apply (Permutation_in _ (Permutation_sym P)) in I. apply lookup_key in I. congruence.
  - intro H.
    assert (P : Permutation (map fst (l_data a)) (map fst (l_data b))).
    { apply NoDup_Permutation; [exact Na|exact Nb|]. intro k. rewrite <- !lookup_key. specialize (H k). unfold same_coef in H.
      destruct (lookup (l_data a) k), (lookup (l_data b) k); intuition congruence. }
    repeat split.
    + rewrite Ka, Kb. apply sorted_unique; [apply str_sorted|apply str_sorted|].
      apply (Permutation_trans (Permutation_sym (isort_perm _ _))). apply (Permutation_trans P). apply isort_perm.
    + apply Permutation_length in P. rewrite !map_length in P. exact P.
    + intros [k v] I. cbn [fst snd]. specialize (H k). rewrite (In_lookup _ _ _ Na I) in H. unfold same_coef in H.
      destruct (lookup (l_data b) k); [exact H|contradiction].
Qed.

Lemma lexcmp_eq_pairs (A : list (string * num)) : forall B, lexcmp pair_cmp A B = Eq <-> map fst A = map fst B /\ Forall2 (fun p q => neqb (snd p) (snd q) = true) A B.
Proof.
  induction A as [|[k v] A IH]; intros [|[k' v'] B]; cbn [lexcmp map fst].
  - intuition constructor.
  - split; [discriminate|intros [E _]; discriminate E].
  - split; [discriminate|intros [E _]; discriminate E].
  - unfold pair_cmp at 1. cbn [fst snd]. destruct (String.compare k k') eqn:C.
    + apply string_compare_eq in C. subst k'. destruct (ncmp v v') eqn:N.
      * rewrite IH. split.
        -- intros [E F]. split; [congruence|]. constructor; [unfold neqb; cbn [snd]; rewrite N; reflexivity|exact F].
        -- intros [E F]. inversion F; subst. split; [congruence|assumption].
      * split; [discriminate|]. intros [_ F]. inversion F as [|? ? ? ? E]; subst. unfold neqb in E. cbn [snd] in E. rewrite N in E. discriminate E.
      * split; [discriminate|]. intros [_ F]. inversion F as [|? ? ? ? E]; subst. unfold neqb in E. cbn [snd] in E. rewrite N in E. discriminate E.
    + split; [discriminate|]. intros [E _]. injection E as -> _. rewrite (proj2 (string_compare_eq k' k') eq_refl) in C. discriminate C.
    + split; [discriminate|]. intros [E _]. injection E as -> _. rewrite (proj2 (string_compare_eq k' k') eq_refl) in C. discriminate C.
Qed.

Lemma Forall2_lookup A B : map fst A = map fst B -> NoDup (map fst A) ->
  (Forall2 (fun p q => neqb (snd p) (snd q) = true) A B <-> forall k, same_coef (lookup A k) (lookup B k)).
Proof.
  revert B. induction A as [|[k v] A IH]; intros [|[k' v'] B] E N; try discriminate E.
  - split; [intros _ m; exact Logic.I|constructor].
  - cbn [map fst] in E. injection E as <- E. inversion N as [|? ? N1 N2]; subst. split.
    + intros F m. inversion F as [|? ? ? ? H1 H2]; subst. cbn [lookup]. destruct (String.eqb k m); [exact H1|]. apply (proj1 (IH B E N2) H2).
    + intro H. constructor.
      * specialize (H k). cbn [lookup] in H. rewrite !String.eqb_refl in H. exact H.
      * apply IH; [exact E|exact N2|]. intro m. specialize (H m). cbn [lookup] in H. destruct (String.eqb_spec k m) as [Ek|]; [subst m; clear H|exact H].
        assert (L1 : lookup A k = None) by (destruct (lookup A k) eqn:L; [|reflexivity]; exfalso; apply N1, lookup_key; congruence).
        assert (L2 : lookup B k = None) by (destruct (lookup B k) eqn:L; [|reflexivity]; exfalso; apply N1; rewrite E; apply lookup_key; congruence).
        rewrite L1, L2. exact Logic.I.
Qed.

Lemma lookup_sorted d k : NoDup (map fst d) -> lookup (s_sorted d) k = lookup d k.
Proof.
  intro N. assert (N' : NoDup (map fst (s_sorted d))) by (apply (Permutation_NoDup (Permutation_map fst (sorted_perm d))), N).
  destruct (lookup d k) as [v|] eqn:E.
  - apply In_lookup; [exact N'|]. apply (Permutation_in _ (sorted_perm d)), lookup_In, E.
  - destruct (lookup (s_sorted d) k) as [v|] eqn:E'; [|reflexivity]. apply lookup_In in E'. apply (Permutation_in _ (Permutation_sym (sorted_perm d))) in E'.
    apply (In_lookup _ _ _ N) in E'. congruence.
Qed.

(** Python's equality of labels is the equality of Val.v *)
Lemma s_eq_python a b : label_ok a -> label_ok b -> label_eq a b = veqb (VS (l_data a)) (VS (l_data b)).
Proof.
  intros Ha Hb. apply eq_true_iff_eq. rewrite veqb_cmp. cbn [vcmp]. unfold scmp. rewrite lexcmp_eq_pairs. rewrite <- (keys_sorted a Ha), <- (keys_sorted b Hb).
  assert (NA : NoDup (map fst (s_sorted (l_data a)))) by (apply (Permutation_NoDup (Permutation_map fst (sorted_perm _))), Ha).
  split.
  - intro E. assert (K : l_keys a = l_keys b) by (unfold label_eq in E; apply andb_true_iff in E; apply texts_eq_spec, E).
    split; [exact K|]. apply Forall2_lookup; [rewrite <- (keys_sorted a Ha), <- (keys_sorted b Hb); exact K|exact NA|].
    intro k. rewrite !lookup_sorted; [apply label_eq_spec; assumption|apply Hb|apply Ha].
  - intros [K F]. apply label_eq_spec; [exact Ha|exact Hb|]. intro k. rewrite <- (lookup_sorted (l_data a) k (proj1 Ha)), <- (lookup_sorted (l_data b) k (proj1 Hb)).
    apply Forall2_lookup; [rewrite <- (keys_sorted a Ha), <- (keys_sorted b Hb); exact K|exact NA|exact F].
Qed.
Lemma label_ne_eq a b : label_ne a b = negb (label_eq a b).
Proof. unfold label_ne, label_eq. rewrite negb_andb. reflexivity. Qed.

(** addition agrees with Val.v *)
Lemma s_add_python a b : label_add a b = rmap from_pairs (s_add (l_data a) (l_data b)).
Proof.
  unfold label_add, s_add. change (foldM _ (l_data a) (l_data b)) with (foldM add_step (l_data a) (l_data b)) at 1.
  generalize (l_data a) as d. induction (l_data b) as [|[k v] l IH]; intro d; cbn [foldM]; [reflexivity|].
  unfold add_step at 1. cbn [fst snd].
  assert (G : s_get d k = match lookup d k with Some v => v | None => NI 0 end).
  { clear. induction d as [|[k' v'] d IH]; cbn; [reflexivity|]. destruct (String.eqb k' k); [reflexivity|exact IH]. }
  rewrite G. destruct (nadd _ v) as [n|e]; cbn [bind]; [|reflexivity]. exact (IH _).
Qed.

(** ** The order *)
Lemma order_laws a b c : label_ok a -> label_ok b -> label_ok c ->
  (exists lt le gt ge, label_compare Olt a b = Some lt /\ label_compare Ole a b = Some le /\ label_compare Ogt a b = Some gt /\ label_compare Oge a b = Some ge /\
     (lt = true /\ label_eq a b = false /\ gt = false \/ lt = false /\ label_eq a b = true /\ gt = false \/ lt = false /\ label_eq a b = false /\ gt = true) /\
     le = (lt || label_eq a b)%bool /\ ge = (gt || label_eq a b)%bool) /\
  label_compare Ogt b a = label_compare Olt a b /\
  (label_compare Olt a b = Some true -> label_compare Olt b c = Some true -> label_compare Olt a c = Some true) /\
  (label_eq a b = true -> forall o, label_compare o a c = label_compare o b c /\ label_compare o c a = label_compare o c b).
Proof.
  intros Ha Hb Hc. split; [|split; [|split]].
  - rewrite !(label_compare_walk _ a b Ha Hb). do 4 eexists. split; [reflexivity|]. split; [reflexivity|]. split; [reflexivity|]. split; [reflexivity|].
    rewrite (s_eq_python a b Ha Hb). unfold veqb. cbn [vcmp]. destruct (scmp (l_data a) (l_data b)); cbn; intuition auto.
  - rewrite (label_compare_walk _ b a Hb Ha), (label_compare_walk _ a b Ha Hb), (lw_anti _ scmp_lawful (l_data a) (l_data b)). destruct (scmp (l_data a) (l_data b)); reflexivity.
  - rewrite (label_compare_walk _ a b Ha Hb), (label_compare_walk _ b c Hb Hc), (label_compare_walk _ a c Ha Hc). intros E1 E2.
    destruct (scmp (l_data a) (l_data b)) eqn:C1; try discriminate E1. destruct (scmp (l_data b) (l_data c)) eqn:C2; try discriminate E2.
    rewrite (lw_trans _ scmp_lawful _ _ _ _ C1 C2). reflexivity.
  - intros E o. rewrite (s_eq_python a b Ha Hb) in E. apply veqb_cmp in E. cbn [vcmp] in E.
    rewrite (label_compare_walk _ a c Ha Hc), (label_compare_walk _ b c Hb Hc), (label_compare_walk _ c a Hc Ha), (label_compare_walk _ c b Hc Hb).
    rewrite (lw_eq_l _ scmp_lawful _ _ (l_data c) E), (lw_eq_r _ scmp_lawful _ _ (l_data c) E). auto.
Qed.

(** ** Addition *)
Definition integral (a : label) : Prop := forall k v, lookup (l_data a) k = Some v -> exists z, v = NI z.
Definition has (a : label) (k : string) : Prop := lookup (l_data a) k <> None.
Definition count (a : label) (k : string) : Z := match lookup (l_data a) k with Some (NI z) => z | _ => 0 end.

Definition ints (d : list (string * num)) : Prop := forall k v, lookup d k = Some v -> exists z, v = NI z.
Definition cnt (d : list (string * num)) (k : string) : Z := match lookup d k with Some (NI z) => z | _ => 0 end.
Lemma add_steps b : forall d, NoDup (map fst b) -> ints d -> ints b ->
  exists d', foldM add_step d b = Ok d' /\ ints d' /\ (forall k, lookup d' k <> None <-> lookup d k <> None \/ lookup b k <> None) /\
    (forall k, cnt d' k = cnt d k + cnt b k).
Proof.
  induction b as [|[k v] b IH]; intros d N Id Ib.
  - exists d. repeat split; auto; [cbn; intuition congruence|]. intro k. unfold cnt at 3. cbn [lookup]. lia.
  - inversion N as [|? ? N1 N2]; subst. destruct (Ib k v) as (z & ->); [cbn [lookup]; rewrite String.eqb_refl; reflexivity|].
    cbn [foldM]. unfold add_step at 1. cbn [fst snd].
    assert (A : nadd (match lookup d k with Some v => v | None => NI 0 end) (NI z) = Ok (NI (cnt d k + z))).
    { unfold cnt. destruct (lookup d k) as [w|] eqn:E; [|reflexivity]. destruct (Id _ _ E) as (w' & ->). reflexivity. }
    rewrite A. cbn [bind].
    assert (NB : lookup b k = None) by (destruct (lookup b k) eqn:L; [|reflexivity]; exfalso; apply N1, lookup_key; congruence).
    destruct (IH (store d k (NI (cnt d k + z)))) as (d' & F & I' & D' & C'); [exact N2| | |].
    + intros m w. rewrite lookup_store. destruct (String.eqb k m); [intro E; injection E as <-; eauto|apply Id].
    + intros m w E. apply (Ib m w). cbn [lookup]. destruct (String.eqb_spec k m) as [<-|]; [congruence|exact E].
    + exists d'. split; [exact F|]. split; [exact I'|]. split.
      * intro m. rewrite D', lookup_store. cbn [lookup]. destruct (String.eqb_spec k m) as [<-|]; [split; intros _; [right; discriminate|left; discriminate]|reflexivity].
      * intro m. rewrite C'. unfold cnt. rewrite lookup_store. cbn [lookup]. destruct (String.eqb_spec k m) as [<-|]; [rewrite NB; unfold cnt; lia|reflexivity].
Qed.

Lemma add_counts a b : label_ok a -> label_ok b -> integral a -> integral b ->
  exists c, label_add a b = Ok c /\ label_ok c /\ integral c /\ (forall k, has c k <-> has a k \/ has b k) /\ (forall k, count c k = count a k + count b k).
Proof.
  intros [Na Ka] [Nb Kb] Ia Ib. destruct (add_steps (l_data b) (l_data a) Nb Ia Ib) as (d & F & I & D & C).
  exists (from_pairs d). unfold label_add. change (foldM _ (l_data a) (l_data b)) with (foldM add_step (l_data a) (l_data b)). rewrite F.
  split; [reflexivity|]. split; [apply from_pairs_ok, (add_steps_nodup _ _ _ Na F)|]. auto.
Qed.

Lemma eq_counts a b : label_ok a -> label_ok b -> integral a -> integral b ->
  (label_eq a b = true <-> (forall k, has a k <-> has b k) /\ (forall k, count a k = count b k)).
Proof.
  intros Ha Hb Ia Ib. rewrite (label_eq_spec a b Ha Hb). unfold has, count. split.
  - intro H. split; intro k; specialize (H k); unfold same_coef in H; destruct (lookup (l_data a) k) as [v|] eqn:E, (lookup (l_data b) k) as [w|] eqn:E'; try contradiction; try (intuition congruence).
    destruct (Ia _ _ E) as (z & ->). destruct (Ib _ _ E') as (z' & ->). unfold neqb in H. rewrite ncmp_int in H. destruct (Z.compare_spec z z'); congruence.
  - intros [H C] k. specialize (H k). specialize (C k). unfold same_coef. destruct (lookup (l_data a) k) as [v|] eqn:E, (lookup (l_data b) k) as [w|] eqn:E'; try (exfalso; intuition congruence); auto.
    destruct (Ia _ _ E) as (z & ->). destruct (Ib _ _ E') as (z' & ->). subst z'. unfold neqb. rewrite ncmp_int, Z.compare_refl. reflexivity.
Qed.

Lemma add_comm a b : label_ok a -> label_ok b -> integral a -> integral b ->
  exists c c', label_add a b = Ok c /\ label_add b a = Ok c' /\ label_eq c c' = true.
Proof.
  intros Ha Hb Ia Ib. destruct (add_counts a b Ha Hb Ia Ib) as (c & E & Oc & Ic & D & C). destruct (add_counts b a Hb Ha Ib Ia) as (c' & E' & Oc' & Ic' & D' & C').
  exists c, c'. split; [exact E|]. split; [exact E'|]. apply eq_counts; try assumption. split; intro k; [rewrite D, D'; tauto|rewrite C, C'; lia].
Qed.
Lemma add_assoc a b c : label_ok a -> label_ok b -> label_ok c -> integral a -> integral b -> integral c ->
  exists ab ab_c bc a_bc, label_add a b = Ok ab /\ label_add ab c = Ok ab_c /\ label_add b c = Ok bc /\ label_add a bc = Ok a_bc /\ label_eq ab_c a_bc = true.
Proof.
  intros Ha Hb Hc Ia Ib Ic.
  destruct (add_counts a b Ha Hb Ia Ib) as (x & E1 & O1 & I1 & D1 & C1). destruct (add_counts x c O1 Hc I1 Ic) as (y & E2 & O2 & I2 & D2 & C2).
  destruct (add_counts b c Hb Hc Ib Ic) as (z & E3 & O3 & I3 & D3 & C3). destruct (add_counts a z Ha O3 Ia I3) as (w & E4 & O4 & I4 & D4 & C4).
  exists x, y, z, w. repeat (split; [assumption|]). apply eq_counts; try assumption. split; intro k; [rewrite D2, D1, D4, D3; tauto|rewrite C2, C1, C4, C3; lia].
Qed.
(** equal labels may be exchanged in a sum *)
Lemma add_congr a a' b b' : label_ok a -> label_ok a' -> label_ok b -> label_ok b' -> integral a -> integral a' -> integral b -> integral b' ->
  label_eq a a' = true -> label_eq b b' = true -> exists c c', label_add a b = Ok c /\ label_add a' b' = Ok c' /\ label_eq c c' = true.
Proof.
  intros Ha Ha' Hb Hb' Ia Ia' Ib Ib' E1 E2. apply eq_counts in E1; try assumption. apply eq_counts in E2; try assumption. destruct E1 as [H1 C1], E2 as [H2 C2].
  destruct (add_counts a b Ha Hb Ia Ib) as (c & E & Oc & Ic & D & C). destruct (add_counts a' b' Ha' Hb' Ia' Ib') as (c' & E' & Oc' & Ic' & D' & C').
  exists c, c'. split; [exact E|]. split; [exact E'|]. apply eq_counts; try assumption. split; intro k; [rewrite D, D', H1, H2; tauto|rewrite C, C', C1, C2; lia].
Qed.
