(** C47: positions that count from zero. *)
From Coq Require Import String List ZArith Bool Lia.
From Verif Require Import PyBase Num Val RVModel UtilModel Obj AtModel DispModel Spec SeqSpec DispFacts SeqFacts BaseModel.
Import ListNotations.
Open Scope Z_scope.

Lemma get_item_entry s i : get_item s i = entry (i + 1 - ct_base s) (ct_seq s).
Proof. rewrite <- DispFacts.seq_get_entry. unfold get_item, seq_get. replace (i + 1 - ct_base s - 1) with (i - ct_base s) by lia. reflexivity. Qed.
Lemma mapM_pure {A B} (f : A -> B) l : mapM (fun a => Ok (f a)) l = Ok (map f l).
Proof. induction l as [|a l IH]; [reflexivity|]. cbn [mapM map]. now rewrite IH. Qed.

(** A sequence counts from one, as in C47, until [set_one_indexed(False)]; then position [k]
    is the one that was [k + 1].  [entry k l]: the entry at [k], counted from one, 0 outside. *)
Theorem C47_counting : forall l flags k,
  get_item (new_seq l) k = entry k l /\
  (let s := fold_left (fun s b => set_one_indexed b s) flags (new_seq l) in
   get_item (set_one_indexed false s) k = entry (k + 1) l /\ get_item (set_one_indexed true s) k = entry k l).
Proof.
  intros l flags k. split; [rewrite get_item_entry; cbn [new_seq ct_base ct_seq]; f_equal; lia|].
  assert (E : forall s, ct_seq (fold_left (fun s b => set_one_indexed b s) flags s) = ct_seq s).
  { induction flags as [|b flags IH]; intros s; [reflexivity|]. cbn [fold_left]. now rewrite IH. }
  cbv zeta. rewrite !get_item_entry. cbn [set_one_indexed ct_base ct_seq]. rewrite E. cbn [new_seq ct_seq]. split; f_equal; lia.
Qed.
Print Assumptions C47_counting.

(** So do the positions that [@] selects: those of a number, and of a sequence of integers,
    whichever way that one counts. *)
Theorem C47_counting_positions : forall l one k ks base,
  counted_at (oint k) (set_one_indexed one (new_seq l)) = Ok (OV (entry (if one then k else k + 1) l)) /\
  (Forall (fun v => v_is_int v = true) l ->
   let total := Ok (oint (sumZ (map (fun k => toZ (entry (if one then k else k + 1) l)) ks))) in
   counted_at (OSeq (map vint ks)) (set_one_indexed one (new_seq l)) = total /\
   counted_positions (mkCounted (map vint ks) base) (set_one_indexed one (new_seq l)) = total).
Proof.
  intros l one k ks base. split.
  - change (oint k) with (OV (VN (NI k))). cbn [counted_at]. rewrite get_item_entry. cbn [set_one_indexed new_seq ct_seq ct_base].
    assert (T : ntrunc (NI k) = k).
    { unfold ntrunc, nceil, nfloor, dy_floor. cbn [mant expo]. destruct (k <? 0); cbn; unfold shl; cbn; rewrite ?Z.div_1_r; lia. }
    rewrite T. do 3 f_equal. destruct one; lia.
  - intros F. cbv zeta.
    assert (S : sum_items (set_one_indexed one (new_seq l)) ks = Ok (vint (sumZ (map (fun k => toZ (entry (if one then k else k + 1) l)) ks)))).
    { unfold sum_items. pose proof (DispFacts.sum_at_ints l (map (fun k => if one then k else k + 1) ks) F) as H.
      unfold sum_at in H. change (obj_get (OSeq l)) with (fun i => Ok (seq_get l i)) in H. rewrite mapM_pure in H. cbn [bind] in H. rewrite !map_map in H.
      rewrite <- H. f_equal. apply map_ext. intros i. rewrite get_item_entry, DispFacts.seq_get_entry. cbn [set_one_indexed new_seq ct_seq ct_base].
      f_equal. destruct one; lia. }
    split.
    + cbn [counted_at bind seq_entries]. rewrite int_entries_ints. cbn [bind]. rewrite S. reflexivity.
    + unfold counted_positions. cbn [ct_seq]. rewrite int_entries_ints. cbn [bind]. rewrite S. reflexivity.
Qed.
Print Assumptions C47_counting_positions.

(** Counted from one it is the [@] of C47. *)
Theorem C47_counting_same : forall c o l, (forall x, o <> OSeq x) -> (forall x, o <> OSSeq x) ->
  (forall x, o <> ORV x) -> (forall b, o <> OBlank b) -> counted_at o (new_seq l) = matmul c o (OSeq l).
Proof.
  intros c o l A B R N.
  assert (G : forall i, get_item (new_seq l) i = seq_get l i) by (intros i; rewrite get_item_entry, DispFacts.seq_get_entry; cbn [new_seq ct_seq ct_base]; f_equal; lia).
  assert (S : forall zs, sum_items (new_seq l) zs = sum_at (OSeq l) zs).
  { intros zs. unfold sum_items, sum_at. change (obj_get (OSeq l)) with (fun i => Ok (seq_get l i)). rewrite mapM_pure. reflexivity. }
  destruct o as [[n|v]|s|x|x|x|x|b|]; try (exfalso; eapply A; reflexivity); try (exfalso; eapply B; reflexivity);
    try (exfalso; eapply R; reflexivity); try (exfalso; eapply N; reflexivity); cbn [matmul seq_rmatmul counted_at obj_get].
  - now rewrite G.
  - destruct (mk_seq [OV (VS v)]) as [t|e]; [|reflexivity]. cbn [bind]. destruct (int_entries (seq_entries t)); [|reflexivity]. cbn [bind]. now rewrite S.
  - destruct (mk_seq [OStr s]) as [t|e]; [|reflexivity]. cbn [bind]. destruct (int_entries (seq_entries t)); [|reflexivity]. cbn [bind]. now rewrite S.
  - destruct (mk_seq [OIter x]) as [t|e]; [|reflexivity]. cbn [bind]. destruct (int_entries (seq_entries t)); [|reflexivity]. cbn [bind]. now rewrite S.
  - destruct (mk_seq [ONone]) as [t|e]; [|reflexivity]. cbn [bind]. destruct (int_entries (seq_entries t)); [|reflexivity]. cbn [bind]. now rewrite S.
Qed.
Print Assumptions C47_counting_same.

Example C47_counting_example :
  let s := set_one_indexed false (new_seq (map vint [5; 0; 7])) in
  map (get_item s) [-1; 0; 2; 3] = map vint [0; 5; 7; 0] /\
  counted_at (OSeq (map vint [0; 2; 2; 3])) s = Ok (oint 19).
Proof. split; vm_compute; reflexivity. Qed.
