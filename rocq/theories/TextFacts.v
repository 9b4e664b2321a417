(** Proofs about texts beside operators. *)
From Coq Require Import Ascii String List ZArith NArith QArith Bool Lia.
From Verif Require Import PyBase Spec Num Val UtilModel RVModel Obj DispModel MassFacts CmpFacts RVFacts ConvFacts DispFacts CastSpec CastFacts PrintModel PrintFacts TextSpec.
Import ListNotations.
Open Scope Z_scope.
Open Scope string_scope.
Open Scope list_scope.

(** ** Order *)

Lemma compare_before s : forall t, (String.compare s t = Lt <-> before s t).
Proof.
  induction s as [|a s IH]; intros [|b t]; cbn [String.compare].
  - split; [discriminate|intros H; inversion H].
  - split; [constructor|reflexivity].
  - split; [discriminate|intros H; inversion H].
  - unfold Ascii.compare. destruct (N.compare_spec (N_of_ascii a) (N_of_ascii b)) as [E|L|G].
    + apply (f_equal ascii_of_N) in E. rewrite !ascii_N_embedding in E. subst b. rewrite IH.
      split; [now constructor|]. intros H. inversion H; subst; [lia|assumption].
    + split; [now constructor|reflexivity].
    + split; [discriminate|]. intros H. inversion H; subst; lia.
Qed.
Lemma ltb_before s t : String.ltb s t = true <-> before s t.
Proof. rewrite <- compare_before. unfold String.ltb. destruct (String.compare s t); split; congruence. Qed.
Lemma leb_before s t : String.leb s t = true <-> before s t \/ s = t.
Proof.
  pose proof (compare_before s t) as B. pose proof (String.compare_eq_iff s t) as E. unfold String.leb.
  assert (X : (match String.compare s t with Gt => false | _ => true end) = true <-> String.compare s t = Lt \/ String.compare s t = Eq).
  { generalize (String.compare s t). intros [| |].
    - split; [now right|reflexivity].
    - split; [now left|reflexivity].
    - split; [discriminate|]. intros [H|H]; discriminate H. }
  rewrite X. split; (intros [H|H]; [left; now apply B|right]).
  - now apply String.compare_eq_iff.
  - subst t. clear. induction s as [|a s IH]; [reflexivity|]. cbn. unfold Ascii.compare. now rewrite N.compare_refl.
Qed.

(** ** Two texts *)

Lemma text_text c o s t : py_op c o (OStr s) (OStr t) =
  match text_op o s t with Err e => Err e | Ok (Some v) => Ok v | Ok None => Err TypeErr end.
Proof. unfold py_op. rewrite dispatch_S. unfold other_first. rewrite andb_false_r. destruct o; reflexivity. Qed.

Lemma text_compare c o s t : is_cmp o = true -> exists b : bool, py_op c o (OStr s) (OStr t) = Ok (OV (b01 b)) /\ (b = true <-> text_holds o s t).
Proof.
  intros C. rewrite text_text. destruct o; try discriminate C; cbn [text_op text_holds]; eexists; (split; [reflexivity|]).
  - apply String.eqb_eq.
  - rewrite negb_true_iff. apply String.eqb_neq.
  - apply ltb_before.
  - apply leb_before.
  - apply ltb_before.
  - rewrite leb_before. split; (intros [H|H]; [now left|now right]).
Qed.

(** ** Numbers *)

Lemma repeated_concat k s : repeated k s = String.concat "" (repeat s k).
Proof.
  induction k as [|k IH]; [reflexivity|]. cbn [repeated repeat]. rewrite IH. destruct k; cbn [repeat String.concat].
  - clear. induction s; cbn; congruence.
  - reflexivity.
Qed.
Lemma text_number c k s :
  py_op c OMul (OStr s) (OV (vint k)) = Ok (OStr (String.concat "" (repeat s (Z.to_nat k)))) /\
  py_op c OMul (OV (vint k)) (OStr s) = Ok (OStr (String.concat "" (repeat s (Z.to_nat k)))).
Proof. rewrite <- repeated_concat. split; reflexivity. Qed.
Lemma text_refuses c o s n : (o = OMul -> exists m e, n = NF m e) ->
  py_op c o (OV (VN n)) (OStr s) = match o with OEq => Ok (oint 0) | ONe => Ok (oint 1) | _ => Err TypeErr end /\
  (o <> OMod -> py_op c o (OStr s) (OV (VN n)) = match o with OEq => Ok (oint 0) | ONe => Ok (oint 1) | _ => Err TypeErr end).
Proof.
  intros H. split; [|intros M]; destruct o; try reflexivity; try congruence; destruct (H eq_refl) as (m & e & ->); reflexivity.
Qed.

(** ** Dice *)

Lemma letters_labels s : all_some (map leaf_val (letters s)) = Some (labels s).
Proof. unfold letters, labels. induction (list_ascii_of_string s) as [|a l IH]; [reflexivity|]. cbn [map leaf_val all_some]. rewrite IH. reflexivity. Qed.
Lemma letters_flat s : flatten (letters s) = letters s.
Proof. unfold flatten, letters. induction (list_ascii_of_string s) as [|a l IH]; [reflexivity|]. cbn [map flat_map flat1 app]. now rewrite IH. Qed.
Lemma letters_plain s : filter (fun o => negb (is_meta_rv o)) (letters s) ++ map OV (flat_map rv_leaf_vals (letters s)) = letters s.
Proof.
  assert (A : filter (fun o => negb (is_meta_rv o)) (letters s) = letters s)
    by (unfold letters; induction (list_ascii_of_string s) as [|a l IH]; [reflexivity|]; cbn [map filter is_meta_rv negb]; now rewrite IH).
  assert (B : flat_map rv_leaf_vals (letters s) = [])
    by (unfold letters; induction (list_ascii_of_string s) as [|a l IH]; [reflexivity|]; exact IH).
  rewrite A, B. apply app_nil_r.
Qed.
Lemma seq_of_letters s : get_seq (letters s) = if String.eqb s "" then Ok (OSeq []) else Ok (OSSeq (labels s)).
Proof.
  destruct s as [|a s]; [reflexivity|]. unfold get_seq. rewrite letters_flat, letters_plain.
  assert (E : existsb is_label_leaf (letters (String a s)) = true) by reflexivity. rewrite E, letters_labels. reflexivity.
Qed.
Lemma seq_of_text s : mk_seq (letters s) = if String.eqb s "" then Ok (OSeq []) else Err AssertErr.
Proof. destruct s as [|a s]; [reflexivity|]. reflexivity. Qed.

Lemma die_text c o x s : s <> "" -> py_op c o (ORV x) (OStr s) = Err AttrErr /\ (o <> OMod -> py_op c o (OStr s) (ORV x) = Err AttrErr).
Proof.
  intros N. apply String.eqb_neq in N.
  assert (F : forall o, convolve c o x (OStr s) = Err AttrErr) by (intros o'; unfold convolve; now rewrite seq_of_letters, N).
  assert (R : rconvolve c o x (OStr s) = Err AttrErr) by (unfold rconvolve; now rewrite seq_of_letters, N).
  unfold py_op. rewrite !dispatch_S. unfold other_first. rewrite !andb_false_r. split.
  - cbn [fwd]. now rewrite F.
  - intros M. assert (E : fwd (dispatch 2 c) c o (OStr s) (ORV x) = nimpl) by (destruct o; try reflexivity; congruence).
    rewrite E. unfold nimpl. cbn [bind]. unfold rev_op. destruct (is_cmp o); [cbn [fwd]; now rewrite F|now rewrite R].
Qed.
Lemma die_no_text c o x : py_op c o (ORV x) (OStr "") = py_op c o (ORV x) (oint 0) /\
  (o <> OMod -> py_op c o (OStr "") (ORV x) = py_op c o (oint 0) (ORV x)).
Proof.
  unfold py_op. rewrite !dispatch_S. unfold other_first. rewrite !andb_false_r.
  assert (F : forall o, fwd (dispatch 2 c) c o (ORV x) (OStr "") = fwd (dispatch 2 c) c o (ORV x) (oint 0)) by (intros o'; reflexivity).
  assert (R : rconvolve c o x (OStr "") = rconvolve c o x (oint 0)) by reflexivity.
  assert (D : forall o', exists v, fwd (dispatch 2 c) c o' (ORV x) (oint 0) = done v) by (intros o'; eexists; reflexivity).
  split.
  - rewrite F. destruct (D o) as [[v|e] ->]; reflexivity.
  - intros M. assert (E : fwd (dispatch 2 c) c o (OStr "") (ORV x) = nimpl) by (destruct o; try reflexivity; congruence).
    rewrite E. change (fwd (dispatch 2 c) c o (oint 0) (ORV x)) with nimpl. unfold nimpl. cbn [bind]. unfold rev_op.
    destruct (is_cmp o); [rewrite F; destruct (D (mirror o)) as [[v|e] ->]; reflexivity|].
    rewrite R. unfold rconvolve, oint, done. destruct (const_op_rv c o (vint 0) (rv_dist x)); reflexivity.
Qed.

(** ** Sequences *)

Lemma seq_text c o l s : is_cmp o = true -> s <> "" ->
  py_op c o (OSeq l) (OStr s) = Err AssertErr /\ py_op c o (OStr s) (OSeq l) = Err AssertErr.
Proof.
  intros C N. apply String.eqb_neq in N. unfold py_op. rewrite !dispatch_S. unfold other_first. rewrite !andb_false_r.
  assert (F : forall d o', is_cmp o' = true -> fwd d c o' (OSeq l) (OStr s) = Err AssertErr).
  { intros d o' C'. cbn [fwd]. unfold seq_fwd. rewrite C'. unfold compare_to. now rewrite seq_of_text, N. }
  split.
  - now rewrite (F _ o C).
  - assert (E : fwd (dispatch 2 c) c o (OStr s) (OSeq l) = nimpl) by (destruct o; try reflexivity; discriminate C).
    rewrite E. unfold nimpl. cbn [bind]. unfold rev_op. rewrite C, F; [reflexivity|]. destruct o; try discriminate C; reflexivity.
Qed.
Lemma seq_no_text c o l : is_cmp o = true -> py_op c o (OSeq l) (OStr "") = py_op c o (OSeq l) (OSeq []).
Proof.
  intros C. unfold py_op. rewrite !dispatch_S. unfold other_first. rewrite !andb_false_r. cbn [fwd]. unfold seq_fwd. rewrite C. reflexivity.
Qed.
Lemma seq_text_sum c o l s z : is_cmp o = false -> seq_sum l = Ok z ->
  py_op c o (OSeq l) (OStr s) = py_op c o (OV z) (OStr s) /\
  (o <> OMod -> py_op c o (OStr s) (OSeq l) = py_op c o (OStr s) (OV z)).
Proof.
  intros C E. rewrite <- (dispatch_enough 4 c o (OSeq l)), <- (dispatch_enough 4 c o (OStr s) (OSeq l)) by lia. unfold py_op. rewrite !(dispatch_S 3). unfold other_first. rewrite !andb_false_r.
  split.
  - cbn [fwd]. unfold seq_fwd. rewrite C. cbn [meta_sum]. rewrite E. cbn [bind]. destruct (is_bool o); unfold done; now destruct (dispatch 3 c o (OV z) (OStr s)).
  - intros M. assert (X : fwd (dispatch 3 c) c o (OStr s) (OSeq l) = nimpl) by (destruct o; try reflexivity; congruence).
    rewrite X. unfold nimpl. cbn [bind]. unfold rev_op. rewrite C. unfold seq_rev. cbn [meta_sum]. rewrite E. cbn [bind].
    destruct (is_bool o); unfold done; now destruct (dispatch 3 c o (OStr s) (OV z)).
Qed.

(** ** Reports *)

Lemma text_die c s : cfg_trunc c = false -> exists x, get_rv c (OStr s) = Ok x /\ fair_die (labels s) x.
Proof.
  intros T. cbn [get_rv]. unfold from_iter. rewrite seq_of_letters. destruct (String.eqb s "") eqn:E; cbn [bind seq_entries].
  - apply String.eqb_eq in E. subst s. exact (from_seq_fair c [] T).
  - exact (from_seq_fair c (labels s) T).
Qed.
Lemma text_report c show ftext square w0 s named show_pdf width cut : cfg_trunc c = false ->
  exists x, fair_die (labels s) x /\
    report c show ftext square w0 (OStr s) named show_pdf width cut = report c show ftext square w0 (ORV x) named show_pdf width cut.
Proof.
  intros T. destruct (text_die c s T) as [x [E F]]. exists x. split; [exact F|]. unfold report. rewrite E. reflexivity.
Qed.

(** ** None beside a die *)

Lemma none_die_fails c o x : proper (rv_dist x) -> none_op o = (fun _ => Err TypeErr) -> rv_map c (none_op o) (rv_dist x) = Err TypeErr.
Proof.
  intros [_ T] E. unfold rv_map. rewrite E. destruct (rv_dist x) as [|[v p] d]; [discriminate T|]. reflexivity.
Qed.
Lemma none_die_const c o x k : cfg_trunc c = false -> proper (rv_dist x) -> none_op o = (fun _ => Ok (vint k)) ->
  exists y, rv_map c (none_op o) (rv_dist x) = Ok y /\ (Pr (rv_dist y) (vint k) == 1)%Q.
Proof.
  intros Tr P E. destruct (proj2 (rv_map_succeeds c (none_op o) (rv_dist x) Tr (proj1 P))) as [y Y]; [intros a _; rewrite E; now exists (vint k)|].
  exists y. split; [exact Y|]. destruct (rv_map_law c _ _ y Tr P Y) as [L _]. rewrite L. rewrite E. unfold PrP.
  assert (M : mass (fun a : pval => yields (Ok (vint k)) (vint k)) (rv_dist x) = total (rv_dist x)).
  { unfold total. apply mass_ext. intros a w _. unfold yields. rewrite veqb_int. apply Z.eqb_refl. }
  rewrite M. field. intros N. destruct P as [_ P]. unfold Qeq in N. cbn in N. lia.
Qed.
Lemma mapM_ext {A B} (f g : A -> res B) l : (forall a, f a = g a) -> mapM f l = mapM g l.
Proof. intros H. induction l as [|a l IH]; [reflexivity|]. cbn [mapM]. now rewrite H, IH. Qed.

Lemma none_dice c o x : cfg_trunc c = false -> proper (rv_dist x) ->
  match o with
  | OEq => exists y, py_op c o (ORV x) ONone = Ok (ORV y) /\ py_op c o ONone (ORV x) = Ok (ORV y) /\ (Pr (rv_dist y) (vint 0) == 1)%Q
  | ONe => exists y, py_op c o (ORV x) ONone = Ok (ORV y) /\ py_op c o ONone (ORV x) = Ok (ORV y) /\ (Pr (rv_dist y) (vint 1) == 1)%Q
  | OOr | OAnd => py_op c o (ORV x) ONone = py_op c o (ORV x) (oint 0) /\ py_op c o ONone (ORV x) = py_op c o (oint 0) (ORV x)
  | _ => py_op c o (ORV x) ONone = Err TypeErr /\ py_op c o ONone (ORV x) = Err TypeErr
  end.
Proof.
  intros Tr P.
  assert (F : forall o, py_op c o (ORV x) ONone = rmap ORV (rv_map c (none_op o) (rv_dist x))).
  { intros o'. unfold py_op. rewrite dispatch_S. unfold other_first. rewrite andb_false_r. cbn [fwd convolve]. unfold done.
    now destruct (rv_map c (none_op o') (rv_dist x)). }
  assert (R : forall o, py_op c o ONone (ORV x) = rmap ORV (rv_map c (none_op (if is_cmp o then mirror o else o)) (rv_dist x))).
  { intros o'. unfold py_op. rewrite dispatch_S. unfold other_first. rewrite andb_false_r. cbn [fwd]. unfold nimpl. cbn [bind]. unfold rev_op.
    destruct (is_cmp o'); cbn [fwd convolve rconvolve]; unfold done.
    - now destruct (rv_map c (none_op (mirror o')) (rv_dist x)).
    - now destruct (rv_map c (none_op o') (rv_dist x)). }
  rewrite !F, !R.
  destruct o; cbn [is_cmp mirror];
    try (rewrite !(none_die_fails c _ x P) by reflexivity; split; reflexivity).
  - destruct (none_die_const c OEq x 0 Tr P eq_refl) as [y [-> Y]]. exists y. split; [reflexivity|]. split; [reflexivity|exact Y].
  - destruct (none_die_const c ONe x 1 Tr P eq_refl) as [y [-> Y]]. exists y. split; [reflexivity|]. split; [reflexivity|exact Y].
  - change (oint 0) with (OV (VN (NI 0))). rewrite py_die_value, py_number_die by reflexivity. split; [reflexivity|]. f_equal. unfold const_op_rv, rv_map.
    f_equal. apply mapM_ext. intros a. cbn. now rewrite orb_comm.
  - change (oint 0) with (OV (VN (NI 0))). rewrite py_die_value, py_number_die by reflexivity. split; [reflexivity|]. f_equal. unfold const_op_rv, rv_map.
    f_equal. apply mapM_ext. intros a. cbn. now rewrite andb_comm.
Qed.
