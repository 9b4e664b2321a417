(** Lines, indentation and blocks of a text that is put together from pieces. *)
From Coq Require Import String Ascii Bool List Arith Lia.
From Verif Require Import LexModel ResolveModel CompileFacts PySpec PyLexFacts PyReady.
Import ListNotations.
Open Scope string_scope.
Open Scope list_scope.

(** ** Lines *)

Definition nonl (s : string) : bool :=
  forallb (fun c => negb (Ascii.eqb c c_newline)) (list_ascii_of_string s).

Lemma nonl_app : forall a b, nonl (a ++ b) = nonl a && nonl b.
Proof. intros a b. unfold nonl. now rewrite string_app_chars, forallb_app. Qed.

Lemma split_is_lines : forall s, split_lines s = py_lines s.
Proof. induction s as [|c s IH]; [reflexivity|]. cbn [split_lines py_lines]. rewrite IH. reflexivity. Qed.

Lemma lines_some : forall s, exists l ls, py_lines s = l :: ls.
Proof.
  intros [|c s]; cbn [py_lines]; [eauto|]. destruct (Ascii.eqb c c_newline); [eauto|].
  destruct (py_lines s); eauto.
Qed.

Lemma lines_nl : forall a b, py_lines (a ++ nl ++ b) = py_lines a ++ py_lines b.
Proof.
  intros a b. induction a as [|c a IH]; [reflexivity|].
  change ((String c a ++ nl ++ b)%string) with (String c (a ++ nl ++ b)). cbn [py_lines]. rewrite IH.
  destruct (Ascii.eqb c c_newline); [reflexivity|].
  destruct (lines_some a) as [l [ls E]]. rewrite E. reflexivity.
Qed.

Lemma lines_single : forall s, nonl s = true -> py_lines s = [s].
Proof.
  induction s as [|c s IH]; intros H; [reflexivity|].
  unfold nonl in H. cbn [list_ascii_of_string forallb] in H. apply andb_prop in H. destruct H as [H1 H2].
  cbn [py_lines]. apply negb_true_iff in H1. rewrite H1, IH by exact H2. reflexivity.
Qed.

Lemma lines_nonl : forall s, Forall (fun l => nonl l = true) (py_lines s).
Proof.
  induction s as [|c s IH]; [repeat constructor|]. cbn [py_lines].
  destruct (Ascii.eqb c c_newline) eqn:E; [constructor; [reflexivity|exact IH]|].
  destruct (py_lines s) as [|l ls]; constructor.
  - unfold nonl. cbn [list_ascii_of_string forallb]. now rewrite E.
  - constructor.
  - pose proof (Forall_inv IH) as N. unfold nonl in *. cbn [list_ascii_of_string forallb]. now rewrite E, N.
  - exact (Forall_inv_tail IH).
Qed.

Lemma lines_join : forall ls, ls <> [] -> Forall (fun l => nonl l = true) ls -> py_lines (join nl ls) = ls.
Proof.
  induction ls as [|l ls IH]; intros N F; [contradiction|]. rewrite join_cons.
  pose proof (lines_single l (Forall_inv F)) as E. destruct ls as [|m ls]; [exact E|].
  rewrite lines_nl, E, IH; [reflexivity|discriminate|exact (Forall_inv_tail F)].
Qed.

Lemma indent_nonl : forall l, nonl l = true -> nonl ("  " ++ l) = true.
Proof. intros l H. exact H. Qed.

Lemma lines_indent : forall s, py_lines (indent_str s) = map (fun x => "  " ++ x)%string (py_lines s).
Proof.
  intros s. unfold indent_str. replace (split_lines s) with (py_lines s) by (symmetry; apply split_is_lines). apply lines_join.
  - destruct (lines_some s) as [l [ls E]]. rewrite E. discriminate.
  - apply Forall_map. refine (Forall_impl _ _ (lines_nonl s)). exact indent_nonl.
Qed.

(** ** Lines that count *)

Definition deeper (l : nat * string) : nat * string := (2 + fst l, snd l).

Lemma code_nl : forall a b, code_lines (a ++ nl ++ b) = code_lines a ++ code_lines b.
Proof. intros a b. unfold code_lines. now rewrite lines_nl, map_app, filter_app. Qed.

Lemma code_empty : code_lines "" = [].
Proof. reflexivity. Qed.

Lemma code_end : forall a, code_lines (a ++ nl) = code_lines a.
Proof. intros a. change nl with (nl ++ "")%string. rewrite code_nl, code_empty. apply app_nil_r. Qed.

Lemma code_indent : forall s, code_lines (indent_str s) = map deeper (code_lines s).
Proof.
  intros s. unfold code_lines. rewrite lines_indent. rewrite map_map.
  induction (py_lines s) as [|l ls IH]; [reflexivity|]. cbn [map filter].
  assert (E : indentation ("  " ++ l) = deeper (indentation l)).
  { cbn. destruct (indentation l). reflexivity. }
  rewrite E, IH. cbn [deeper snd]. destruct (negb (String.eqb (snd (indentation l)) "")); reflexivity.
Qed.

(** A line by itself: it begins with a letter or @. *)
Definition line_ok (s : string) : bool :=
  match s with String c _ => py_letter c || Ascii.eqb c "@" | EmptyString => false end && nonl s.

Lemma line_start : forall s, line_ok s = true ->
  exists c r, s = String c r /\ Ascii.eqb c " " = false /\ is_space c = false.
Proof.
  intros [|c r] H; [discriminate|]. exists c, r. split; [reflexivity|].
  unfold line_ok in H. apply andb_prop in H. destruct H as [H _]. clear r.
  destruct c as [[] [] [] [] [] [] [] []]; vm_compute in H |- *; split; congruence.
Qed.

Lemma code_one : forall s, line_ok s = true -> code_lines s = [(0, s)].
Proof.
  intros s H. destruct (line_start s H) as [c [r [-> [N _]]]].
  unfold line_ok in H. apply andb_prop in H. destruct H as [_ H].
  unfold code_lines. rewrite lines_single by exact H. cbn [map indentation]. rewrite N. reflexivity.
Qed.

Lemma line_not_blank : forall s, line_ok s = true -> is_blank s = false.
Proof.
  intros s H. destruct (line_start s H) as [c [r [-> [_ N]]]]. cbn [is_blank]. now rewrite N.
Qed.

(** ** Blank lines may go *)

Lemma blank_indentation : forall s, is_blank s = true -> is_blank (snd (indentation s)) = true.
Proof.
  induction s as [|c s IH]; intros H; [reflexivity|]. cbn [is_blank] in H. apply andb_prop in H.
  destruct H as [H1 H2]. cbn [indentation]. destruct (Ascii.eqb c " ").
  - destruct (indentation s) as [n t]. cbn [snd] in *. now apply IH.
  - cbn [snd is_blank]. now rewrite H1, H2.
Qed.

Definition counts (l : nat * string) : bool := negb (String.eqb (snd l) "").

Lemma drop_code : forall ls p,
  Forall (fun l => is_blank (snd l) = false) (filter counts (map indentation ls)) ->
  filter counts (map indentation (drop_blank_after p ls)) = filter counts (map indentation ls).
Proof.
  induction ls as [|x ls IH]; intros p F; [reflexivity|]. cbn [drop_blank_after].
  assert (F' : Forall (fun l => is_blank (snd l) = false) (filter counts (map indentation ls))).
  { cbn [map filter] in F. destruct (counts (indentation x)); [exact (Forall_inv_tail F)|exact F]. }
  destruct (negb (is_blank x) || negb (is_blank p)) eqn:E.
  - cbn [map filter]. rewrite IH by exact F'. reflexivity.
  - apply orb_false_elim in E. destruct E as [E _]. apply negb_false_iff in E.
    rewrite IH by exact F'. cbn [map filter] in *. destruct (counts (indentation x)); [|reflexivity].
    apply blank_indentation in E. pose proof (Forall_inv F) as F1. cbn beta in F1. congruence.
Qed.

Lemma code_squeeze : forall s, Forall (fun l => is_blank (snd l) = false) (code_lines s) ->
  code_lines (squeeze s) = code_lines s.
Proof.
  intros s F. unfold squeeze. replace (split_lines s) with (py_lines s) by (symmetry; apply split_is_lines). pose proof (lines_nonl s) as N.
  unfold code_lines in *. fold counts in *. destruct (py_lines s) as [|x ls]; [reflexivity|].
  assert (D : forall ls p, Forall (fun l => nonl l = true) ls -> Forall (fun l => nonl l = true) (drop_blank_after p ls)).
  { clear. induction ls as [|x ls IH]; intros p F; [constructor|]. cbn [drop_blank_after].
    destruct (negb (is_blank x) || negb (is_blank p)).
    - constructor; [exact (Forall_inv F)|apply IH; exact (Forall_inv_tail F)].
    - apply IH. exact (Forall_inv_tail F). }
  rewrite lines_join.
  - cbn [map filter]. fold counts. fold counts in F. rewrite drop_code; [reflexivity|].
    cbn [map filter] in F. fold counts in F. destruct (counts (indentation x)); [exact (Forall_inv_tail F)|exact F].
  - discriminate.
  - constructor; [exact (Forall_inv N)|apply D; exact (Forall_inv_tail N)].
Qed.

(** ** Blocks *)

Section pblock_induction.
  Variable P : pblock -> Prop.
  Hypothesis HL : forall s, P (PLine s).
  Hypothesis HB : forall t body, Forall P body -> P (PBlock t body).
  Fixpoint pblock_ind2 (b : pblock) : P b :=
    match b with
    | PLine s => HL s
    | PBlock t body => HB t body ((fix go (l : list pblock) : Forall P l :=
        match l with [] => Forall_nil _ | x :: r => Forall_cons _ (pblock_ind2 x) (go r) end) body)
    end.
End pblock_induction.

Fixpoint flat (d : nat) (b : pblock) : list (nat * string) :=
  match b with
  | PLine s => [(d, s)]
  | PBlock t body => (d, t) :: flat_map (flat (2 + d)) body
  end.
Definition flats (d : nat) (bs : list pblock) : list (nat * string) := flat_map (flat d) bs.

Lemma flats_app : forall d a b, flats d (a ++ b) = flats d a ++ flats d b.
Proof. intros. unfold flats. apply flat_map_app. Qed.

Lemma flat_deeper : forall b d, map deeper (flat d b) = flat (2 + d) b.
Proof.
  refine (pblock_ind2 _ _ _).
  - reflexivity.
  - intros t body F d. cbn [flat map]. f_equal.
    induction F as [|b bs H F IH]; [reflexivity|]. cbn [flat_map]. now rewrite map_app, H, IH.
Qed.
Lemma flats_deeper : forall bs d, map deeper (flats d bs) = flats (2 + d) bs.
Proof. intros bs d. unfold flats. induction bs; [reflexivity|]. cbn [flat_map]. now rewrite map_app, flat_deeper, IHbs. Qed.

Inductive tidy : pblock -> Prop :=
| td_line t : ~ opens t -> line_ok t = true -> tidy (PLine t)
| td_block t body : opens t -> line_ok t = true -> body <> [] -> Forall tidy body -> tidy (PBlock t body).

Lemma tidy_lines : forall b, tidy b -> forall d, Forall (fun l => line_ok (snd l) = true) (flat d b).
Proof.
  refine (pblock_ind2 _ _ _).
  - intros s T d. inversion T; subst. constructor; [assumption|constructor].
  - intros t body F T d. inversion T as [|? ? O K NE TB]; subst. cbn [flat]. constructor; [exact K|].
    clear - F TB. induction F as [|b body H F IH]; [constructor|]. cbn [flat_map].
    apply Forall_app. split; [apply H; exact (Forall_inv TB)|apply IH; exact (Forall_inv_tail TB)].
Qed.

Definition not_below (d : nat) (r : list (nat * string)) : Prop :=
  match r with [] => True | (n, _) :: _ => n <= d end.

Lemma flat_head : forall b d, exists t r, flat d b = (d, t) :: r.
Proof. intros [s|t body] d; cbn [flat]; eauto. Qed.

Lemma blocks_flat : forall b, tidy b -> forall d r bs r', not_below d r ->
  blocks d r bs r' -> blocks d (flat d b ++ r) (b :: bs) r'.
Proof.
  refine (pblock_ind2 _ _ _).
  - intros s T d r bs r' N B. inversion T; subst. cbn [flat app]. now constructor.
  - intros t body F T d r bs r' N B. inversion T as [|? ? O K NE TB]; subst.
    assert (G : blocks (2 + d) (flat_map (flat (2 + d)) body ++ r) body r).
    { clear - F TB N. induction F as [|b body H F IH].
      - cbn [flat_map app]. destruct r as [|[n x] r]; constructor. cbn in N. lia.
      - cbn [flat_map]. rewrite <- app_assoc. apply H.
        + exact (Forall_inv TB).
        + destruct body as [|b2 body].
          * cbn [flat_map app]. destruct r as [|[n x] r]; cbn in *; lia || exact N.
          * cbn [flat_map]. destruct (flat_head b2 (2 + d)) as [x [rest E]]. rewrite E. cbn. lia.
        + apply IH. exact (Forall_inv_tail TB). }
    cbn [flat app]. destruct body as [|b2 body]; [contradiction|].
    cbn [flat_map] in *. destruct (flat_head b2 (2 + d)) as [x [rest E]]. rewrite E in *. cbn [app] in *.
    apply (bl_block d t (2 + d) x _ (b2 :: body) r bs r'); [exact O|lia|exact G|exact B].
Qed.

Lemma blocks_flats : forall bs, Forall tidy bs -> blocks 0 (flats 0 bs) bs [].
Proof.
  intros bs F. induction F as [|b bs H F IH]; [constructor|].
  unfold flats in *. cbn [flat_map]. apply blocks_flat; [exact H| |exact IH].
  destruct bs as [|b2 bs]; [exact Logic.I|]. cbn [flat_map]. destruct (flat_head b2 0) as [x [r E]].
  rewrite E. cbn. lia.
Qed.
