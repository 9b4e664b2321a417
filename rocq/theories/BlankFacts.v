(** Blank lines of compiled programs. *)
From Coq Require Import String Ascii Bool List ZArith Arith Lia.
From Verif Require Import PyBase LexModel LexSpec ParseModel SynSpec ResolveModel PySpec PyLines.
Import ListNotations.
Open Scope string_scope.
Open Scope nat_scope.
Open Scope list_scope.

(** The blanks of Python among the characters 0-255. *)
Definition blank_code (n : nat) : Prop := In n [9; 10; 11; 12; 13; 28; 29; 30; 31; 32; 133; 160].
Definition blank_line (s : string) : Prop := Forall (fun c => blank_code (nat_of_ascii c)) (list_ascii_of_string s).

Lemma space_code : forall c, is_space c = true <-> blank_code (nat_of_ascii c).
Proof.
  intros c. unfold blank_code. destruct c as [[] [] [] [] [] [] [] []]; vm_compute; split; intro H;
    try reflexivity; try discriminate H; try tauto; repeat destruct H as [H|H]; try discriminate H; contradiction.
Qed.

Lemma blank_iff : forall s, is_blank s = true <-> blank_line s.
Proof.
  unfold blank_line. induction s as [|c s IH]; cbn [is_blank list_ascii_of_string]; [split; constructor|].
  rewrite andb_true_iff, space_code, IH. split; [intros []; now constructor|].
  intros H. split; [exact (Forall_inv H)|exact (Forall_inv_tail H)].
Qed.

(** No two lines next to each other hold. *)
Fixpoint never_twice (P : string -> Prop) (l : list string) : Prop :=
  match l with
  | a :: (b :: _) as l' => ~ (P a /\ P b) /\ never_twice P l'
  | _ => True
  end.

Lemma drop_blank_once : forall ls p q, (is_blank p = true -> is_blank q = true) -> (is_blank q = true -> is_blank p = true) ->
  never_twice blank_line (q :: drop_blank_after p ls).
Proof.
  induction ls as [|x ls IH]; intros p q A B; [exact I|]. cbn [drop_blank_after].
  destruct (negb (is_blank x) || negb (is_blank p)) eqn:E.
  - split; [|now apply IH]. rewrite <- !blank_iff. intros [Q X]. rewrite X, (B Q) in E. discriminate.
  - apply orb_false_elim in E. destruct E as [E1 E2]. apply negb_false_iff in E1. apply negb_false_iff in E2.
    apply IH; auto.
Qed.

Lemma drop_nonl : forall ls p, Forall (fun l => nonl l = true) ls -> Forall (fun l => nonl l = true) (drop_blank_after p ls).
Proof.
  induction ls as [|x ls IH]; intros p F; [constructor|]. cbn [drop_blank_after].
  destruct (negb (is_blank x) || negb (is_blank p)).
  - constructor; [exact (Forall_inv F)|apply IH; exact (Forall_inv_tail F)].
  - apply IH. exact (Forall_inv_tail F).
Qed.

Lemma squeeze_once : forall s, never_twice blank_line (py_lines (squeeze s)).
Proof.
  intros s. unfold squeeze. replace (split_lines s) with (py_lines s) by (symmetry; apply split_is_lines).
  pose proof (lines_nonl s) as N. destruct (py_lines s) as [|x ls]; [exact I|]. rewrite lines_join.
  - now apply drop_blank_once.
  - discriminate.
  - constructor; [exact (Forall_inv N)|apply drop_nonl; exact (Forall_inv_tail N)].
Qed.

Lemma compiled_once : forall fl src text, compile fl src = Ok text -> never_twice blank_line (py_lines text).
Proof.
  intros fl src text H. unfold compile in H. destruct (is_blank src); [discriminate|].
  destruct (scan src) as [ts|]; [|discriminate]. destruct (parse ts) as [v|e]; [|discriminate].
  cbn [bind] in H. destruct v; try discriminate. unfold resolve in H.
  destruct (resolve_pass fl _) as [[t st]|e]; [|discriminate]. cbn [bind] in H.
  destruct (collides st).
  - destruct (fl_prefix fl); [discriminate|].
    destruct (resolve_pass _ _) as [[t' st']|e]; [|discriminate]. cbn [bind] in H.
    destruct (collides st'); [discriminate|]. injection H as <-. apply squeeze_once.
  - injection H as <-. apply squeeze_once.
Qed.

(** A blank text is refused. *)
Lemma blank_refused : forall fl src, blank_line src -> compile fl src = Err AssertErr.
Proof. intros fl src B. apply blank_iff in B. unfold compile. now rewrite B. Qed.
