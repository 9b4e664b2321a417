(** Whatever its structure, Python reads the text of an expression whose words and
    numbers it takes. *)
From Coq Require Import String Ascii Bool List Arith Lia.
From Verif Require Import PyBase LexModel LexSpec GramModel ParseModel SynSpec SynInd NameSpec
  ResolveModel ResolveGen CompileFacts PySpec PyDet PyTrans PyLexFacts PyReady PyToks PyRead.
Import ListNotations.
Open Scope string_scope.
Open Scope list_scope.

(** ** Operands and operators in a row *)

Definition primary (ts : list ptok) : Prop := exists q, forall r, stops 7 r -> reads 7 (ts ++ r) q r.

(** Signs and a primary. *)
Inductive operand : list ptok -> Prop :=
| od_primary ts : primary ts -> operand ts
| od_sign o ts : In o ["+"; "-"; "~"] -> operand ts -> operand (PO o :: ts).

Definition infixes : list string := comparisons ++ ["|"; "&"; "+"; "-"; "*"; "@"; "//"; "**"].

Definition row : Set := list (string * list ptok).
Definition laid (l : row) : list ptok := flat_map (fun x => PO (fst x) :: snd x) l.
Definition proper (l : row) : Prop := Forall (fun x => In (fst x) infixes /\ operand (snd x)) l.

Definition flat (ts : list ptok) : Prop := exists u l, operand u /\ proper l /\ ts = u ++ laid l.

Definition halts (k : nat) (l : row) : Prop := match l with [] => True | (o, _) :: _ => ~ In o (cont k) end.

Lemma halts_stops : forall k l r, halts k l -> stops 0 r -> stops k (laid l ++ r).
Proof. intros k [|[o ts] l] r H T; [exact (stops_le 0 k r ltac:(lia) T)|exact H]. Qed.

Lemma stops_0_le : forall k r, stops 0 r -> stops k r.
Proof. intros k r. apply stops_le. lia. Qed.

(** Level [k] reads a part of the row. *)
Definition level (k : nat) : Prop := forall u l, operand u -> proper l ->
  exists q l', halts k l' /\ proper l' /\ length l' <= length l /\
    forall r, stops 0 r -> reads k (u ++ laid l ++ r) q (laid l' ++ r).

Ltac four := split; [|split; [|split]].

Lemma level_5 : level 5.
Proof.
  intros u l U P.
  assert (ALL : forall n l, length l <= n -> forall u, operand u -> proper l ->
    exists q l', halts 5 l' /\ proper l' /\ length l' <= length l /\
      forall r, stops 0 r -> reads 5 (u ++ laid l ++ r) q (laid l' ++ r)).
  2: exact (ALL _ l (le_n _) u U P).
  clear. induction n as [n IH] using (well_founded_induction Wf_nat.lt_wf). intros l N u U. induction U as [u [q U]|o u I U IHU]; intros P.
  - destruct l as [|[o v] l].
    + exists q, []. four; [exact Logic.I|constructor|lia|]. intros r T. cbn [laid flat_map app].
      apply (lift 7); [lia|lia| |now apply stops_0_le]. apply U. now apply stops_0_le.
    + destruct (string_dec o "**") as [->|NE].
      * inversion P as [|? ? [_ V] P']; subst. cbn [snd length] in *.
        destruct (IH (length l) ltac:(lia) l (le_n _) v V P') as [q2 [l' [H [P2 [L R]]]]].
        exists (PBinary "**" q q2), l'. four; [exact H|exact P2|lia|]. intros r T.
        apply step; [lia| |exact (halts_stops 5 l' r H T)].
        cbn [laid flat_map fst snd app]. rewrite <- app_assoc.
        apply (rd_pow _ _ (v ++ laid l ++ r)); [|exact (R r T)].
        apply U. cbn. intros J. decompose [or] J; try discriminate; contradiction.
      * assert (H5 : halts 5 ((o, v) :: l)).
        { inversion P as [|? ? [IO _] _]; subst. cbn [fst] in IO. cbn [halts]. intros J. cbn in IO, J.
          decompose [or] J; subst; try congruence; decompose [or] IO; try discriminate; contradiction. }
        exists q, ((o, v) :: l). four; [exact H5|exact P|lia|]. intros r T.
        pose proof (halts_stops 5 _ r H5 T) as S5.
        apply (lift 7); [lia|lia| |exact S5]. apply U. apply (stops_le 5); [lia|exact S5].
  - destruct (IHU P) as [q [l' [H [P2 [L R]]]]]. exists (PUnary o q), l'. four; [exact H|exact P2|exact L|].
    intros r T. apply rd_un; [exact I|exact (R r T)].
Qed.

Lemma cont_loop : forall k o, 1 <= k <= 4 -> ~ In o (cont (S k)) -> ~ In o (level_ops k) -> ~ In o (cont k).
Proof.
  intros k o K A B C. destruct k as [|[|[|[|[|k]]]]]; try lia; cbn in A, B, C; tauto.
Qed.

Lemma level_loop : forall k, 1 <= k <= 4 -> level (S k) -> level k.
Proof.
  intros k K IH u l U P. destruct (IH u l U P) as [a [l1 [H1 [P1 [L1 R1]]]]].
  assert (LOOP : forall n l a, length l <= n -> halts (S k) l -> proper l ->
    exists e l', halts k l' /\ proper l' /\ length l' <= length l /\
      forall r, stops 0 r -> loop k a (laid l ++ r) e (laid l' ++ r)).
  { clear - IH K. induction n as [|n IHn]; intros l a N H P.
    - destruct l; [|cbn in N; lia]. exists a, []. four; [exact Logic.I|constructor|lia|].
      intros r T. constructor. pose proof (stops_0_le k r T) as Sk. revert Sk. apply next_not_incl.
      intros x I. destruct k as [|[|[|[|[|k]]]]]; cbn in I |- *; try tauto; lia.
    - destruct l as [|[o v] l].
      { exists a, []. four; [exact Logic.I|constructor|lia|].
        intros r T. constructor. pose proof (stops_0_le k r T) as Sk. revert Sk. apply next_not_incl.
        intros x I. destruct k as [|[|[|[|[|k]]]]]; cbn in I |- *; try tauto; lia. }
      destruct (in_dec string_dec o (level_ops k)) as [IO|NO].
      + inversion P as [|? ? [_ V] P']; subst. cbn [snd length] in *.
        destruct (IH v l V P') as [b [l1 [H1 [P1 [L1 R1]]]]].
        destruct (IHn l1 (PBinary o a b) ltac:(lia) H1 P1) as [e [l2 [H2 [P2 [L2 R2]]]]].
        exists e, l2. four; [exact H2|exact P2|lia|]. intros r T. cbn [laid flat_map fst snd app].
        rewrite <- app_assoc. eapply lp_more; [exact IO|exact (R1 r T)|exact (R2 r T)].
      + exists a, ((o, v) :: l). four; [exact (cont_loop k o K H NO)|exact P|lia|].
        intros r T. constructor. exact NO. }
  destruct (LOOP _ l1 a (le_n _) H1 P1) as [e [l2 [H2 [P2 [L2 R2]]]]].
  exists e, l2. four; [exact H2|exact P2|lia|]. intros r T.
  exact (rd_bin k _ a _ e _ K (R1 r T) (R2 r T)).
Qed.

Lemma level_1 : level 1.
Proof. do 4 (apply level_loop; [lia|]). exact level_5. Qed.

Lemma flat_reads : forall ts, flat ts -> exists q, reads_as ts q.
Proof.
  intros ts [u [l [U [P ->]]]]. destruct (level_1 u l U P) as [a [l1 [H1 [P1 [_ R1]]]]].
  assert (CHAIN : forall n l, length l <= n -> halts 1 l -> proper l ->
    exists es, forall r, stops 0 r -> chain (laid l ++ r) es r).
  { clear. induction n as [|n IHn]; intros l N H P.
    - destruct l; [|cbn in N; lia]. exists []. intros r T. constructor. revert T. apply next_not_incl.
      intros x I. cbn in I |- *. tauto.
    - destruct l as [|[o v] l].
      { exists []. intros r T. constructor. revert T. apply next_not_incl. intros x I. cbn in I |- *. tauto. }
      inversion P as [|? ? [IO V] P']; subst. cbn [fst snd length] in *.
      destruct (level_1 v l V P') as [b [l1 [H1 [P1 [L1 R1]]]]].
      destruct (IHn l1 ltac:(lia) H1 P1) as [es R2].
      exists ((o, b) :: es). intros r T. cbn [laid flat_map fst snd app]. rewrite <- app_assoc.
      eapply ch_more; [|exact (R1 r T)|exact (R2 r T)].
      unfold infixes in IO. apply in_app_or in IO. destruct IO as [IO|IO]; [exact IO|].
      exfalso. apply H. cbn in IO |- *. tauto. }
  destruct (CHAIN _ l1 (le_n _) H1 P1) as [es R2].
  exists (match es with [] => a | _ => PCompare a es end). intros r T. rewrite <- app_assoc.
  exact (rd_cmp _ a _ es r (R1 r T) (R2 r T)).
Qed.

Lemma flat_operand : forall u, operand u -> flat u.
Proof. intros u U. exists u, []. repeat split; [exact U|constructor|]. now rewrite app_nil_r. Qed.

Lemma flat_infix : forall a o b, flat a -> In o infixes -> flat b -> flat (a ++ PO o :: b).
Proof.
  intros a o b [u [l [U [P ->]]]] I [v [m [V [Q ->]]]]. exists u, (l ++ (o, v) :: m). repeat split; [exact U| |].
  - apply Forall_app. split; [exact P|]. constructor; [split; assumption|exact Q].
  - unfold laid. rewrite flat_map_app. cbn [flat_map fst snd]. now rewrite <- !app_assoc.
Qed.

Lemma primary_call : forall f tss, py_name f -> Forall (fun ts => exists q, reads_as ts q) tss -> primary (call_toks f tss).
Proof.
  intros f tss N F. assert (E : exists es, Forall2 reads_as tss es).
  { induction F as [|ts tss [q H] F [es IH]]; [exists []; constructor|]. exists (q :: es). now constructor. }
  destruct E as [es E]. exists (call f es). intros r T. now apply read_call.
Qed.

Lemma primary_paren : forall ts, flat ts -> primary (PO "(" :: ts ++ [PO ")"]).
Proof.
  intros ts F. destruct (flat_reads ts F) as [q R]. exists q. intros r T. cbn [app]. rewrite <- app_assoc. cbn [app].
  apply atom; [|exact T]. apply rd_paren, R, stops_delim. cbn. tauto.
Qed.

(** ** Expressions *)

Section flat.
  Variable structure : bool.
  Variable fl : flags.
  Local Notation ok_e := (PyReady.ok_e structure true).
  Local Notation ok_t := (PyReady.ok_t structure true).
  Local Notation ok_l := (PyReady.ok_l structure true).
  Local Notation ok_c := (PyReady.ok_c structure true).

  Lemma operator_infix : forall o, In (py_operator o) infixes.
  Proof. intros []; cbn; tauto. Qed.

  Lemma flat_bin : forall o a b, flat a -> flat b -> flat (pt_bin fl o a b).
  Proof.
    intros o a b A B. unfold pt_bin. destruct (op_function fl o) as [f|] eqn:OF.
    - apply flat_operand, od_primary, primary_call.
      + apply name_ok. unfold op_function in OF. destruct (fl_oplib fl); [|discriminate].
        destruct o; try discriminate; injection OF as <-; reflexivity.
      + repeat constructor; now apply flat_reads.
    - pose proof (flat_infix a _ b A (operator_infix o) B) as F.
      destruct o; try exact F. now apply flat_operand, od_primary, primary_paren.
  Qed.

  Lemma operand_one : forall ts, operand ts -> exists q, reads_as ts q.
  Proof. intros ts H. now apply flat_reads, flat_operand. Qed.

  Theorem flat_gen :
    (forall e, ok_e fl e = true -> flat (pt_e fl e)) /\
    (forall t, ok_t fl t = true -> operand (pt_t fl t)) /\
    (forall x, ok_l fl x = true -> exists q, reads_as (pt_l fl x) q) /\
    (forall c, ok_c fl c = true -> Forall (fun ts => exists q, reads_as ts q) (pt_c fl c)).
  Proof.
    apply syn_ind.
    - intros o l r Hl Hr K. cbn [PyReady.ok_e] in K. apply andb_prop in K. destruct K as [_ K]. apply andb_prop in K.
      apply flat_bin; tauto.
    - intros n d Hn Hd K. cbn [PyReady.ok_e] in K. apply andb_prop in K. destruct K as [K1 K2].
      apply flat_operand, od_primary, primary_call; [apply name_ok; reflexivity|].
      repeat constructor; apply operand_one; auto.
    - intros d Hd K. apply flat_operand, od_primary, primary_call; [apply name_ok; reflexivity|].
      repeat constructor; apply operand_one; auto.
    - intros t Ht K. apply flat_operand, Ht, K.
    - intros s K. cbn [PyReady.ok_t] in K. apply andb_prop in K. destruct K as [_ K]. apply od_primary.
      exists (PNumber s). intros r T. apply atom; [|exact T]. constructor. now apply number_plain.
    - intros a b K. apply od_primary. exists (PNumber (a ++ "." ++ b)). intros r T. apply atom; [|exact T]. constructor.
      intros _. right. rewrite !string_app_chars. apply in_or_app. right. left. reflexivity.
    - intros x K. cbn [PyReady.ok_t] in K. unfold ok_var in K. apply andb_prop in K. destruct K as [_ K].
      apply negb_true_iff in K. apply od_primary. exists (variable fl x). intros r T.
      apply read_var; [now apply name_ok|exact T].
    - intros p ps K. apply od_primary. exists (py_str fl (p :: ps)). intros r T. apply atom; [|exact T].
      exact (read_str fl (p :: ps) r K).
    - intros es F K. apply od_primary.
      change (pt_t fl (TSeq es)) with (call_toks "get_seq" [PO "[" :: commas (map (pt_l fl) es) ++ [PO "]"]]).
      apply primary_call; [apply name_ok; reflexivity|]. constructor; [|constructor].
      assert (E : exists qs, Forall2 reads_as (map (pt_l fl) es) qs).
      { cbn [PyReady.ok_t] in K. clear - F K. induction F as [|x es H F IH]; [exists []; constructor|].
        cbn [forallb map] in *. apply andb_prop in K. destruct K as [K1 K2].
        destruct (H K1) as [q Hq], (IH K2) as [qs Hqs]. exists (q :: qs). now constructor. }
      destruct E as [qs E]. exists (PList qs). intros r T. cbn [app]. rewrite <- app_assoc. cbn [app].
      apply (lift 8); [lia|lia| |exact T]. apply rd_list. now apply read_items.
    - intros e He K. apply od_primary. apply primary_paren, He, K.
    - intros cs F K. cbn [PyReady.ok_t] in K. apply andb_prop in K. destruct K as [K1 K2].
      unfold ok_name in K1. apply andb_prop in K1. destruct K1 as [_ K1]. apply negb_true_iff in K1.
      apply od_primary.
      change (pt_t fl (TCall cs)) with (call_toks (mangle fl (call_shape cs))
        (flat_map (pt_c fl) cs ++ if fl_vars fl then [[PN "vars"]] else [])).
      apply primary_call; [now apply name_ok|]. apply Forall_app. split.
      + clear - F K2. induction F as [|c cs H F IH]; [constructor|].
        cbn [forallb flat_map] in *. apply andb_prop in K2. apply Forall_app. split; [apply H|apply IH]; tauto.
      + destruct (fl_vars fl); repeat constructor. exists (PName "vars"). exact vars_as.
    - intros u t Ht K. specialize (Ht K). cbn [pt_t]. unfold pt_un. destruct u.
      + apply od_sign; [cbn; tauto|exact Ht].
      + apply od_sign; [cbn; tauto|exact Ht].
      + destruct (fl_oplib fl); [|apply od_sign; [cbn; tauto|exact Ht]].
        apply od_primary, primary_call; [apply name_ok; reflexivity|]. repeat constructor. now apply operand_one.
    - intros t Ht K. apply od_primary.
      change (pt_t fl (THash t)) with (call_toks (if fl_oplib fl then "myLen" else "len") [pt_t fl t]).
      apply primary_call; [apply name_ok; destruct (fl_oplib fl); reflexivity|].
      repeat constructor. apply operand_one, Ht, K.
    - intros e He K. apply flat_reads, He, K.
    - intros a b Ha Hb K. cbn [PyReady.ok_l] in K. apply andb_prop in K. destruct K as [K1 K2].
      apply operand_one, od_primary.
      apply (primary_call "myrange" [pt_e fl a; pt_e fl b]); [apply name_ok; reflexivity|].
      repeat constructor; apply flat_reads; auto.
    - constructor.
    - intros e He K. constructor; [apply flat_reads, He, K|constructor].
  Qed.

  Theorem expression_readable : forall e, ok_e fl e = true -> exists q, reads_as (pt_e fl e) q.
  Proof. intros e K. apply flat_reads. exact (proj1 flat_gen e K). Qed.
End flat.
