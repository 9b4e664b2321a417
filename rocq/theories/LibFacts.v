(** Facts about the function library: sequences, numbers and single dice. *)
From Coq Require Import String List ZArith QArith Qabs Qminmax Bool Permutation Sorted Lia.
From Verif Require Import PyBase Num Val Sorting RVModel Obj RollModel RollSpec AtModel CastModel DispModel LibModel Spec SeqSpec CmpFacts SortFacts NumFacts MassFacts RVFacts OrderFacts SelectFacts MixFacts CastSpec CastFacts DispFacts SeqFacts.
Import ListNotations.
Open Scope Z_scope.

(** ** Evaluation of the pieces *)

Lemma mk_seq_iter l : mk_seq [OIter l] = mk_seq l.
Proof. unfold mk_seq, flatten. cbn [flat_map flat1]. rewrite app_nil_r. reflexivity. Qed.

Definition shaped (o : obj) (l : list pval) : Prop :=
  match o with OV v => l = [v] | OSeq l' => l = l' | _ => False end.

(** building a sequence from numbers and sequences *)
Lemma mk_seq_concat os ls : Forall2 shaped os ls -> Forall numbers ls -> mk_seq os = Ok (OSeq (concat ls)).
Proof.
  intros H N. assert (F : flatten os = map OV (concat ls)).
  { unfold flatten. induction H as [|o l os ls S F IH]; [reflexivity|]. inversion N as [|? ? N1 N2]; subst.
    cbn [flat_map concat]. rewrite map_app, IH by assumption. f_equal. destruct o; cbn in S; try contradiction; subst; reflexivity. }
  assert (NC : numbers (concat ls)).
  { clear -N. induction N as [|l ls N1 N2 IH]; [constructor|]. cbn. apply Forall_app. split; assumption. }
  rewrite <- (mk_seq_numbers _ NC). unfold mk_seq. rewrite F, flatten_values. reflexivity.
Qed.

Lemma entry_number k l : numbers l -> is_number (entry k l) = true.
Proof.
  intro N. unfold entry. destruct (_ && _) eqn:E; [|reflexivity].
  apply andb_true_iff in E as [A B]. apply Z.leb_le in A, B.
  apply (proj1 (Forall_forall _ _) N), nth_In. lia.
Qed.

Lemma positions_one_to n : positions n = one_to n.
Proof. reflexivity. Qed.

(** a loop over all positions of a sequence runs over its entries *)
Lemma fold_positions {S : Type} c (l : list pval) (g : S -> obj -> res S) (s : S) :
  foldM (fun s p => x <- matmul c (oint p) (OSeq l) ;; g s x) s (positions (Z.of_nat (length l))) =
  foldM (fun s v => g s (OV v)) s l.
Proof.
  assert (G : forall ps s, foldM (fun s p => x <- matmul c (oint p) (OSeq l) ;; g s x) s ps =
    foldM (fun s v => g s (OV v)) s (map (fun i => entry i l) ps)).
  { induction ps as [|p ps IH]; intro t; [reflexivity|]. cbn [foldM map]. rewrite position_int. cbn [bind].
    destruct (g t (OV (entry p l))); cbn [bind]; [apply IH|reflexivity]. }
  rewrite G, positions_one_to, sum_entries. reflexivity.
Qed.

(** ** reverse and sort *)
Section Seqs.
  Variables (c : cfg) (l : list pval).
  Hypothesis N : numbers l.

  Lemma numbers_rev : numbers (rev l).
  Proof. apply Forall_rev, N. Qed.

  Lemma reverse_law : reverse c (positional [OSeq l]) = Ok (OSeq (rev l)).
  Proof.
    change (reverse c (positional [OSeq l])) with (mk_seq [OIter (map OV (rev l))]).
    rewrite mk_seq_iter. apply mk_seq_numbers, numbers_rev.
  Qed.

  Lemma reverse_slow_law : reverse_slow c (positional [OSeq l]) = Ok (OSeq (rev l)).
  Proof.
    change (reverse_slow c (positional [OSeq l])) with
      (foldM (fun r p => x <- matmul c (oint p) (OSeq l) ;; mk_seq [x; r]) (OSeq []) (positions (Z.of_nat (length l)))).
    rewrite (fold_positions c l (fun r x => mk_seq [x; r])).
    assert (G : forall l acc, numbers l -> numbers acc -> foldM (fun s v => mk_seq [OV v; s]) (OSeq acc) l = Ok (OSeq (rev l ++ acc))).
    { intro k. induction k as [|v k IH]; intros acc NL NA; [reflexivity|]. inversion NL as [|? ? N1 N2]; subst.
      cbn [foldM]. rewrite (mk_seq_concat [OV v; OSeq acc] [[v]; acc]); [|repeat constructor|repeat (constructor; [repeat (assumption || constructor)|]); constructor].
      cbn [bind concat]. rewrite IH; [|assumption|constructor; [assumption|rewrite app_nil_r; assumption]].
      cbn [rev]. rewrite <- app_assoc, app_nil_r. reflexivity. }
    rewrite (G l []) by (assumption || constructor). now rewrite app_nil_r.
  Qed.

  Lemma isort_rev_perm : Permutation l (isort_rev vleb l).
  Proof.
    unfold isort_rev. eapply Permutation_trans; [apply Permutation_rev|]. eapply Permutation_trans; [|apply Permutation_rev].
    change (isort vleb (rev l)) with (ascending (rev l)). apply ascending_perm.
  Qed.

  Lemma strongly_snoc {A} (R : A -> A -> Prop) (s : list A) a : StronglySorted R s -> Forall (fun x => R x a) s -> StronglySorted R (s ++ [a]).
  Proof.
    induction s as [|b s IH]; intros S F; [repeat constructor|]. inversion S; inversion F; subst. cbn. constructor; [auto|].
    apply Forall_app. split; [assumption|repeat constructor; assumption].
  Qed.
  Lemma strongly_rev {A} (R : A -> A -> Prop) (s : list A) : StronglySorted R s -> StronglySorted (fun a b => R b a) (rev s).
  Proof.
    induction s as [|a s IH]; intro H; [constructor|]. inversion H; subst. cbn. apply strongly_snoc; [auto|].
    apply Forall_forall. intros x I. apply in_rev in I. apply (proj1 (Forall_forall _ _) H3 x I).
  Qed.
  Lemma isort_rev_sorted : StronglySorted (fun a b => vleb b a = true) (isort_rev vleb l).
  Proof. unfold isort_rev. apply (strongly_rev (fun a b => vleb a b = true)). apply (ascending_sorted (rev l)). Qed.

  Lemma sort_law : sort c (positional [OSeq l]) = Ok (OSeq (isort_rev vleb l)).
  Proof.
    change (sort c (positional [OSeq l])) with (mk_seq [OIter (map OV (isort_rev vleb l))]).
    rewrite mk_seq_iter. apply mk_seq_numbers. unfold numbers. apply (Permutation_Forall isort_rev_perm N).
  Qed.
End Seqs.

(** ** The slow sort *)
Definition desc (l : list pval) : Prop := StronglySorted (fun a b => vleb b a = true) l.

Lemma op_cmp_values c o a b : relational o = true -> is_number a = true -> is_number b = true ->
  py_op c o (OV a) (OV b) = Ok (OV (b01 (cmp_holds o (vcmp a b)))).
Proof.
  intros R A B. rewrite py_values. destruct a as [x|], b as [y|]; try discriminate.
  pose proof (lw_anti _ vcmp_lawful (VN x) (VN y)) as S.
  destruct o; try discriminate; cbn [value_op vop rmap bind]; unfold vltb, vleb, veqb; rewrite ?S; destruct (vcmp (VN x) (VN y)); reflexivity.
Qed.

Lemma truth_b01 b : truth (OV (b01 b)) = Ok b.
Proof. destruct b; reflexivity. Qed.

Fixpoint ins (n : pval) (s : list pval) : list pval :=
  match s with
  | [] => [n]
  | x :: s' => if vleb x n then n :: s else x :: ins n s'
  end.

Lemma cmp_ge a b : cmp_holds OGe (vcmp a b) = vleb b a.
Proof. unfold vleb. rewrite (lw_anti _ vcmp_lawful a b). destruct (vcmp a b); reflexivity. Qed.
Lemma cmp_le a b : cmp_holds OLe (vcmp a b) = vleb a b.
Proof. unfold vleb. destruct (vcmp a b); reflexivity. Qed.

Lemma ins_perm n s : Permutation (n :: s) (ins n s).
Proof.
  induction s as [|x s IH]; [reflexivity|]. cbn. destruct (vleb x n); [reflexivity|].
  eapply Permutation_trans; [apply perm_swap|]. constructor. exact IH.
Qed.

Lemma ins_desc n s : desc s -> desc (ins n s).
Proof.
  induction s as [|x s IH]; intro D; [repeat constructor|]. inversion D as [|? ? D1 D2]; subst. cbn.
  destruct (vleb x n) eqn:E.
  - constructor; [exact D|]. constructor; [exact E|]. apply Forall_forall. intros y I.
    apply (vleb_trans _ x); [apply (proj1 (Forall_forall _ _) D2 y I)|exact E].
  - constructor; [exact (IH D1)|]. apply (Permutation_Forall (ins_perm n s)). constructor; [|exact D2].
    destruct (vleb_total n x) as [T|T]; [exact T|congruence].
Qed.

Lemma numbers_app a b : numbers a -> numbers b -> numbers (a ++ b).
Proof. intros. apply Forall_app. split; assumption. Qed.

Ltac shape := repeat (first [apply Forall2_nil | apply Forall2_cons; [reflexivity|]]).
Ltac nums := repeat (first [apply Forall_nil | apply Forall_cons; [try assumption; try (repeat constructor; assumption)|]]).

Section Slow.
  Variable c : cfg.

  Lemma loop_after s : forall r, numbers s -> numbers r ->
    foldM (fun nr v =>
      let (n, r) := nr : obj * obj in
      t <- (g <- py_op c OGe n (OV v) ;; truth g) ;;
      if t : bool then (r <- mk_seq [r; n; OV v] ;; n <- mk_seq [] ;; Ok (n, r))
      else (r <- mk_seq [r; OV v] ;; Ok (n, r))) (OSeq [], OSeq r) s = Ok (OSeq [], OSeq (r ++ s)).
  Proof.
    induction s as [|x s IH]; intros r N R; [now rewrite app_nil_r|]. inversion N as [|? ? N1 N2]; subst. cbn [foldM].
    assert (E : (g <- py_op c OGe (OSeq []) (OV x) ;; truth g) = Ok false) by (destruct x; reflexivity).
    rewrite E. cbn [bind]. rewrite (mk_seq_concat [OSeq r; OV x] [r; [x]]); [|shape|nums]. cbn [bind concat app].
    rewrite IH; [|assumption|apply numbers_app; [assumption|nums]]. now rewrite <- app_assoc.
  Qed.

  Lemma loop_before n s : is_number n = true -> forall r, numbers s -> numbers r -> existsb (fun x => vleb x n) s = true ->
    foldM (fun nr v =>
      let (n, r) := nr : obj * obj in
      t <- (g <- py_op c OGe n (OV v) ;; truth g) ;;
      if t : bool then (r <- mk_seq [r; n; OV v] ;; n <- mk_seq [] ;; Ok (n, r))
      else (r <- mk_seq [r; OV v] ;; Ok (n, r))) (OV n, OSeq r) s = Ok (OSeq [], OSeq (r ++ ins n s)).
  Proof.
    intro NN. induction s as [|x s IH]; intros r N R X; [discriminate|]. inversion N as [|? ? N1 N2]; subst. cbn [foldM].
    rewrite op_cmp_values by (reflexivity || assumption). cbn [bind]. rewrite truth_b01, cmp_ge. cbn [bind ins]. destruct (vleb x n) eqn:E.
    - rewrite (mk_seq_concat [OSeq r; OV n; OV x] [r; [n]; [x]]); [|shape|nums]. cbn [bind concat app].
      change (mk_seq []) with (Ok (OSeq [])). cbn [bind].
      rewrite loop_after; [|assumption|apply numbers_app; [assumption|nums]]. now rewrite <- app_assoc.
    - rewrite (mk_seq_concat [OSeq r; OV x] [r; [x]]); [|shape|nums]. cbn [bind concat app].
      rewrite IH; [|assumption|apply numbers_app; [assumption|nums]|cbn in X; rewrite E in X; exact X]. now rewrite <- app_assoc.
  Qed.

  Lemma last_entry (s : list pval) x : entry (Z.of_nat (length (s ++ [x]))) (s ++ [x]) = x.
  Proof.
    unfold entry. rewrite app_length. cbn [length].
    destruct (Z.leb_spec 1 (Z.of_nat (length s + 1))); [|lia]. destruct (Z.leb_spec (Z.of_nat (length s + 1)) (Z.of_nat (length s + 1))); [|lia]. cbn [andb].
    rewrite app_nth2 by lia. replace (Z.to_nat _ - length s)%nat with 0%nat by lia. reflexivity.
  Qed.

  Lemma add_law n s0 : is_number n = true -> numbers s0 -> desc s0 ->
    exists r, add_N_to_S c (positional [OV n; OSeq s0]) = Ok (OSeq r) /\ numbers r /\ desc r /\ Permutation (n :: s0) r.
  Proof.
    intros NN NS D.
    assert (P : numbers (n :: s0)) by (apply Forall_cons; assumption).
    assert (E0 : add_N_to_S c (positional [OV n; OSeq s0]) = add_body c (positional [OV n; OSeq s0])) by (destruct n; [reflexivity|discriminate]).
    rewrite E0. unfold add_body. change (need 0 "N" (positional [OV n; OSeq s0])) with (Ok (OV n)).
    change (need 1 "S" (positional [OV n; OSeq s0])) with (Ok (OSeq s0)). cbn [bind py_len my_len].
    assert (C : s0 = [] \/ exists x s, s0 = x :: s) by (destruct s0; eauto). destruct C as [->|[x [s ES]]].
    - exists [n]. split; [|split; [assumption|split; [repeat constructor|reflexivity]]]. cbn [length Z.of_nat Z.eqb].
      apply (mk_seq_concat [OV n] [[n]]); [shape|nums].
    - assert (L : Z.of_nat (length s0) =? 0 = false) by (rewrite ES; reflexivity). rewrite L.
      rewrite position_int. cbn [bind].
      assert (X1 : entry 1 s0 = x).
      { rewrite ES. unfold entry. cbn [length]. destruct (Z.leb_spec 1 (Z.of_nat (S (length s)))); [reflexivity|lia]. }
      rewrite X1.
      assert (NX : is_number x = true) by (rewrite ES in NS; inversion NS; assumption).
      rewrite op_cmp_values by (reflexivity || assumption). cbn [bind]. rewrite truth_b01, cmp_ge. cbn [bind]. destruct (vleb x n) eqn:E1.
      { exists (n :: s0). split; [|split; [assumption|split; [|reflexivity]]].
        - rewrite (mk_seq_concat [OV n; OSeq s0] [[n]; s0]); [cbn [concat app]; now rewrite app_nil_r|shape|nums].
        - pose proof (ins_desc n s0 D) as J. rewrite ES in J |- *. cbn [ins] in J. rewrite E1 in J. exact J. }
      rewrite position_int. cbn [bind].
      assert (XL : exists s1 y, s0 = s1 ++ [y]) by (rewrite ES; destruct (exists_last (l := x :: s)) as [s1 [y Y]]; [discriminate|eauto]).
      destruct XL as [s1 [y XL]].
      assert (X2 : entry (Z.of_nat (length s0)) s0 = y) by (rewrite XL; apply last_entry). rewrite X2.
      assert (NY : is_number y = true) by (rewrite XL in NS; apply Forall_app in NS as [_ H]; inversion H; assumption).
      rewrite op_cmp_values by (reflexivity || assumption). cbn [bind]. rewrite truth_b01, cmp_le. cbn [bind]. destruct (vleb n y) eqn:E2.
      { exists (s0 ++ [n]). split; [|split; [apply numbers_app; [assumption|nums]|split]].
        - rewrite (mk_seq_concat [OSeq s0; OV n] [s0; [n]]); [reflexivity|shape|nums].
        - apply strongly_snoc; [exact D|]. apply Forall_forall. intros z I. apply (vleb_trans _ y); [exact E2|].
          rewrite XL in D, I. clear -D I. induction s1 as [|a s1 IH].
          + destruct I as [<-|[]]. destruct (vleb_total y y); assumption.
          + cbn in D, I. inversion D as [|? ? D1 D2]; subst. destruct I as [<-|I]; [|auto].
            apply (proj1 (Forall_forall _ _) D2). apply in_or_app. right. left. reflexivity.
        - apply Permutation_cons_append. }
      change (mk_seq []) with (Ok (OSeq [])). cbn [bind].
      exists (ins n s0). split; [|split; [apply (Permutation_Forall (ins_perm n s0) P)|split; [apply ins_desc, D|apply ins_perm]]].
      pose proof (fold_positions c s0 (fun nr x =>
        let (n, r) := nr : obj * obj in
        t <- (g <- py_op c OGe n x ;; truth g) ;;
        if t : bool then (r <- mk_seq [r; n; x] ;; n <- mk_seq [] ;; Ok (n, r))
        else (r <- mk_seq [r; x] ;; Ok (n, r))) (OV n, OSeq [])) as FP.
      assert (FE : foldM (add_step c (OSeq s0)) (OV n, OSeq []) (positions (Z.of_nat (length s0))) = Ok (OSeq [], OSeq (ins n s0))).
      { rewrite <- (app_nil_l (ins n s0)). rewrite <- (loop_before n s0 NN [] NS (Forall_nil _)).
        - rewrite <- FP. clear. generalize (OV n, OSeq []) as st. induction (positions (Z.of_nat (length s0))) as [|p ps IH]; intro st; [reflexivity|].
          cbn [foldM]. assert (Q : add_step c (OSeq s0) st p =
            (x <- matmul c (oint p) (OSeq s0) ;;
             (let (n0, r) := st in
              t <- (g <- py_op c OGe n0 x ;; truth g) ;;
              if t : bool then (r0 <- mk_seq [r; n0; x] ;; n1 <- mk_seq [] ;; Ok (n1, r0))
              else (r0 <- mk_seq [r; x] ;; Ok (n0, r0))))).
          { destruct st as [n0 r]. unfold add_step. rewrite position_int. cbn [bind]. reflexivity. }
          rewrite Q. destruct (bind _ _); cbn [bind]; [apply IH|reflexivity].
        - rewrite XL, existsb_app. apply orb_true_iff. right. cbn. rewrite orb_false_r.
          destruct (vleb_total n y) as [T|T]; [congruence|exact T]. }
      rewrite FE. reflexivity.
  Qed.

  Lemma sort_slow_loop l : forall acc, numbers l -> numbers acc -> desc acc ->
    exists r, foldM (fun s v => add_N_to_S c (positional [OV v; s])) (OSeq acc) l = Ok (OSeq r) /\ desc r /\ Permutation (l ++ acc) r.
  Proof.
    induction l as [|v l IH]; intros acc N A D; [exists acc; auto|]. inversion N as [|? ? N1 N2]; subst. cbn [foldM].
    destruct (add_law v acc N1 A D) as [r [E [NR [DR PR]]]]. rewrite E. cbn [bind].
    destruct (IH r N2 NR DR) as [r' [E' [D' P']]]. exists r'. split; [exact E'|]. split; [exact D'|].
    eapply Permutation_trans; [|exact P']. cbn. eapply Permutation_trans; [apply Permutation_middle|]. apply Permutation_app_head, PR.
  Qed.

  Lemma sort_slow_law l : numbers l ->
    exists r, sort_slow c (positional [OSeq l]) = Ok (OSeq r) /\ desc r /\ Permutation l r.
  Proof.
    intro N.
    change (sort_slow c (positional [OSeq l])) with
      (foldM (fun r p => x <- matmul c (oint p) (OSeq l) ;; add_N_to_S c (positional [x; r])) (OSeq []) (positions (Z.of_nat (length l)))).
    rewrite (fold_positions c l (fun r x => add_N_to_S c (positional [x; r]))).
    destruct (sort_slow_loop l [] N (Forall_nil _)) as [r [E [D P]]]; [constructor|]. rewrite app_nil_r in P. eauto.
  Qed.
End Slow.
