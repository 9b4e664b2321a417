(** Proofs about the text of values inside strings. *)
From Coq Require Import Ascii String List ZArith Bool Permutation Sorted Lia.
From Verif Require Import PyBase Num Sorting SortFacts Val CmpFacts PrintModel Obj AltModel PrintSpec AltFacts TextSpec TextFacts LabelFacts SynSpec Runtime RunModel
  MeanSpec ExpandFacts ShowSpec.
Import ListNotations.
Open Scope string_scope.
Open Scope Z_scope.

Lemma concat_plus l : String.concat " + " l = with_plus l.
Proof. induction l as [|t l IH]; [reflexivity|]. destruct l as [|u l]; [reflexivity|]. change (t ++ " + " ++ String.concat " + " (u :: l) = t ++ " + " ++ with_plus (u :: l)). now rewrite IH. Qed.

Lemma filter_sorted {A} (R : A -> A -> Prop) f l : StronglySorted R l -> StronglySorted R (filter f l).
Proof.
  induction 1 as [|a l S IH F]; [constructor|]. cbn [filter]. destruct (f a); [|exact IH]. constructor; [exact IH|].
  rewrite Forall_forall in F |- *. intros x I. apply F. apply filter_In in I. apply I.
Qed.
Lemma filter_perm {A} (f : A -> bool) l l' : Permutation l l' -> Permutation (filter f l) (filter f l').
Proof.
  induction 1 as [|a l l' P IH|a b l|l l' l'' P IH P' IH']; [constructor| | |exact (Permutation_trans IH IH')].
  - cbn [filter]. destruct (f a); [now constructor|exact IH].
  - cbn [filter]. destruct (f a), (f b); try reflexivity. apply perm_swap.
Qed.
Lemma filter_all {A} (f : A -> bool) l : Forall (fun a => f a = true) l -> filter f l = l.
Proof. induction 1 as [|a l H F IH]; [reflexivity|]. cbn [filter]. rewrite H, IH. reflexivity. Qed.
Lemma filter_none {A} (f : A -> bool) l : Forall (fun a => f a = false) l -> filter f l = [].
Proof. induction 1 as [|a l H F IH]; [reflexivity|]. cbn [filter]. rewrite H. exact IH. Qed.

Lemma key_sorted s : StronglySorted (fun a b => key_leb a b = true) (s_sorted s).
Proof.
  apply isort_sorted.
  - intros a b. exact (leb_of_total _ string_compare_lawful (fst a) (fst b)).
  - intros a b c. exact (leb_of_trans _ string_compare_lawful (fst a) (fst b) (fst c)).
Qed.

Section Sum.
  Variable ftext : bool -> num -> string.
  Variables (s : Val.sval) (terms : list (string * Z)) (c : option Z).
  Hypothesis H : is_sum s terms c.
  Let coef (t : string * Z) : string * num := (fst t, NI (snd t)).
  Let number := match c with Some z => [(CONST_COEF, NI z)] | None => [] end.
  Let named (kv : string * num) := negb (String.eqb (fst kv) CONST_COEF).

  Lemma named_terms : Forall (fun kv => named kv = true) (map coef terms).
  Proof.
    destruct H as (_ & _ & N). rewrite Forall_forall in N |- *. intros kv I. apply in_map_iff in I. destruct I as (t & <- & I).
    unfold named. cbn [coef fst]. rewrite (proj2 (String.eqb_neq _ _) (N t I)). reflexivity.
  Qed.
  Lemma named_number : Forall (fun kv => named kv = false) number.
  Proof. unfold number. destruct c; repeat constructor. Qed.

  Lemma terms_sorted : StronglySorted (fun a b => key_leb a b = true) (map coef terms).
  Proof.
    destruct H as (_ & S & _). clear H. induction S as [|t l S IH F]; [constructor|]. cbn [map]. constructor; [exact IH|].
    rewrite Forall_forall in F |- *. intros kv I. apply in_map_iff in I. destruct I as (u & <- & I). unfold key_leb, leb_of. cbn [coef fst].
    rewrite (proj2 (compare_before _ _) (F u I)). reflexivity.
  Qed.
  Lemma terms_apart a b : In a (map coef terms) -> In b (map coef terms) -> key_leb a b = true -> key_leb b a = true -> a = b.
  Proof.
    intros A B L1 L2.
    assert (E : fst a = fst b).
    { unfold key_leb, leb_of in L1, L2. apply string_compare_eq. pose proof (lw_anti _ string_compare_lawful (fst a) (fst b)) as X.
      destruct (String.compare (fst a) (fst b)); [reflexivity| |discriminate L1]. rewrite X in L2. discriminate L2. }
    apply in_map_iff in A. destruct A as (t & <- & A). apply in_map_iff in B. destruct B as (u & <- & B). cbn [coef fst] in E.
    destruct H as (_ & S & _). clear H L1 L2. enough (t = u) as -> by reflexivity.
    induction S as [|v l S IH F]; [contradiction|]. rewrite Forall_forall in F.
    assert (NB : forall x y : string * Z, before (fst x) (fst y) -> fst x <> fst y).
    { intros x y Q R. apply compare_before in Q. apply (proj2 (string_compare_eq _ _)) in R || rewrite R in Q.
      try (rewrite R in Q; discriminate Q). }
    destruct A as [->|A], B as [->|B]; [reflexivity|exfalso; exact (NB _ _ (F u B) E)|exfalso; exact (NB _ _ (F t A) (eq_sym E))|exact (IH A B)].
  Qed.

  Lemma sum_perm : Permutation s (map coef terms ++ number).
  Proof. exact (proj1 H). Qed.
  Lemma names_of : filter named (s_sorted s) = map coef terms.
  Proof.
    symmetry. apply (sorted_perm_unique (fun a b => key_leb a b = true)).
    - exact terms_apart.
    - exact terms_sorted.
    - apply filter_sorted, key_sorted.
    - pose proof sum_perm as P. rewrite <- (filter_perm named _ _ (sorted_perm s)), (filter_perm named _ _ P), filter_app.
      rewrite (filter_all _ _ named_terms), (filter_none _ _ named_number), app_nil_r. reflexivity.
  Qed.
  Lemma number_of : filter (fun kv => negb (named kv)) (s_sorted s) = number.
  Proof.
    pose proof sum_perm as P.
    assert (Q : Permutation number (filter (fun kv => negb (named kv)) (s_sorted s))).
    { rewrite <- (filter_perm _ _ _ (sorted_perm s)), (filter_perm _ _ _ P), filter_app.
      rewrite (filter_none _ (map _ terms)), (filter_all _ number); [reflexivity| |].
      - eapply Forall_impl; [|exact named_number]. intros kv ->. reflexivity.
      - eapply Forall_impl; [|exact named_terms]. intros kv ->. reflexivity. }
    unfold number in *. destruct c as [z|]; [exact (Permutation_length_1_inv Q)|exact (Permutation_nil Q)].
  Qed.

  Lemma last_filter l : forall acc, last_coeff ftext acc l = last_coeff ftext acc (filter (fun kv => negb (named kv)) l).
  Proof.
    induction l as [|[k v] l IH]; intros acc; [reflexivity|]. cbn [filter last_coeff]. unfold named at 1. cbn [fst].
    rewrite negb_involutive. destruct (String.eqb k CONST_COEF) eqn:E; [|apply IH]. cbn [last_coeff]. rewrite E. apply IH.
  Qed.

  Theorem sum_repr : label_repr ftext s = sum_text terms c.
  Proof.
    unfold label_repr. cbv zeta. change (fun kv : string * num => negb (String.eqb (fst kv) CONST_COEF)) with named.
    rewrite names_of, last_filter, number_of, concat_plus. unfold sum_text. f_equal.
    - f_equal. rewrite map_map. apply map_ext. intros [k z]. unfold term_text, pair_text. cbn [coef fst snd].
      replace (neqb (NI z) (NI 1)) with (z =? 1) by (unfold neqb; now rewrite ncmp_int, Z.eqb_compare). destruct (z =? 1); reflexivity.
    - unfold number. destruct c as [z|]; reflexivity.
  Qed.

  Lemma sum_ints : all_ints s = true.
  Proof.
    destruct H as (P & _). unfold all_ints. apply forallb_forall. intros kv I. apply (Permutation_in _ P) in I. apply in_app_or in I.
    destruct I as [I|I]; [apply in_map_iff in I; destruct I as (t & <- & _); reflexivity|].
    destruct c as [z|]; [destruct I as [<-|[]]; reflexivity|destruct I].
  Qed.
End Sum.

Lemma shown_text_of v t : shown_as v t -> text_of v = Ok t.
Proof.
  destruct 1 as [z|s|s terms c H| | | | |]; try reflexivity.
  cbn [text_of]. rewrite (sum_ints _ _ _ H). unfold text_of_label. rewrite (sum_repr _ _ _ _ H). reflexivity.
Qed.

Theorem string_shown pl ps t w : string_at pl ps t -> MeanSpec.text RunModel.library pl ps w = Some (Ok t, w).
Proof.
  induction 1 as [|s ps t S IH|s ps t S IH|x v s ps t F V S IH].
  - reflexivity.
  - cbn [MeanSpec.text]. unfold Runtime.bnd. rewrite IH. reflexivity.
  - cbn [MeanSpec.text]. unfold Runtime.bnd. rewrite IH. reflexivity.
  - cbn [MeanSpec.text]. unfold Runtime.bnd. rewrite F. cbn [Runtime.lift]. change (rt_str library v) with (@Runtime.lift world _ (text_of v)).
    rewrite (shown_text_of _ _ V). cbn [Runtime.lift]. rewrite IH. reflexivity.
Qed.

Theorem sum_label_text ftext s terms c : is_sum s terms c ->
  ((exists k z, terms = [(k, z)] /\ c = None /\ number_text k) ->
   label_text ftext s = String """" (sum_text terms c ++ String """" "")) /\
  (~ (exists k z, terms = [(k, z)] /\ c = None /\ number_text k) -> label_text ftext s = sum_text terms c).
Proof.
  intros H. pose proof (sum_repr ftext _ _ _ H) as R. pose proof (proj1 H) as P. rewrite (sorted_perm s) in P.
  unfold label_text. rewrite R. split.
  - intros (k & z & -> & -> & N). cbn [map app fst snd] in P. apply Permutation_sym, Permutation_length_1_inv in P. rewrite P.
    rewrite (proj2 (numeral_spec k) N). reflexivity.
  - intros N. destruct (s_sorted s) as [|[k v] [|? ?]]; try reflexivity.
    apply Permutation_length_1_inv in P. destruct terms as [|[k' z] [|? ?]]; [|destruct c|discriminate P]; cbn [map app fst snd] in P.
    + destruct c as [z|]; [|discriminate P]. injection P as <- <-. reflexivity.
    + discriminate P.
    + injection P as <- <-. destruct (numeral k') eqn:E; [|reflexivity]. exfalso. apply N. exists k', z. split; [reflexivity|]. split; [reflexivity|].
      apply numeral_spec, E.
Qed.

Theorem named_output oplib callf pl e p ps t v w w1 :
  mean_e RunModel.library oplib callf pl e w = Some (Ok v, w1) -> string_at pl (p :: ps) t ->
  exists w2, mean_s RunModel.library oplib callf (SNamed e p ps) pl w = Some (Ok (Onward pl), w2) /\
    rw_outputs w2 = (rw_outputs w1 ++ [(v, Some (OStr t))])%list /\
    rw_settings w2 = rw_settings w1 /\ rw_memo w2 = rw_memo w1 /\ rw_printed w2 = rw_printed w1.
Proof.
  intros E S. cbn [mean_s]. unfold Runtime.bnd. rewrite E, (string_shown _ _ _ w1 S). cbn [rt_output rt_text library record_output Runtime.ret].
  eexists. split; [reflexivity|]. repeat split.
Qed.

Lemma shown_once v t t' : shown_as v t -> shown_as v t' -> t = t'.
Proof. intros A B. apply shown_text_of in A. apply shown_text_of in B. rewrite A in B. now injection B. Qed.
