(** Comparing values as a whole. *)
From Coq Require Import String List ZArith QArith Bool Lia.
From Verif Require Import PyBase Num Val RVModel Obj DispModel CastModel LibModel RollSpec SeqSpec Spec CmpFacts NumFacts MassFacts RVFacts
  ConstructFacts ConvFacts RollObjFacts SeqFacts EqModel EqSpec.
Import ListNotations.
Open Scope Z_scope.

Lemma get_seq_entries_ok src L : leaves (OIter src) L -> ~ In ONone L -> exists s, get_seq src = Ok s /\ seq_entries s = contents L.
Proof.
  intros H N. destruct (existsb has_label L) eqn:B.
  - exists (OSSeq (contents L)). split; [exact (get_seq_labels src L H N B)|reflexivity].
  - exists (OSeq (contents L)). split; [|reflexivity]. apply (get_seq_numbers src L H).
    assert (F : Forall (fun o => leaf o = true) L) by (rewrite <- (flatten_leaves src L H); apply flatten_leaf).
    apply Forall_forall. intros o I. rewrite Forall_forall in F. specialize (F o I).
    assert (HL : has_label o = false).
    { destruct (has_label o) eqn:E; [|reflexivity]. exfalso. assert (existsb has_label L = true) by (apply existsb_exists; eauto). congruence. }
    destruct o as [v|s|l|l|l|x|b|]; cbn in *; try discriminate; try exact Logic.I.
    + destruct v; [reflexivity|discriminate].
    + apply Forall_forall. intros v V. destruct (is_number v) eqn:E; [reflexivity|]. exfalso.
      assert (K : existsb (fun v => negb (is_number v)) (map fst (rv_dist x)) = true) by (apply existsb_exists; exists v; rewrite E; split; [exact V|reflexivity]).
      congruence.
    + exact (N I).
Qed.

(** weights of a normal form are positive if those of the list are *)
Lemma normal_positive c l : l <> [] -> positive_weights l -> positive_weights (normal c l).
Proof.
  intros NE P.
  assert (N : nonneg l) by (apply Forall_forall; intros e I; unfold positive_weights, probs in P; rewrite Forall_map, Forall_forall in P; specialize (P e I); lia).
  pose proof (positive_total l NE P) as T. assert (NL : nothing_left c l = false) by exact (proper_something c l N T).
  destruct (normal_mass c l NL) as [g [G M]]. pose proof (normal_canon c l N) as C.
  unfold positive_weights, probs. apply Forall_map, Forall_forall. intros e J.
  assert (LV : listed (fst e) (normal c l) = true) by (apply listed_iff; exists e; split; [exact J|apply veqb_refl]).
  assert (WP : 0 < wt l (fst e)).
  { rewrite (normal_listed c l _ N NL) in LV. destruct (cfg_skip0 c); [lia|]. apply listed_iff in LV. destruct LV as (e' & I' & E').
    clear -P I' E' N. unfold positive_weights, probs in P. rewrite Forall_map in P. induction l as [|[v w] l IH]; [destruct I'|].
    inversion P; subst. inversion N; subst. unfold wt in *. cbn [mass snd] in *. destruct I' as [<-|I'].
    - cbn [fst] in E'. rewrite E'. pose proof (mass_nonneg (veqb (fst e)) l H4). cbn [snd] in *. lia.
    - specialize (IH H2 H4 I'). destruct (veqb (fst e) v); lia. }
  unfold wt in WP. rewrite (M _ (vresp_veqb _)) in WP. fold (wt (normal c l) (fst e)) in WP.
  rewrite (wt_strict _ _ (proj1 (proj2 (proj1 C))) J) in WP. nia.
Qed.

Lemma fair_positive l : positive_weights (fair l).
Proof. unfold fair, positive_weights, probs. rewrite map_map. apply Forall_map, Forall_forall. cbn. lia. Qed.

Lemma to_die_law c o law : cfg_trunc c = false -> law_of o law -> exists x, to_die c o = Ok (ORV x) /\ canon (rv_dist x) /\ positive_weights (rv_dist x) /\ same_law (rv_dist x) law.
Proof.
  intros Ht [x C P|o' L Pl Lv N].
  - exists x. split; [reflexivity|]. split; [exact C|]. split; [exact P|]. intros v. reflexivity.
  - assert (Lv' : leaves (OIter [o']) (L ++ [])).
    { apply (leaves_iter [o'] [L]). constructor; [exact Lv|constructor]. }
    rewrite app_nil_r in Lv'. destruct (get_seq_entries_ok [o'] L Lv' N) as (s & E & En).
    assert (F : exists x, from_iter c [o'] = Ok x /\ canon (rv_dist x) /\ positive_weights (rv_dist x) /\ same_law (rv_dist x) (match contents L with [] => [(vint 0, 1)] | l => fair l end)).
    { unfold from_iter. rewrite E. cbn [bind]. rewrite En. destruct (contents L) as [|v l].
      - exists (rv_of [(vint 0, 1)]). split; [apply (UnaryFacts.from_const_int c 0 Ht)|]. cbn [rv_dist rv_of].
        split; [split; [split; [discriminate|split; [|repeat constructor; cbn; lia]]|left; reflexivity]|].
        + repeat constructor.
        + split; [repeat constructor; cbn; lia|]. intros v. reflexivity.
      - exists (rv_of (normal c (fair (v :: l)))). split; [apply from_seq_normal; [exact Ht|discriminate]|]. cbn [rv_dist rv_of].
        assert (P : positive_weights (fair (v :: l))) by apply fair_positive.
        assert (Nn : nonneg (fair (v :: l))) by (apply Forall_forall; intros e I; unfold fair in I; apply in_map_iff in I; destruct I as (y & <- & _); cbn; lia).
        split; [apply normal_canon, Nn|]. split; [apply normal_positive; [discriminate|exact P]|].
        apply normal_same_law. split; [exact Nn|]. apply positive_total; [discriminate|exact P]. }
    destruct F as (x & F & R). exists x. split; [|exact R]. destruct o' as [[v|v]|s0|l|l|l|y|b|]; try destruct Pl; cbn [to_die]; rewrite F; reflexivity.
Qed.

Theorem dices_equal_any c a b x y : cfg_trunc c = false -> law_of a x -> law_of b y ->
  exists r, dices_are_equal c a b = Ok r /\ (r = true <-> same_law x y).
Proof.
  intros Ht A B. destruct (to_die_law c a x Ht A) as (p & Ea & Ca & Pa & La). destruct (to_die_law c b y Ht B) as (q & Eb & Cb & Pb & Lb).
  assert (Na : is_blank_rv a = false) by (destruct A as [? ? ?|o L Pl ? ?]; [reflexivity|]; destruct o; try destruct Pl; reflexivity).
  assert (Nb : is_blank_rv b = false) by (destruct B as [? ? ?|o L Pl ? ?]; [reflexivity|]; destruct o; try destruct Pl; reflexivity).
  unfold dices_are_equal. rewrite Na, Nb. cbn [orb]. rewrite Ea. cbn [bind]. rewrite Eb. cbn [bind dist_of].
  exists (dists_equal (rv_dist p) (rv_dist q)). split; [reflexivity|]. rewrite (dices_equal_same_law _ _ Ca Cb Pa Pb).
  split; intros H v.
  - rewrite <- (La v), <- (Lb v). apply H.
  - rewrite (La v), (Lb v). apply H.
Qed.

Theorem dices_equal_blank c a b : (is_blank_rv a = true \/ is_blank_rv b = true) ->
  dices_are_equal c a b = Ok (is_blank_rv a && is_blank_rv b).
Proof. intros H. unfold dices_are_equal. destruct H as [-> | ->]; [reflexivity|]. rewrite orb_true_r. reflexivity. Qed.

(** ** Sequences *)

Lemma mk_seq_contents o L : leaves o L -> Forall number_like L -> mk_seq [o] = Ok (OSeq (contents L)).
Proof.
  intros H F. assert (Lv : leaves (OIter [o]) (L ++ [])) by (apply (leaves_iter [o] [L]); constructor; [exact H|constructor]).
  rewrite app_nil_r in Lv. unfold mk_seq. rewrite (flatten_leaves [o] L Lv).
  pose proof (get_seq_entries [o] L Lv) as E.
  assert (N : existsb is_none L = false).
  { apply existsb_none. eapply Forall_impl; [|exact F]. intros x Hx. destruct x; try reflexivity. destruct Hx. }
  rewrite N in E. rewrite map_app in E.
  assert (G : forallb is_number_leaf (filter (fun o => negb (is_meta_rv o)) L) = true).
  { apply forallb_forall. intros x I. apply filter_In in I. destruct I as [I M]. rewrite Forall_forall in F. specialize (F x I).
    destruct x as [[v|v]| | | | | | |]; try discriminate; try destruct F; reflexivity. }
  rewrite G. cbn [assert_].
  assert (K : forall (l : list obj) (m : list pval), all_some (map leaf_val l ++ map leaf_val (map OV m)) = option_map (fun p => p ++ m) (all_some (map leaf_val l))).
  { clear. intros l m. induction l as [|x l IH].
    - cbn. induction m as [|v m IH]; [reflexivity|]. cbn. rewrite IH. reflexivity.
    - cbn [map app all_some]. destruct (leaf_val x); [|reflexivity]. rewrite IH. destruct (all_some (map leaf_val l)); reflexivity. }
  rewrite K in E. destruct (all_some (map leaf_val (filter (fun o => negb (is_meta_rv o)) L))) as [p|]; [|discriminate].
  cbn [option_map] in E. injection E as E. rewrite <- E. reflexivity.
Qed.

Lemma list_eqb_iff l m : list_eqb veqb l m = true <-> Forall2 same_entry l m.
Proof.
  revert m. induction l as [|a l IH]; intros [|b m]; cbn; try (split; [discriminate|intros H; inversion H]).
  - split; [constructor|reflexivity].
  - rewrite andb_true_iff, IH. split; [intros [A B]; constructor; assumption|intros H; inversion H; subst; split; assumption].
Qed.

Theorem seqs_equal_any a b L M : is_meta_rv a = false -> is_meta_rv b = false -> leaves a L -> leaves b M -> Forall number_like L -> Forall number_like M ->
  exists r, seqs_are_equal a b = Ok r /\ (r = true <-> Forall2 same_entry (contents L) (contents M)).
Proof.
  intros Ra Rb A B F G. unfold seqs_are_equal. rewrite Ra, Rb. cbn [negb andb assert_].
  assert (K : forall o N, leaves o N -> Forall number_like N -> exists s, to_seq o = Ok s /\ seq_entries s = contents N).
  { clear. intros o N H F. destruct o as [v|s|l|l|l|x|b|]; cbn [to_seq]; try (exists (OSeq (contents N)); split; [exact (mk_seq_contents _ N H F)|reflexivity]).
    - exists (OSeq l). split; [reflexivity|]. inversion H; subst. symmetry. apply contents_values.
    - exists (OSSeq l). split; [reflexivity|]. inversion H; subst. symmetry. apply contents_values. }
  destruct (K a L A F) as (s & -> & Es). destruct (K b M B G) as (t & -> & Et). cbn [bind]. rewrite Es, Et.
  exists (list_eqb veqb (contents L) (contents M)). split; [reflexivity|]. apply list_eqb_iff.
Qed.

Theorem seqs_equal_dice a b : is_meta_rv a = true \/ is_meta_rv b = true -> seqs_are_equal a b = Err AssertErr.
Proof. intros H. unfold seqs_are_equal. destruct H as [-> | ->]; [reflexivity|]. destruct (is_meta_rv a); reflexivity. Qed.

(** ** Keys *)

Lemma equal_hash hash hash_tuple x y : (forall a b, is_number a = true -> is_number b = true -> veqb a b = true -> hash a = hash b) ->
  all_numbers (vals x) -> all_numbers (vals y) -> dists_equal x y = true -> rv_hash hash hash_tuple x = rv_hash hash hash_tuple y.
Proof.
  intros H A B E. unfold dists_equal in E. apply andb_true_iff in E. destruct E as [E P]. unfold rv_hash.
  assert (E1 : map hash (vals x) = map hash (vals y)).
  { revert A B E. generalize (vals x) (vals y). intros l. induction l as [|a l IH]; intros [|b m] A B E; try discriminate; [reflexivity|].
    cbn in E. apply andb_true_iff in E. destruct E as [E1 E2]. inversion A; subst. inversion B; subst. cbn. f_equal; [|apply IH; assumption].
    apply H; [destruct H2 as [? ->]; reflexivity|destruct H4 as [? ->]; reflexivity|exact E1]. }
  assert (E2 : probs x = probs y).
  { revert P. generalize (probs x) (probs y). clear. intros l. induction l as [|a l IH]; intros [|b m] E; try discriminate; [reflexivity|].
    cbn in E. apply andb_true_iff in E. destruct E as [E1 E2]. apply Z.eqb_eq in E1. subst. f_equal. apply IH, E2. }
  rewrite E1, E2. reflexivity.
Qed.

(** comparing two dice gives a die, which is neither true nor false *)
Theorem eq_raises c x y : exists e, (r <- py_op c OEq (ORV y) (ORV x) ;; truth r) = Err e.
Proof. unfold py_op. cbn. destruct (rv_op c OEq (rv_dist y) (rv_dist x)) as [r|e]; cbn; eauto. Qed.

Theorem key_cases hash hash_tuple c x y :
  has_key hash hash_tuple c true x y = Ok true /\
  (rv_hash hash hash_tuple (rv_dist x) <> rv_hash hash hash_tuple (rv_dist y) -> has_key hash hash_tuple c false x y = Ok false) /\
  (rv_hash hash hash_tuple (rv_dist x) = rv_hash hash hash_tuple (rv_dist y) -> exists e, has_key hash hash_tuple c false x y = Err e).
Proof.
  unfold has_key. split; [reflexivity|]. split.
  - intros N. apply Z.eqb_neq in N. rewrite N. reflexivity.
  - intros ->. rewrite Z.eqb_refl. apply eq_raises.
Qed.
