(** C59-C61: labels. *)
From Coq Require Import String List ZArith QArith Bool Lia.
From Verif Require Import PyBase Num Val LabelModel CmpFacts NumFacts LabelFacts.
Import ListNotations.
Open Scope Z_scope.

(** ** C59.  [made a]: the label [a] is a text, a number turned into a label, or a
    sum of such labels.  [label_compare o a b]: the answer of [a o b]. *)
Theorem C59_total_order : forall a b c, made a -> made b -> made c ->
  (exists lt le gt ge, label_compare Olt a b = Some lt /\ label_compare Ole a b = Some le /\ label_compare Ogt a b = Some gt /\ label_compare Oge a b = Some ge /\
     (lt = true /\ label_eq a b = false /\ gt = false \/ lt = false /\ label_eq a b = true /\ gt = false \/ lt = false /\ label_eq a b = false /\ gt = true) /\
     le = (lt || label_eq a b)%bool /\ ge = (gt || label_eq a b)%bool) /\
  label_compare Ogt b a = label_compare Olt a b /\
  (label_compare Olt a b = Some true -> label_compare Olt b c = Some true -> label_compare Olt a c = Some true) /\
  (label_eq a b = true -> forall o, label_compare o a c = label_compare o b c /\ label_compare o c a = label_compare o c b).
Proof. exact (fun a b c Ma Mb Mc => order_laws a b c (made_ok a Ma) (made_ok b Mb) (made_ok c Mc)). Qed.
Print Assumptions C59_total_order.

(** two labels are equal when they have the same coefficient, or none, at every text *)
Theorem C59_equality : forall a b, made a -> made b ->
  (label_eq a b = true <-> forall k, same_coef (lookup (l_data a) k) (lookup (l_data b) k)) /\
  label_ne a b = negb (label_eq a b).
Proof. exact (fun a b Ma Mb => conj (label_eq_spec a b (made_ok a Ma) (made_ok b Mb)) (label_ne_eq a b)). Qed.
Print Assumptions C59_equality.

Theorem C59_numbers_below : forall n a,
  num_compare_label Olt n a = true /\ num_compare_label Ole n a = true /\ num_compare_label Ogt n a = false /\ num_compare_label Oge n a = false /\
  label_compare_num Ogt a n = true /\ label_compare_num Oge a n = true /\ label_compare_num Olt a n = false /\ label_compare_num Ole a n = false.
Proof. intros. repeat split. Qed.
Print Assumptions C59_numbers_below.

(** The dice of the other models order and add their outcomes the same way. *)
Theorem C59_same_as_outcomes : forall a b, made a -> made b ->
  label_eq a b = veqb (VS (l_data a)) (VS (l_data b)) /\
  (forall o, label_compare o a b = Some (op_holds o (vcmp (VS (l_data a)) (VS (l_data b))))) /\
  label_add a b = rmap from_pairs (s_add (l_data a) (l_data b)).
Proof.
  exact (fun a b Ma Mb => conj (s_eq_python a b (made_ok a Ma) (made_ok b Mb))
    (conj (fun o => label_compare_walk o a b (made_ok a Ma) (made_ok b Mb)) (s_add_python a b))).
Qed.
Print Assumptions C59_same_as_outcomes.

(** Labels with whole coefficients.  (Sums of other coefficients are rounded.) *)
Theorem C59_counts_add_up : forall a b, made a -> made b -> integral a -> integral b ->
  exists c, label_add a b = Ok c /\ integral c /\ (forall k, has c k <-> has a k \/ has b k) /\ (forall k, count c k = count a k + count b k).
Proof.
  intros a b Ma Mb Ia Ib. destruct (add_counts a b (made_ok a Ma) (made_ok b Mb) Ia Ib) as (c & E & _ & H). exists c. auto.
Qed.
Print Assumptions C59_counts_add_up.

Theorem C59_commutative : forall a b, made a -> made b -> integral a -> integral b ->
  exists c c', label_add a b = Ok c /\ label_add b a = Ok c' /\ label_eq c c' = true.
Proof. exact (fun a b Ma Mb => add_comm a b (made_ok a Ma) (made_ok b Mb)). Qed.
Print Assumptions C59_commutative.

Theorem C59_associative : forall a b c, made a -> made b -> made c -> integral a -> integral b -> integral c ->
  exists ab ab_c bc a_bc, label_add a b = Ok ab /\ label_add ab c = Ok ab_c /\ label_add b c = Ok bc /\ label_add a bc = Ok a_bc /\ label_eq ab_c a_bc = true.
Proof. exact (fun a b c Ma Mb Mc => add_assoc a b c (made_ok a Ma) (made_ok b Mb) (made_ok c Mc)). Qed.
Print Assumptions C59_associative.

Definition sum_of (a b : label) : label := match label_add a b with Ok c => c | Err _ => a end.
Definition ex_ab : label := sum_of (from_str "sword") (from_str "axe").
Definition ex_ba : label := sum_of (from_str "axe") (from_str "sword").
Definition ex_ab1 : label := sum_of ex_ab (from_const (NI 1)).
Example C59_example : made ex_ab /\ made ex_ba /\ made ex_ab1 /\ integral ex_ab /\ integral ex_ab1 /\ label_eq ex_ab ex_ba = true /\
  label_compare Olt ex_ab ex_ab1 = Some false /\ label_compare Ogt ex_ab ex_ab1 = Some true /\ count (sum_of ex_ab ex_ab1) "axe" = 2.
Proof.
  assert (A : made ex_ab) by (apply (made_add (from_str "sword") (from_str "axe")); [constructor|constructor|reflexivity]).
  assert (B : made ex_ba) by (apply (made_add (from_str "axe") (from_str "sword")); [constructor|constructor|reflexivity]).
  assert (C : made ex_ab1) by (apply (made_add ex_ab (from_const (NI 1))); [exact A|constructor|reflexivity]).
  assert (I : forall x, (exists l, l_data x = map (fun p => (fst p, NI (snd p))) l) -> integral x).
  { intros x (l & E) k v L. rewrite E in L. apply lookup_In in L. apply in_map_iff in L. destruct L as (p & P & _). injection P as _ <-. eauto. }
  repeat split; try assumption.
  - apply I. exists [("sword", 1); ("axe", 1)]%string. reflexivity.
  - apply I. exists [("sword", 1); ("axe", 1); (CONST_COEF, 1)]%string. reflexivity.
Qed.

(** ** C60.  Equal labels made in different orders have different data to hash. *)
Theorem C60_equal_hash_refuted :
  ~ (forall a b, made a -> made b -> label_eq a b = true -> hash_input a = hash_input b).
Proof. intro H. destruct C59_example as (A & B & _ & _ & _ & E & _). specialize (H _ _ A B E). vm_compute in H. discriminate H. Qed.
Print Assumptions C60_equal_hash_refuted.

(** When the texts were put in in the same order, the hashes agree. *)
Theorem C60_same_order : forall (h : list string * list string -> Z) a b, made a -> made b ->
  label_eq a b = true -> map fst (l_data a) = map fst (l_data b) -> h (hash_input a) = h (hash_input b).
Proof.
  intros h a b Ma Mb E O. f_equal. unfold hash_input. f_equal; [|exact O].
  destruct (made_ok a Ma) as [_ ->], (made_ok b Mb) as [_ ->]. rewrite O. reflexivity.
Qed.
Print Assumptions C60_same_order.

(** ** C61.  [label + 0] is another label; [0 + n] is [n] for whole numbers. *)
Theorem C61_add_zero_refuted :
  ~ (forall a, made a -> exists c, label_add_num a (NI 0) = Ok c /\ label_eq c a = true).
Proof. intro H. destruct (H (from_str "axe") (made_str _)) as (c & E & K). vm_compute in E. injection E as <-. vm_compute in K. discriminate K. Qed.
Print Assumptions C61_add_zero_refuted.

Theorem C61_add_zero_int : forall z, vop OAdd (vint z) (vint 0) = Ok (vint z) /\ vop OAdd (vint 0) (vint z) = Ok (vint z).
Proof. intro z. split; cbn; [rewrite Z.add_0_r; reflexivity|reflexivity]. Qed.
Print Assumptions C61_add_zero_int.

(** and it is exactly the labels without a constant that change *)
Theorem C61_add_zero : forall a, made a -> integral a ->
  exists c, label_add_num a (NI 0) = Ok c /\ (label_eq c a = true <-> has a CONST_COEF) /\ (forall k, count c k = count a k).
Proof.
  intros a Ma Ia. assert (Ic : integral (from_const (NI 0))).
  { intros k v. cbn [from_const new_label l_data lookup]. destruct (String.eqb CONST_COEF k); [|discriminate]. intro E. injection E as <-. eauto. }
  destruct (add_counts a (from_const (NI 0)) (made_ok a Ma) (made_ok _ (made_const _)) Ia Ic) as (c & E & Oc & Ic' & D & C).
  assert (CZ : forall k, count (from_const (NI 0)) k = 0).
  { intro k. unfold count. cbn [from_const new_label l_data lookup]. destruct (String.eqb CONST_COEF k); reflexivity. }
  exists c. split; [exact E|]. split; [|intro k; rewrite C, CZ; lia].
  rewrite (eq_counts c a Oc (made_ok a Ma) Ic' Ia). split.
  - intros [H _]. apply H, D. right. unfold has. cbn [from_const new_label l_data lookup]. rewrite String.eqb_refl. discriminate.
  - intro H. split; intro k; [|rewrite C, CZ; lia]. rewrite D. split; [|auto]. intros [K|K]; [exact K|].
    unfold has in K. cbn [from_const new_label l_data lookup] in K. destruct (String.eqb_spec CONST_COEF k) as [Ek|]; [rewrite <- Ek; exact H|congruence].
Qed.
Print Assumptions C61_add_zero.
