(** Values of the ideal runtime and objects of the library that stand for them: operators. *)
From Coq Require Import String Ascii List ZArith QArith Qreduction Qabs Bool Permutation Sorted Lia Lqa.
From Verif Require Import PyBase Num Val Sorting RVModel UtilModel Obj RollModel AtModel DispModel Spec SeqSpec CmpFacts SortFacts
  MassFacts NumFacts RVFacts ConstructFacts ConvFacts IntFacts RoundFacts LimitFacts OpFacts UnaryFacts MixFacts RollFacts RollSpec
  RollObjFacts OrderFacts ExpandFacts SelectFacts CastMixFacts DispFacts LibModel.
From Verif Require Import LexModel ParseModel SynSpec Runtime RunModel.
From Verif Require Import IdealSpec IdealFacts IdealOps IdealPick.
Import ListNotations.
Open Scope Z_scope.
Open Scope list_scope.

Definition is_dice (t : table) (p : option (nat * table)) (x : rv) : Prop :=
  reps t (rv_dist x) /\
  match p with
  | Some (n, s) => (1 <= n)%nat /\ rv_roll x = Z.of_nat n /\ reps s (rv_die x)
  | None => True
  end.

(** An object of the library is what a value of the ideal runtime says. *)
Inductive is_val : ival -> obj -> Prop :=
| is_num z : is_val (INum z) (oint z)
| is_text s : is_val (IText s) (OStr s)
| is_seq l : is_val (ISeq l) (OSeq (map vint l))
| is_list l l' : Forall2 is_val l l' -> is_val (IList l) (OIter l')
| is_die t p x : is_dice t p x -> is_val (IDice t p) (ORV x)
| is_blank b : is_val (IBlank b) (OBlank b)
| is_none : is_val INone ONone.

(** Whatever the ideal runtime returns, the library returns what it says. *)
Definition meets (r : res ival) (r' : res obj) : Prop := forall v, r = Ok v -> exists v', r' = Ok v' /\ is_val v v'.

Lemma meets_ok v v' : is_val v v' -> meets (Ok v) (Ok v').
Proof. intros H u E. injection E as <-. now exists v'. Qed.
Lemma meets_err e r : meets (Err e) r.
Proof. intros u E. discriminate. Qed.
Lemma die_new t d : reps t d -> is_val (IDice t (Some (1%nat, t))) (ORV (rv_of d)).
Proof. intro H. constructor. split; [exact H|]. split; [lia|split; [reflexivity|exact H]]. Qed.
Lemma meets_die l r : (lcd (collect l) <= bound -> exists d, r = Ok (ORV (rv_of d)) /\ reps (collect l) d) -> meets (a_die l) r.
Proof.
  intros H v E. unfold a_die in E. cbv zeta in E. destruct (lcd (collect l) <=? bound) eqn:B; [|discriminate].
  injection E as <-. apply Z.leb_le in B. destruct (H B) as [d [E R]]. exists (ORV (rv_of d)). split; [exact E|now apply die_new].
Qed.

(** ** Values *)

Lemma seq_sum_of l : seq_sum (map vint l) = Ok (vint (IdealSpec.sum l)).
Proof. rewrite sum_sumZ. apply RollObjFacts.seq_sum_ints. Qed.
Lemma vint_inj' a b : a = b -> vint a = vint b.
Proof. congruence. Qed.

Lemma b01_holds b : b01 b = vint (holds b).
Proof. reflexivity. Qed.

Lemma compared_vop o p x y b : python_op o = Some p -> compared o x y = Some b ->
  vop p (vint x) (vint y) = Ok (vint (holds b)) /\ is_cmp p = true.
Proof.
  intros P C. destruct o; cbn in P; try discriminate P; injection P as <-; cbn in C; try discriminate C; injection C as <-;
    (split; [|reflexivity]); cbn [vop]; f_equal; rewrite <- b01_holds; f_equal;
    unfold vltb, vleb, veqb; rewrite vcmp_int; unfold Z.ltb, Z.leb;
    try (rewrite <- (Z.compare_antisym x y)); try rewrite (Z.compare_antisym x y);
    try (destruct (x ?= y) eqn:E; reflexivity).
  - destruct (Z.compare_spec x y) as [->|L|G]; symmetry; [apply Z.eqb_refl|apply Z.eqb_neq; lia|apply Z.eqb_neq; lia].
  - f_equal. destruct (Z.compare_spec x y) as [->|L|G]; symmetry; [apply Z.eqb_refl|apply Z.eqb_neq; lia|apply Z.eqb_neq; lia].
Qed.
Lemma computed_vop o p x y z : python_op o = Some p -> computed o x y = Some z -> vop p (vint x) (vint y) = Ok (vint z).
Proof.
  intros P C. destruct (compared o x y) as [b|] eqn:E.
  - assert (Ez : z = holds b). { destruct o; cbn in E, C; try discriminate E; injection E as <-; injection C as <-; reflexivity. }
    subst z. exact (proj1 (compared_vop _ _ _ _ _ P E)).
  - destruct o; cbn in P; try discriminate P; injection P as <-; cbn in C, E; try discriminate C; try discriminate E.
    + injection C as <-. reflexivity.
    + injection C as <-. reflexivity.
    + injection C as <-. reflexivity.
    + destruct (y =? 0) eqn:Y; [discriminate|]. injection C as <-. cbn [vop num_op vint]. unfold nfloordiv. cbn [mant].
      rewrite Y. reflexivity.
    + destruct (y <? 0) eqn:Y; [discriminate|]. injection C as <-. cbn [vop num_op vint npow].
      apply Z.ltb_ge in Y. apply Z.leb_le in Y. rewrite Y. reflexivity.
Qed.
Lemma logical_vop o p x y z : python_op o = Some p -> logical o x y = Some z -> vop p (vint x) (vint y) = Ok (vint z).
Proof.
  intros P C. destruct o; cbn in P; try discriminate P; injection P as <-; cbn in C; try discriminate C; injection C as <-; reflexivity.
Qed.

(** ** Dice *)

Definition defined_on (f : Z -> Z -> option Z) (a b : table) : bool :=
  forallb (fun x => forallb (fun y => match f (fst x) (fst y) with Some _ => true | None => false end) b) a.
Definition the (o : option Z) : Z := match o with Some z => z | None => 0 end.
Definition law_of (f : Z -> Z -> option Z) (a b : table) : law Z :=
  draw a (fun x => draw b (fun y => match f x y with Some z => sure z | None => [] end)).

Lemma defined_in f a b x y : defined_on f a b = true -> In x (map fst a) -> In y (map fst b) -> f x y = Some (the (f x y)).
Proof.
  intros D Hx Hy. unfold defined_on in D. apply in_map_iff in Hx as [p [<- Hp]]. apply in_map_iff in Hy as [q [<- Hq]].
  rewrite forallb_forall in D. specialize (D p Hp). rewrite forallb_forall in D. specialize (D q Hq).
  destruct (f (fst p) (fst q)); [reflexivity|discriminate].
Qed.
Lemma law_fine f a b : fine a -> fine b -> fine (collect (law_of f a b)).
Proof.
  intros [_ A] [_ B]. apply collect_fine. apply positive_draw; [exact A|]. intros x q _.
  apply positive_draw; [exact B|]. intros y q' _. destruct (f x y); [apply positive_sure|constructor].
Qed.
Lemma law_ex f a b : defined_on f a b = true -> forall g,
  (ex g (collect (law_of f a b)) == ex (fun x => ex (fun y => g (the (f x y))) b) a)%Q.
Proof.
  intros D g. rewrite ex_collect. unfold law_of. rewrite ex_draw. apply ex_ext. intros x q Hx.
  rewrite ex_draw. apply ex_ext. intros y q' Hy.
  rewrite (defined_in f a b x y D (in_map fst _ _ Hx) (in_map fst _ _ Hy)). cbn [the]. rewrite ex_sure. reflexivity.
Qed.
Lemma both_meets f a b r :
  (forall t, defined_on f a b = true -> fine t -> (forall g, (ex g t == ex (fun x => ex (fun y => g (the (f x y))) b) a)%Q) ->
     lcd t <= bound -> exists d, r = Ok (ORV (rv_of d)) /\ reps t d) ->
  fine a -> fine b -> meets (both f a b) r.
Proof.
  intros H Fa Fb. unfold both. fold (defined_on f a b). destruct (defined_on f a b) eqn:D; [|apply meets_err].
  apply meets_die. intro B. apply (H _ eq_refl).
  - exact (law_fine f a b Fa Fb).
  - exact (law_ex f a b D).
  - exact B.
Qed.

Section ops.
Variable c : cfg.
Hypothesis TR : cfg_trunc c = false.

Section one_op.
Variables (f : Z -> Z -> option Z) (p : Val.binop).
Hypothesis FV : forall x y z, f x y = Some z -> vop p (vint x) (vint y) = Ok (vint z).

Lemma die_die a b x y : reps a x -> reps b y -> meets (both f a b) (rmap ORV (rv_op c p x y)).
Proof.
  intros Ra Rb. apply both_meets; [|exact (rp_fine _ _ Ra)|exact (rp_fine _ _ Rb)]. intros t D F E B.
  destruct (conv_reps c (vop p) (fun x y => the (f x y)) a b x y t TR Ra Rb) as [d [Ed [Rd _]]].
  - intros u v Hu Hv. apply FV. exact (defined_in f a b u v D Hu Hv).
  - exact F.
  - exact E.
  - right. exact B.
  - exists d. split; [|exact Rd]. unfold rv_op. rewrite Ed. reflexivity.
Qed.
Lemma die_const a z x : reps a x -> meets (both f a (sure z)) (rmap ORV (rv_op_const c p x (vint z))).
Proof.
  intros Ra. apply both_meets; [|exact (rp_fine _ _ Ra)|apply fine_sure]. intros t D F E B.
  destruct (map_reps c (fun v => vop p v (vint z)) (fun x => the (f x z)) a x t TR Ra) as [d [Ed [Rd _]]].
  - intros u Hu. apply FV. apply (defined_in f a (sure z) u z D Hu). left. reflexivity.
  - exact F.
  - intro g. rewrite E. apply ex_ext. intros u q _. rewrite ex_sure. reflexivity.
  - exists d. split; [|exact Rd]. unfold rv_op_const. rewrite Ed. reflexivity.
Qed.
Lemma const_die b z y : reps b y -> meets (both f (sure z) b) (rmap ORV (const_op_rv c p (vint z) y)).
Proof.
  intros Rb. apply both_meets; [|apply fine_sure|exact (rp_fine _ _ Rb)]. intros t D F E B.
  destruct (map_reps c (fun v => vop p (vint z) v) (fun x => the (f z x)) b y t TR Rb) as [d [Ed [Rd _]]].
  - intros u Hu. apply FV. apply (defined_in f (sure z) b z u D); [|exact Hu]. left. reflexivity.
  - exact F.
  - intro g. rewrite E. rewrite ex_sure. reflexivity.
  - exists d. split; [|exact Rd]. unfold const_op_rv. rewrite Ed. reflexivity.
Qed.
Lemma number_meets x y r : (forall z, f x y = Some z -> r = Ok (oint z)) -> meets (number (f x y)) r.
Proof.
  intros H v E. unfold number in E. destruct (f x y) as [z|] eqn:Z; [|discriminate]. injection E as <-.
  exists (oint z). split; [now apply H|constructor].
Qed.
End one_op.

Lemma const_map f b z y h : (forall u r, f z u = Some r -> h (vint u) = Ok (vint r)) -> reps b y ->
  meets (both f (sure z) b) (rmap ORV (rv_map c h y)).
Proof.
  intros FV Rb. apply both_meets; [|apply fine_sure|exact (rp_fine _ _ Rb)]. intros t D F E B.
  destruct (map_reps c h (fun x => the (f z x)) b y t TR Rb) as [d [Ed [Rd _]]].
  - intros u Hu. apply FV. apply (defined_in f (sure z) b z u D); [|exact Hu]. left. reflexivity.
  - exact F.
  - intro g. rewrite E. rewrite ex_sure. reflexivity.
  - exists d. split; [|exact Rd]. rewrite Ed. reflexivity.
Qed.
Lemma mirror_vop p x y : is_cmp p = true -> vop (mirror p) (vint y) (vint x) = vop p (vint x) (vint y).
Proof.
  intro H. destruct p; try discriminate H; cbn [mirror vop]; try reflexivity; unfold veqb;
    rewrite !vcmp_int, (Z.compare_antisym x y); destruct (x ?= y); reflexivity.
Qed.

Lemma op_operate o p a b a' b' : python_op o = Some p -> is_bool p = false -> is_val a a' -> is_val b b' ->
  (is_cmp p = true -> match a, b with ISeq _, (INum _ | ISeq _) | INum _, ISeq _ => False | _, _ => True end) ->
  meets (operate (computed o) a b) (py_op c p a' b').
Proof.
  intros P NB Ha Hb NS. pose proof (fun x y z => computed_vop o p x y z P) as FV.
  assert (A : is_cmp p = false -> arithmetic p = true) by (destruct p; try discriminate NB; intros; reflexivity || discriminate).
  unfold operate.
  destruct Ha as [x|s|l|l l' _|t q x [Rx _]|bb|]; destruct Hb as [y|s'|m|m m' _|u r y [Ry _]|bb'|]; cbn [amount amounts option_map];
    try apply meets_err.
  - apply number_meets. intros z E. unfold oint. rewrite py_values. unfold value_op.
    destruct p; try discriminate NB; rewrite (FV _ _ _ E); reflexivity.
  - destruct (is_cmp p) eqn:K; [destruct (NS eq_refl)|]. apply number_meets. intros z E.
    destruct (seq_arith c p (map vint m) (NI (IdealSpec.sum m)) (A eq_refl) (seq_sum_of m)) as [_ [H _]].
    unfold oint, vint. rewrite H. fold (vint x). fold (vint (IdealSpec.sum m)). rewrite (FV _ _ _ E). reflexivity.
  - unfold oint, vint. destruct (is_cmp p) eqn:K.
    + rewrite (py_number_die_cmp c p _ _ K). unfold rv_op_const. apply const_map; [|exact Ry].
      intros w z E. fold (vint x). rewrite (mirror_vop _ _ _ K). exact (FV _ _ _ E).
    + rewrite (py_number_die c p _ _ K). exact (const_die (computed o) p FV u x _ Ry).
  - destruct (is_cmp p) eqn:K; [destruct (NS eq_refl)|]. apply number_meets. intros z E.
    destruct (seq_arith c p (map vint l) (NI (IdealSpec.sum l)) (A eq_refl) (seq_sum_of l)) as [H _].
    unfold oint. rewrite H. fold (vint (IdealSpec.sum l)). rewrite (FV _ _ _ E). reflexivity.
  - destruct (is_cmp p) eqn:K; [destruct (NS eq_refl)|]. apply number_meets. intros z E.
    destruct (seq_arith c p (map vint l) (NI (IdealSpec.sum l)) (A eq_refl) (seq_sum_of l)) as [_ [_ [_ [_ H]]]].
    rewrite (H _ _ (seq_sum_of m)). fold (vint (IdealSpec.sum l)). fold (vint (IdealSpec.sum m)). rewrite (FV _ _ _ E). reflexivity.
  - destruct (is_cmp p) eqn:K.
    + assert (RL : relational p = true) by (rewrite relational_cmp; exact K).
      rewrite (proj1 (seq_compare_die c p _ _ y RL (seq_sum_of l))). unfold rv_op_const. apply const_map; [|exact Ry].
      intros w z E. fold (vint (IdealSpec.sum l)). rewrite (mirror_vop _ _ _ K). exact (FV _ _ _ E).
    + destruct (seq_arith c p (map vint l) (NI (IdealSpec.sum l)) (A eq_refl) (seq_sum_of l)) as [_ [_ [H _]]].
      rewrite H. exact (const_die (computed o) p FV u _ _ Ry).
  - unfold oint. rewrite py_die_value. exact (die_const (computed o) p FV t y _ Rx).
  - destruct (is_cmp p) eqn:K.
    + assert (RL : relational p = true) by (rewrite relational_cmp; exact K).
      rewrite (proj2 (seq_compare_die c p _ _ x RL (seq_sum_of m))). exact (die_const (computed o) p FV t _ _ Rx).
    + destruct (seq_arith c p (map vint m) (NI (IdealSpec.sum m)) (A eq_refl) (seq_sum_of m)) as [_ [_ [_ [H _]]]].
      rewrite H. exact (die_const (computed o) p FV t _ _ Rx).
  - rewrite py_die_die. exact (die_die (computed o) p FV t u _ _ Rx Ry).
Qed.

(** ** Counting in sequences, comparing them *)

Lemma cmp_compared o p x y b : python_op o = Some p -> compared o x y = Some b -> cmp_holds p (x ?= y) = b /\ relational p = true.
Proof.
  intros P C. destruct o; cbn in P; try discriminate P; injection P as <-; cbn in C; try discriminate C; injection C as <-;
    (split; [|reflexivity]); cbn [cmp_holds]; unfold Z.ltb, Z.leb; try rewrite (Z.compare_antisym x y);
    try (destruct (x ?= y) eqn:E; reflexivity);
    destruct (Z.compare_spec x y) as [->|L|G]; try (rewrite Z.eqb_refl; reflexivity);
    try (replace (x =? y) with false by (symmetry; apply Z.eqb_neq; lia); reflexivity).
Qed.
Lemma related_compared o p x y b : python_op o = Some p -> compared o x y = Some b -> related p (vq (vint x)) (vq (vint y)) = b.
Proof.
  intros P C. destruct (cmp_compared _ _ _ _ _ P C) as [H R]. rewrite <- (vcmp_related p (vint x) (vint y) R eq_refl eq_refl).
  rewrite vcmp_int. exact H.
Qed.
Lemma comparison_all o x y : is_comparison o = true -> exists b, compared o x y = Some b.
Proof. destruct o; try discriminate; intros _; eexists; reflexivity. Qed.
Lemma numbers_vint l : numbers (map vint l).
Proof. apply Forall_map. apply Forall_forall. reflexivity. Qed.
Lemma counted (P : pval -> bool) (f : Z -> option bool) l : (forall x, f x = Some (P (vint x))) ->
  SeqSpec.how_many P (map vint l) = IdealSpec.how_many f l.
Proof.
  intro H. rewrite how_many_filter. unfold IdealSpec.how_many. f_equal. induction l as [|x l IH]; [reflexivity|].
  cbn [map filter]. rewrite (H x). destruct (P (vint x)); cbn [length]; rewrite IH; reflexivity.
Qed.
Lemma python_comparison o : is_comparison o = true -> exists p, python_op o = Some p /\ relational p = true.
Proof. destruct o; try discriminate; intros _; eexists; split; reflexivity. Qed.
Lemma count_seq_num o p l z : python_op o = Some p -> is_comparison o = true ->
  py_op c p (OSeq (map vint l)) (oint z) = Ok (oint (IdealSpec.how_many (fun x => compared o x z) l)).
Proof.
  intros P C. destruct (python_comparison o C) as [p' [P' R]]. rewrite P in P'. injection P' as <-.
  unfold oint, vint at 2. rewrite (seq_count c p _ (NI z) R (numbers_vint l)).
  rewrite (counted _ (fun x => compared o x z)); [reflexivity|]. intro x.
  destruct (comparison_all o x z C) as [b E]. rewrite E. f_equal. symmetry. exact (related_compared _ _ _ _ _ P E).
Qed.
Lemma count_num_seq o p l z : python_op o = Some p -> is_comparison o = true ->
  py_op c p (oint z) (OSeq (map vint l)) = Ok (oint (IdealSpec.how_many (fun x => compared o z x) l)).
Proof.
  intros P C. destruct (python_comparison o C) as [p' [P' R]]. rewrite P in P'. injection P' as <-.
  unfold oint, vint at 1. rewrite (number_count c p _ (NI z) R (numbers_vint l)).
  rewrite (counted _ (fun x => compared o z x)); [reflexivity|]. intro x.
  destruct (comparison_all o z x C) as [b E]. rewrite E. f_equal. symmetry. exact (related_compared _ _ _ _ _ P E).
Qed.
Lemma same_entries l m : Forall2 Qeq (map vq (map vint l)) (map vq (map vint m)) <-> l = m.
Proof.
  split.
  - revert m. induction l as [|x l IH]; intros [|y m] H; inversion H as [|? ? ? ? E T]; subst; [reflexivity|].
    f_equal; [|exact (IH m T)]. cbn [vq vint] in E. apply inject_eq. exact E.
  - intros <-. induction l as [|x l IH]; [constructor|]. constructor; [reflexivity|exact IH].
Qed.
Lemma seq_same l m :
  py_op c Val.OEq (OSeq (map vint l)) (OSeq (map vint m)) = Ok (oint (holds (same_list l m))) /\
  py_op c Val.ONe (OSeq (map vint l)) (OSeq (map vint m)) = Ok (oint (holds (negb (same_list l m)))).
Proof.
  destruct (seq_compare c (map vint l) (map vint m) (numbers_vint l) (numbers_vint m)) as [Z [E [N _]]].
  pose proof (same_entries l m) as SE. pose proof (same_list_spec l m) as SL.
  assert (X : forall r : res obj, r = Ok (oint 0) \/ r = Ok (oint 1) -> forall b, (r = Ok (oint 1) <-> b = true) -> r = Ok (oint (holds b))).
  { intros r D [] H; [now apply H|]. destruct D as [D|D]; [exact D|]. apply H in D. discriminate. }
  split; apply X.
  - now apply Z.
  - rewrite E, SE. symmetry. exact SL.
  - now apply Z.
  - rewrite N, SE, negb_true_iff, <- not_true_iff_false, SL. reflexivity.
Qed.
Lemma everywhere_hold p f : (forall x y, cmp_holds p (x ?= y) = f x y) -> forall l m,
  all_hold p (map vint l) (map vint m) = everywhere f (cmp_holds p Gt) (cmp_holds p Lt) l m.
Proof.
  intro H. induction l as [|x l IH]; intros [|y m].
  - reflexivity.
  - cbn [map]. rewrite all_hold_nil_l. reflexivity.
  - cbn [map]. rewrite all_hold_nil_r. reflexivity.
  - cbn [map everywhere]. rewrite all_hold_cons, IH, vcmp_int, H. reflexivity.
Qed.
Lemma seq_ordered p f l m : order_op p = true -> (forall x y, cmp_holds p (x ?= y) = f x y) ->
  py_op c p (OSeq (map vint l)) (OSeq (map vint m)) = Ok (oint (holds (everywhere f (cmp_holds p Gt) (cmp_holds p Lt) l m))).
Proof.
  intros O H. rewrite entrywise_seq by (destruct p; try discriminate O; reflexivity).
  rewrite <- (everywhere_hold p f H). destruct p; try discriminate O; reflexivity.
Qed.

(** ** Blanks, signs *)

Lemma negative_meets a a' : is_val a a' -> meets (negative a) (neg_obj c a').
Proof.
  intros [x|s|l|l l' _|t q x [Rx _]|bb|]; cbn [negative]; try apply meets_err.
  - apply meets_ok. constructor.
  - apply meets_die. intros _. destruct (opposite_reps c t (rv_dist x) TR Rx) as [d [E [R _]]]. exists d. split; [|exact R].
    cbn [neg_obj]. rewrite E. reflexivity.
  - destruct bb; [apply meets_err|]. apply meets_ok. constructor.
Qed.
Lemma un_meets u a a' : is_val a a' ->
  meets (ideal_un u a)
    (match u with
     | UPos => pos_obj a'
     | UNeg => neg_obj c a'
     | UNot => match a' with OV (VN (NI z)) => Ok (oint (Z.lnot z)) | _ => my_invert c a' end
     end).
Proof.
  intro H. destruct u; cbn [ideal_un]; [| |apply meets_err].
  - destruct (plain a) eqn:P; [|apply meets_err]. destruct H; try discriminate P; apply meets_ok; constructor; assumption.
  - now apply negative_meets.
Qed.
Lemma blank_meets o p a b a' b' : python_op o = Some p -> is_val a a' -> is_val b b' ->
  match a, b with IBlank _, _ | _, IBlank _ => True | _, _ => False end ->
  meets (with_blank o a b) (py_op c p a' b').
Proof.
  intros P Ha Hb K. unfold with_blank. destruct (counts a) eqn:Pa; [|apply meets_err]. destruct (counts b) eqn:Pb; [|apply meets_err].
  cbn [andb]. destruct o; cbn in P; try discriminate P; injection P as <-; try apply meets_err;
    pose proof (negative_meets b b' Hb) as NB;
    destruct Ha as [x|s|l|l l' _|t q x R|[]|]; try discriminate Pa; destruct Hb as [y|s'|m|m m' _|u r y R'|[]|]; try discriminate Pb;
      try contradiction; try (apply meets_ok; constructor; assumption);
      try (unfold py_op; rewrite dispatch_S; cbn [other_first is_cmp andb fwd]; unfold seq_fwd; cbn [is_cmp is_bool compare_to meta_sum];
           rewrite seq_sum_of; apply meets_ok; constructor).
  all: try (unfold py_op; rewrite dispatch_S; cbn [other_first is_cmp andb fwd blank_fwd seq_entries];
           rewrite map_map; change (fun x => OV (vint x)) with oint; rewrite get_seq_ints; cbn [bind meta_sum];
           rewrite seq_sum_of; apply meets_ok; constructor).
  all: intros v E; destruct (NB v E) as [v' [E' R'']]; exists v'; split; [|exact R'']; unfold py_op; rewrite dispatch_S;
    cbn [other_first is_cmp andb fwd blank_fwd]; rewrite E'; reflexivity.
Qed.

Lemma op_meets o a b a' b' : is_val a a' -> is_val b b' ->
  meets (ideal_op o a b) (match python_op o with Some p => py_op c p a' b' | None => matmul c a' b' end).
Proof.
  intros Ha Hb. destruct (python_op o) as [p|] eqn:P; [|destruct o; try discriminate P; apply meets_err].
  destruct (is_bool p) eqn:NB; [destruct o; try discriminate P; injection P as <-; try discriminate NB; apply meets_err|].
  assert (X : match a, b with IBlank _, _ | _, IBlank _ => True | _, _ => False end \/
              match a, b with IBlank _, _ | _, IBlank _ => False | _, _ => True end)
    by (destruct a, b; auto).
  assert (OK : match o with OAt | OAnd | OOr => False | _ => True end)
    by (destruct o; try discriminate P; injection P as <-; try discriminate NB; exact Logic.I).
  destruct X as [X|X].
  - pose proof (blank_meets o p a b a' b' P Ha Hb X) as B.
    replace (ideal_op o a b) with (with_blank o a b); [exact B|]. destruct o; try contradiction; destruct a, b; try contradiction; reflexivity.
  - assert (CM : is_cmp p = is_comparison o) by (destruct o; try discriminate P; injection P as <-; reflexivity).
    assert (Op : (is_comparison o = true -> match a, b with ISeq _, (INum _ | ISeq _) | INum _, ISeq _ => False | _, _ => True end) ->
                 meets (operate (computed o) a b) (py_op c p a' b')).
    { intro H. apply (op_operate o p a b a' b' P NB Ha Hb). rewrite CM. exact H. }
    assert (Y : match a, b with ISeq _, (INum _ | ISeq _) | INum _, ISeq _ => True | _, _ => ideal_op o a b = operate (computed o) a b end)
      by (destruct o; try contradiction; destruct a, b; try contradiction; try exact Logic.I; reflexivity).
    destruct Ha as [x|s|l|l l' Hl|t q x R|bb|]; destruct Hb as [y|s'|m|m m' Hm|u r y R'|bb'|]; try contradiction;
      try (rewrite Y; apply Op; intros; exact Logic.I).
    + replace (ideal_op o (INum x) (ISeq m)) with
        (if is_comparison o then Ok (INum (IdealSpec.how_many (fun z => compared o x z) m)) else operate (computed o) (INum x) (ISeq m))
        by (destruct o; try contradiction; reflexivity).
      destruct (is_comparison o) eqn:C; [|apply Op; discriminate]. rewrite (count_num_seq o p m x P C). apply meets_ok. constructor.
    + replace (ideal_op o (ISeq l) (INum y)) with
        (if is_comparison o then Ok (INum (IdealSpec.how_many (fun x => compared o x y) l)) else operate (computed o) (ISeq l) (INum y))
        by (destruct o; try contradiction; reflexivity).
      destruct (is_comparison o) eqn:C; [|apply Op; discriminate]. rewrite (count_seq_num o p l y P C). apply meets_ok. constructor.
    + destruct (is_comparison o) eqn:C.
      * assert (OR : forall q f mo fe, order_op q = true -> cmp_holds q Gt = mo -> cmp_holds q Lt = fe ->
                    (forall x y, cmp_holds q (x ?= y) = f x y) ->
                    meets (Ok (INum (holds (everywhere f mo fe l m)))) (py_op c q (OSeq (map vint l)) (OSeq (map vint m)))).
        { intros q f mo fe O <- <- H. rewrite (seq_ordered q f l m O H). apply meets_ok. constructor. }
        destruct o; try discriminate C; injection P as <-; cbn [ideal_op];
          try (apply OR; try reflexivity; intros u v; cbn [cmp_holds]; unfold Z.ltb, Z.leb, Z.gtb, Z.geb; destruct (u ?= v); reflexivity).
        -- rewrite (proj1 (seq_same l m)). apply meets_ok. constructor.
        -- rewrite (proj2 (seq_same l m)). apply meets_ok. constructor.
      * replace (ideal_op o (ISeq l) (ISeq m)) with (operate (computed o) (ISeq l) (ISeq m))
          by (destruct o; try contradiction; try discriminate C; reflexivity).
        apply Op; discriminate.
Qed.

(** ** The operators that are functions *)

Lemma nonzero_int z : nonzero (vint z) = negb (z =? 0).
Proof. unfold nonzero. rewrite veqb_int. reflexivity. Qed.
Lemma logical_meets o p a b a' b' : python_op o = Some p -> is_bool p = true -> is_val a a' -> is_val b b' ->
  meets (operate (logical o) a b) (my_op c p a' b').
Proof.
  intros P B Ha Hb. pose proof (fun x y z => logical_vop o p x y z P) as FV.
  assert (C : is_cmp p = false) by (destruct p; try discriminate B; reflexivity).
  assert (TV : forall x y z, logical o x y = Some z -> OV (b01 (match p with Val.OOr => negb (x =? 0) || negb (y =? 0) | _ => negb (x =? 0) && negb (y =? 0) end)) = oint z).
  { intros x y z E. destruct o; try discriminate P; injection P as <-; try discriminate B; injection E as <-; reflexivity. }
  assert (MP : match a', b' with OV (VN (NI _)), OV (VN (NI _)) => True | _, _ => my_op c p a' b' = py_op c p a' b' end).
  { destruct p; try discriminate B; destruct a' as [[[]|]| | | | | | |], b' as [[[]|]| | | | | | |]; try exact Logic.I; reflexivity. }
  unfold operate.
  destruct Ha as [x|s|l|l l' _|t q x [Rx _]|bb|]; destruct Hb as [y|s'|m|m m' _|u r y [Ry _]|bb'|]; cbn [amount amounts option_map];
    try apply meets_err.
  - apply number_meets. intros z E. rewrite <- (TV _ _ _ E). destruct p; try discriminate B; reflexivity.
  - cbn [oint vint] in MP. rewrite MP. apply number_meets. intros z E. change (oint x) with (OV (VN (NI x))). unfold py_op. rewrite dispatch_S.
    unfold other_first. rewrite C. cbn [andb fwd nimpl bind]. unfold rev_op. rewrite C. unfold seq_rev. cbn [meta_sum].
    rewrite seq_sum_of. cbn [bind]. rewrite B. cbn [bind]. unfold truth2. fold (vint x). rewrite !nonzero_int.
    rewrite <- (TV _ _ _ E). do 3 f_equal. destruct p; try discriminate B; [apply orb_comm|apply andb_comm].
  - cbn [oint vint] in MP. rewrite MP. change (oint x) with (OV (VN (NI x))). rewrite (py_number_die c p _ _ C). exact (const_die (logical o) p FV u x _ Ry).
  - cbn [oint vint] in MP. rewrite MP. apply number_meets. intros z E. change (oint y) with (OV (VN (NI y))). unfold py_op. rewrite dispatch_S.
    unfold other_first. rewrite C. cbn [andb fwd]. unfold seq_fwd. rewrite C. cbn [meta_sum]. rewrite seq_sum_of.
    cbn [bind]. rewrite B. cbn [bind]. unfold truth2. fold (vint y). rewrite !nonzero_int. rewrite <- (TV _ _ _ E). reflexivity.
  - rewrite MP. apply number_meets. intros z E. unfold py_op. rewrite dispatch_S.
    unfold other_first. rewrite C. cbn [andb fwd]. unfold seq_fwd. rewrite C. cbn [meta_sum]. rewrite seq_sum_of.
    cbn [bind]. rewrite B. rewrite dispatch_S. unfold other_first. rewrite C.
    change (vint (IdealSpec.sum l)) with (VN (NI (IdealSpec.sum l))). cbn [andb fwd nimpl bind].
    unfold rev_op. rewrite C. unfold seq_rev. cbn [meta_sum]. rewrite seq_sum_of. cbn [bind]. rewrite B. cbn [bind done rmap].
    unfold truth2. fold (vint (IdealSpec.sum l)). rewrite !nonzero_int. rewrite <- (TV _ _ _ E). do 3 f_equal.
    destruct p; try discriminate B; [apply orb_comm|apply andb_comm].
  - rewrite MP. rewrite (py_seq_l c p (map vint l) (ORV y) C (fun _ => conj eq_refl Logic.I) Logic.I), seq_sum_of. cbn [bind].
    unfold vint. rewrite (py_number_die c p _ _ C). exact (const_die (logical o) p FV u _ _ Ry).
  - rewrite MP. unfold oint. rewrite py_die_value. exact (die_const (logical o) p FV t y _ Rx).
  - rewrite MP.
    replace (py_op c p (ORV x) (OSeq (map vint m))) with (rmap ORV (rv_op_const c p (rv_dist x) (vint (IdealSpec.sum m)))).
    + exact (die_const (logical o) p FV t _ _ Rx).
    + unfold py_op. rewrite dispatch_S. unfold other_first. rewrite C. cbn [andb fwd convolve meta_sum]. rewrite seq_sum_of. cbn [bind].
      destruct (rv_op_const c p (rv_dist x) (vint (IdealSpec.sum m))); reflexivity.
  - rewrite MP. rewrite py_die_die. exact (die_die (logical o) p FV t u _ _ Rx Ry).
Qed.

Notation hi := (cfg_highest c).

Lemma lcd_pow t d n : reps t d -> lcd t ^ Z.of_nat n <= bound -> total d ^ Z.of_nat n <= SUM_LIMIT.
Proof.
  intros R B. replace (Z.of_nat n) with (Z.abs (Z.of_nat n)) in * by lia. apply (pow_le_bound t d _ R).
  unfold roll_ok. apply Z.leb_le. exact B.
Qed.
Lemma length_digits z : 0 <= z -> decimal_length z (digits_in z).
Proof.
  intro N. destruct (decimal_length_exists z N) as [k K]. replace (digits_in z) with k; [exact K|].
  assert (E : my_len (oint z) = Ok k) by (apply len_digits; rewrite Z.abs_eq by exact N; exact K). unfold oint, vint in E. cbn [my_len] in E.
  injection E as <-. reflexivity.
Qed.
Lemma at_meets ks v v' a' : is_val v v' -> (a' = OSeq (map vint ks) \/ exists k, ks = [k] /\ a' = oint k) ->
  meets (ideal_at hi ks v) (my_matmul c a' v').
Proof.
  intros Hv Ha. destruct Hv as [x|s|l|l l' _|t q x [Rx Px]|bb|]; cbn [ideal_at]; try apply meets_err.
  - destruct (x <? 0) eqn:B; [apply meets_err|]. apply Z.ltb_ge in B. pose proof (length_digits x B) as K.
    assert (E : my_matmul c a' (oint x) = Ok (oint (IdealSpec.sum (map (fun k => digit_of k x) ks)))).
    { destruct Ha as [->|[k [-> ->]]].
      - change (my_matmul c (OSeq (map vint ks)) (oint x)) with (matmul c (OSeq (map vint ks)) (oint x)).
        rewrite (positions_digits c ks x _ B K). reflexivity.
      - rewrite (position_digit c k x _ B K). unfold oint. do 3 f_equal. symmetry. apply Z.add_0_r. }
    rewrite E. apply meets_ok. constructor.
  - assert (E : my_matmul c a' (OSeq (map vint l)) = Ok (oint (IdealSpec.sum (map (fun k => nth_of k l) ks)))).
    { destruct Ha as [->|[k [-> ->]]].
      - change (my_matmul c (OSeq (map vint ks)) (OSeq (map vint l))) with (matmul c (OSeq (map vint ks)) (OSeq (map vint l))).
        rewrite (positions_seq c ks (map vint l) (all_int_vint l)). f_equal. f_equal. rewrite <- sum_sumZ. f_equal. apply map_ext. intro k.
        rewrite entry_nth. reflexivity.
      - change (my_matmul c (oint k) (OSeq (map vint l))) with (matmul c (oint k) (OSeq (map vint l))).
        rewrite position_int, entry_nth. unfold oint. do 3 f_equal. symmetry. apply Z.add_0_r. }
    rewrite E. apply meets_ok. constructor.
  - destruct q as [[n s]|]; [|apply meets_err]. destruct Px as [N [Rn Rs]].
    assert (One : forall k, ks = [k] -> my_matmul c a' (ORV x) = rv_rmatmul c (oint k) x).
    { intros k ->. destruct Ha as [->|[k' [Ek ->]]].
      - change (my_matmul c (OSeq (map vint [k])) (ORV x)) with (rv_rmatmul c (OSeq (map vint [k])) x).
        rewrite at_seq. apply at_one.
      - injection Ek as <-. reflexivity. }
    destruct (match ks with [_] => true | _ => hi end) eqn:HO; [|apply meets_err].
    destruct (match ks with [k] => negb ((1 <=? k) && (k <=? Z.of_nat n)) | _ => false end) eqn:O.
    + destruct ks as [|k [|]]; try discriminate O. rewrite (One k eq_refl).
      rewrite (position_outside c (rv_die x) x (Z.of_nat n) k eq_refl Rn TR (reps_nonneg _ _ Rs)); [apply meets_ok; constructor|].
      apply negb_true_iff, andb_false_iff in O. rewrite !Z.leb_gt in O. lia.
    + destruct (lcd s ^ Z.of_nat n <=? bound) eqn:B; [|apply meets_err]. apply Z.leb_le in B.
      apply meets_die. intro L. change (collect _) with (pick_law hi ks n s) in *.
      destruct ks as [|k [|k2 ks]].
      * rewrite HO in *. destruct (select_reps c x s n [] TR Rs Rn L) as [d [E R]]. exists d. split; [|exact R]. destruct Ha as [->|[k' [Ek _]]]; [|discriminate].
        rewrite <- E. change (my_matmul c (OSeq (map vint [])) (ORV x)) with (rv_rmatmul c (OSeq (map vint [])) x).
        rewrite at_seq. apply at_several. discriminate.
      * rewrite (One k eq_refl). apply (position_reps c x s n k TR Rs Rn).
        -- apply negb_false_iff, andb_true_iff in O. rewrite !Z.leb_le in O. lia.
        -- exact (lcd_pow s _ n Rs B).
      * rewrite HO in *. destruct (select_reps c x s n (k :: k2 :: ks) TR Rs Rn L) as [d [E R]]. exists d. split; [|exact R].
        destruct Ha as [->|[k' [Ek _]]]; [|discriminate].
        rewrite <- E. change (my_matmul c (OSeq (map vint (k :: k2 :: ks))) (ORV x)) with (rv_rmatmul c (OSeq (map vint (k :: k2 :: ks))) x).
        rewrite at_seq. apply at_several. discriminate.
Qed.
Lemma my_meets m l l' : Forall2 is_val l l' ->
  meets (ideal_my hi m l)
    (match m, l' with
     | MyAt, [a; b] => my_matmul c a b
     | MyLen, [a] => rmap oint (my_len a)
     | MyNot, [a] => my_invert c a
     | MyAnd, [a; b] => my_op c Val.OAnd a b
     | MyOr, [a; b] => my_op c Val.OOr a b
     | _, _ => Err TypeErr
     end).
Proof.
  intro H. destruct m; cbn [ideal_my].
  - destruct H as [|a a' l l' Ha H]; [apply meets_err|].
    destruct H as [|b b' l l' Hb H]; [destruct a; apply meets_err|].
    destruct H as [|? ? ? ? _ _]; [|destruct a; apply meets_err].
    destruct Ha as [x|s|m|m m' _|t q x R|bb|]; try apply meets_err.
    + apply at_meets; [exact Hb|]. right. now exists x.
    + apply at_meets; [exact Hb|]. now left.
  - destruct H as [|a a' l l' Ha H]; [apply meets_err|]. destruct H as [|b b' l l' Hb H].
    + destruct Ha as [x|s|m|m m' _|t [[n s]|] x [R P]|[]|]; try apply meets_err.
      * apply meets_ok. constructor.
      * apply meets_ok. rewrite <- (map_length vint m). constructor.
      * cbn [my_len]. destruct P as [N [Rn _]]. rewrite Rn. destruct (Z.of_nat n <? 0) eqn:B; [apply Z.ltb_lt in B; lia|].
        apply meets_ok. constructor.
      * apply meets_ok. constructor.
    + destruct Ha as [x|s|m|m m' _|t [[n s]|] x [R P]|[]|]; apply meets_err.
  - destruct H as [|a a' l l' Ha H]; [apply meets_err|]. destruct H as [|b b' l l' Hb H]; [|destruct a as [| | | | |[]|]; apply meets_err].
    destruct Ha as [x|s|m|m m' _|t q x R|[]|]; try apply meets_err.
    + apply meets_ok. constructor.
    + cbn [amount my_invert meta_sum]. rewrite seq_sum_of. cbn [bind]. rewrite veqb_int. apply meets_ok. constructor.
    + apply meets_ok. constructor.
  - destruct H as [|a a' l l' Ha H]; [apply meets_err|].
    destruct H as [|b b' l l' Hb H]; [apply meets_err|].
    destruct H as [|? ? ? ? _ _]; [|apply meets_err].
    pose proof (logical_meets OAnd Val.OAnd a b a' b' eq_refl eq_refl Ha Hb) as L.
    assert (BL : match a, b with IBlank _, _ | _, IBlank _ => True | _, _ => False end -> meets (with_blank OAnd a b) (my_op c Val.OAnd a' b')).
    { intro K. replace (my_op c Val.OAnd a' b') with (py_op c Val.OAnd a' b'); [exact (blank_meets OAnd Val.OAnd a b a' b' eq_refl Ha Hb K)|].
      destruct Ha; destruct Hb; try contradiction; reflexivity. }
    destruct a, b; try exact L; exact (BL Logic.I).
  - destruct H as [|a a' l l' Ha H]; [apply meets_err|].
    destruct H as [|b b' l l' Hb H]; [apply meets_err|].
    destruct H as [|? ? ? ? _ _]; [|apply meets_err].
    pose proof (logical_meets OOr Val.OOr a b a' b' eq_refl eq_refl Ha Hb) as L.
    assert (BL : match a, b with IBlank _, _ | _, IBlank _ => True | _, _ => False end -> meets (with_blank OOr a b) (my_op c Val.OOr a' b')).
    { intro K. replace (my_op c Val.OOr a' b') with (py_op c Val.OOr a' b'); [exact (blank_meets OOr Val.OOr a b a' b' eq_refl Ha Hb K)|].
      destruct Ha; destruct Hb; try contradiction; reflexivity. }
    destruct a, b; try exact L; exact (BL Logic.I).
Qed.

Lemma plain_op_meets o a b a' b' : is_val a a' -> is_val b b' ->
  meets (plain_op hi o a b) (match python_op o with Some p => py_op c p a' b' | None => matmul c a' b' end).
Proof.
  intros Ha Hb.
  assert (Two : Forall2 is_val [a; b] [a'; b']) by (constructor; [exact Ha|constructor; [exact Hb|constructor]]).
  assert (NN : match a, b with INum _, INum _ => True | _, _ => False end \/ match a, b with INum _, INum _ => False | _, _ => True end)
    by (destruct a, b; auto).
  assert (Bit : forall p x y z, (p = Val.OAnd \/ p = Val.OOr) -> truth_value x && truth_value y = true ->
            vop p (vint x) (vint y) = Ok (vint z) -> py_op c p (oint x) (oint y) = Ok (oint z)).
  { intros p x y z O T E. unfold oint. rewrite py_values. apply andb_true_iff in T as [Tx Ty]. unfold truth_value in Tx, Ty.
    apply orb_true_iff in Tx, Ty. rewrite !Z.eqb_eq in Tx, Ty.
    destruct O as [-> | ->]; destruct Tx as [-> | ->]; destruct Ty as [-> | ->]; cbn in E; injection E as <-; reflexivity. }
  assert (My : match o with OAt => match a, b with INum _, INum _ => False | _, _ => True end | _ => False end ->
               meets (ideal_my hi MyAt [a; b]) (matmul c a' b')).
  { intro K. destruct o; try contradiction. pose proof (my_meets MyAt _ _ Two) as M. cbv beta iota in M.
    replace (matmul c a' b') with (my_matmul c a' b'); [exact M|]. destruct Ha; destruct Hb; try contradiction; reflexivity. }
  assert (Same : match a, b with INum _, INum _ => False | _, _ => True end -> forall p, my_op c p a' b' = py_op c p a' b').
  { intros K p. destruct Ha; destruct Hb; try contradiction; destruct p; reflexivity. }
  destruct o; try exact (op_meets _ a b a' b' Ha Hb).
  - destruct NN as [NN|NN]; [destruct a, b; try contradiction; apply meets_err|].
    replace (plain_op hi OAt a b) with (ideal_my hi MyAt [a; b]) by (destruct a, b; try contradiction; reflexivity). exact (My NN).
  - destruct NN as [NN|NN].
    + destruct Ha; try contradiction; destruct Hb; try contradiction. cbn [plain_op]. destruct (truth_value z && truth_value z0) eqn:T; [|apply meets_err].
      apply number_meets. intros u E. apply (Bit _ _ _ _ (or_introl eq_refl) T). exact (logical_vop OAnd _ _ _ _ eq_refl E).
    + replace (plain_op hi OAnd a b) with (ideal_my hi MyAnd [a; b]) by (destruct a, b; try contradiction; reflexivity).
      pose proof (my_meets MyAnd _ _ Two) as M. cbv beta iota in M. rewrite (Same NN) in M. exact M.
  - destruct NN as [NN|NN].
    + destruct Ha; try contradiction; destruct Hb; try contradiction. cbn [plain_op]. destruct (truth_value z && truth_value z0) eqn:T; [|apply meets_err].
      apply number_meets. intros u E. apply (Bit _ _ _ _ (or_intror eq_refl) T). exact (logical_vop OOr _ _ _ _ eq_refl E).
    + replace (plain_op hi OOr a b) with (ideal_my hi MyOr [a; b]) by (destruct a, b; try contradiction; reflexivity).
      pose proof (my_meets MyOr _ _ Two) as M. cbv beta iota in M. rewrite (Same NN) in M. exact M.
Qed.
Lemma plain_un_meets u a a' : is_val a a' ->
  meets (plain_un u a)
    (match u with
     | UPos => pos_obj a'
     | UNeg => neg_obj c a'
     | UNot => match a' with OV (VN (NI z)) => Ok (oint (Z.lnot z)) | _ => my_invert c a' end
     end).
Proof.
  intro H. destruct u; try exact (un_meets _ a a' H).
  assert (One : Forall2 is_val [a] [a']) by (constructor; [exact H|constructor]).
  pose proof (my_meets MyNot _ _ One) as M. cbv beta iota in M. destruct H; try exact M. apply meets_err.
Qed.

(** ** Rolling *)

Lemma from_const_zero : from_const c (vint 0) = Ok (rv_of [(vint 0, 1)]).
Proof. pose proof (to_die_int c 0 TR) as H. exact H. Qed.
Lemma no_neg_length n x r : n <= 0 -> roll_int_pure c n x = Ok r -> rv_roll r = 1 /\ rv_src r = None.
Proof.
  intros L E. destruct n as [|p|p]; [| lia |]; cbn [roll_int_pure] in E.
  - rewrite from_const_zero in E. injection E as <-. split; reflexivity.
  - destruct (roll_pure c p x) as [y|e]; [|discriminate]. cbn [bind] in E. exact (rv_map_length c _ _ _ E).
Qed.
Lemma roll_number_meets n t q x : is_dice t q x -> meets (roll_number n (t, q)) (rmap ORV (roll_int_pure c n x)).
Proof.
  intros [Rx Px] v E. unfold roll_number in E. cbn [fst snd] in E. destruct (n =? 1) eqn:One.
  - apply Z.eqb_eq in One. subst n. injection E as <-. exists (ORV x). split; [reflexivity|]. constructor. now split.
  - destruct (roll_ok n t) eqn:B; [|discriminate]. injection E as <-. apply Z.eqb_neq in One.
    destruct (pool_reps c n t x TR Rx (pow_le_bound t _ n Rx B)) as [r [Er [Rr _]]]. exists (ORV r). rewrite Er. split; [reflexivity|].
    constructor. split; [exact Rr|]. destruct (1 <? n) eqn:L.
    + apply Z.ltb_lt in L. destruct n as [|p|p]; [lia| |lia]. assert (Hp : p <> xH) by (intros ->; lia).
      destruct (roll_pure_length c p x r Hp Er) as [H1 H2]. split; [lia|]. split; [rewrite H1; lia|]. unfold rv_die. rewrite H2. exact Rx.
    + apply Z.ltb_ge in L. assert (L0 : n <= 0) by lia. destruct (no_neg_length n x r L0 Er) as [H1 H2].
      split; [lia|]. split; [exact H1|]. unfold rv_die. rewrite H2. exact Rr.
Qed.
Lemma the_die_spec d d' tp : is_val d d' -> the_die d = Ok tp ->
  exists dd x, as_die d' = Some dd /\ to_die c dd = Ok x /\ is_dice (fst tp) (snd tp) x /\ d' <> OSeq [] /\ (forall l, d' <> OSSeq l) /\
    match d' with OBlank _ => False | _ => True end.
Proof.
  assert (New : forall t z, reps t z -> is_dice t (Some (1%nat, t)) (rv_of z)).
  { intros t z R. split; [exact R|]. split; [lia|]. split; [reflexivity|exact R]. }
  intros [m|s|[|z l]|l l' _|t q x R|bb|] E; cbn [the_die] in E; try discriminate; injection E as <-; cbn [fst snd].
  - exists (DInt m), (rv_of (int_die m)). split; [reflexivity|]. split; [exact (to_die_int c m TR)|]. split; [apply New, sides_reps|].
    repeat split; intros; discriminate.
  - exists (DSeq (map vint (z :: l))), (rv_of (normal c (RollSpec.fair (map vint (z :: l))))). split; [reflexivity|].
    split; [apply (from_seq_normal c _ TR); discriminate|]. split; [apply New, fair_reps; discriminate|].
    repeat split; intros; discriminate.
  - exists (DRV x), x. split; [reflexivity|]. split; [reflexivity|]. split; [exact R|]. repeat split; intros; discriminate.
Qed.
Lemma roll_two n d n' d' : is_val n n' -> is_val d d' -> meets (ideal_roll n (Some d)) (body_pure c n' d').
Proof.
  intros Hn Hd v E. cbn [ideal_roll] in E.
  assert (NN : match n with INum _ | ISeq _ | IDice _ _ | IBlank _ => True | _ => False end) by (destruct n; try discriminate; exact Logic.I).
  destruct (match d with IBlank _ => true | _ => false end) eqn:DB.
  { destruct Hd; try discriminate DB. assert (Ev : v = IBlank false) by (destruct n; try contradiction; injection E as <-; reflexivity).
    subst v. exists (OBlank false). split; [destruct Hn; reflexivity|constructor]. }
  assert (DD : match d with INum _ | ISeq _ | IDice _ _ => True | _ => False end \/ match d with INum _ | ISeq _ | IDice _ _ => False | _ => True end)
    by (destruct d; auto).
  destruct DD as [DD|DD].
  2: { destruct n; try contradiction; destruct d; try contradiction; try discriminate E; discriminate DB. }
  destruct (match n with IBlank _ => true | _ => false end) eqn:NB.
  { destruct Hn; try discriminate NB. assert (Ev : v = IBlank true) by (destruct d as [|?|[|]|?|?|?|]; try contradiction; injection E as <-; reflexivity).
    subst v. exists (OBlank true). split; [destruct Hd; try contradiction; reflexivity|constructor]. }
  destruct (match d with ISeq [] => true | _ => false end) eqn:SE.
  { destruct Hd as [|?|[|]|?|?|?|]; try discriminate SE. assert (Ev : v = IBlank false) by (destruct n; try contradiction; try discriminate NB; injection E as <-; reflexivity).
    subst v. exists (OBlank false). split; [destruct Hn; try contradiction; try discriminate NB; reflexivity|constructor]. }
  assert (E' : (tp <- the_die d ;;
          match n with
          | IDice ns _ => roll_random ns (fst tp)
          | _ => match amount n with Some z => roll_number z tp | None => Err Unmodelled end
          end) = Ok v).
  { destruct n; try contradiction; try discriminate NB; destruct d as [|?|[|]|?|?|?|]; try contradiction; try discriminate SE; exact E. }
  clear E. destruct (the_die d) as [tp|] eqn:TD; [|discriminate]. cbn [bind] in E'.
  destruct (the_die_spec d d' tp Hd TD) as [dd [x [AD [TO [DX [NE [NL NBL]]]]]]].
  assert (BP : forall k, as_count n' = Some k -> body_pure c n' d' = rmap ORV (roll_count_pure c k x)).
  { intros k K. unfold body_pure. destruct Hn; try contradiction; try discriminate NB; destruct d' as [|?|[|]|?|?|?|?|];
      try contradiction; try congruence; rewrite AD, K, TO; reflexivity. }
  destruct tp as [t q]. cbn [fst] in *.
  destruct Hn as [z|s|l|l l' _|ns r y [Ry _]|bb|]; try contradiction; try discriminate NB.
  - rewrite (BP _ eq_refl). exact (roll_number_meets z t q x DX v E').
  - rewrite (BP _ eq_refl). cbn [roll_count_pure meta_sum]. rewrite seq_sum_of. cbn [bind int_of vint].
    exact (roll_number_meets _ t q x DX v E').
  - rewrite (BP _ eq_refl). destruct DX as [Rx _]. unfold roll_random in E'.
    destruct (forallb (fun nq => roll_ok (fst nq) t) ns) eqn:F; [|discriminate]. cbv zeta in E'.
    destruct (lcd (collect (draw ns (fun n => pool n t))) <=? bound) eqn:B; [|discriminate]. injection E' as <-. apply Z.leb_le in B.
    destruct (random_count_reps c ns y t x TR Ry Rx F B) as [e [Ed Rd]]. rewrite Ed. eexists. split; [reflexivity|].
    constructor. split; [exact Rd|exact Logic.I].
Qed.
Lemma reps_int_obj t q x : is_dice t q x -> int_obj (ORV x) = true.
Proof. intros [R _]. apply int_obj_rv. exact (reps_int _ _ R). Qed.
Lemma ints_all l : forallb v_is_int (map vint l) = true.
Proof. apply forallb_forall. intros v H. apply in_map_iff in H as [z [<- _]]. reflexivity. Qed.
Lemma roll_meets n d n' d' : is_val n n' ->
  match d, d' with Some d, Some d' => is_val d d' | None, None => True | _, _ => False end ->
  meets (ideal_roll n d) (roll_fresh c n' d') /\ (forall v, ideal_roll n d = Ok v -> int_call (n', d')).
Proof.
  intros Hn Hd. destruct d as [d|], d' as [d'|]; try contradiction.
  - assert (G : forall v, ideal_roll n (Some d) = Ok v ->
      match n with INum _ | ISeq _ | IDice _ _ | IBlank _ => True | _ => False end /\
      match d with INum _ | ISeq _ | IDice _ _ | IBlank _ => True | _ => False end).
    { intros v E. split; [destruct n; try discriminate E; exact Logic.I|].
      destruct d; try exact Logic.I; cbn [ideal_roll the_die] in E; destruct n; discriminate E. }
    split.
    + intros v E. destruct (G v E) as [Gn Gd]. destruct (roll_two n d n' d' Hn Hd v E) as [v' [E' R]]. exists v'. split; [|exact R].
      unfold roll_fresh. replace (roll_args n' (Some d')) with (Ok (n', d')); [exact E'|].
      destruct Hn; try contradiction; destruct Hd; try contradiction; reflexivity.
    + intros v E. destruct (G v E) as [Gn Gd].
      assert (I : int_obj d' = true). { destruct Hd; try contradiction; [reflexivity|apply ints_all|eapply reps_int_obj; eassumption|reflexivity]. }
      unfold int_call. destruct n'; exact I || exact Logic.I.
  - assert (G : forall v, ideal_roll n None = Ok v -> match n with INum _ | ISeq _ | IDice _ _ | IBlank _ => True | _ => False end)
      by (intros v E; destruct n; try exact Logic.I; discriminate E).
    split.
    + intros v E. pose proof (G v E) as Gn. destruct (roll_two (INum 1) n (oint 1) n' (is_num 1) Hn v E) as [v' [E' R]]. exists v'. split; [|exact R].
      unfold roll_fresh. replace (roll_args n' None) with (Ok (oint 1, n')); [exact E'|].
      destruct Hn; try contradiction; reflexivity.
    + intros v E. pose proof (G v E) as Gn.
      assert (I : int_obj n' = true). { destruct Hn; try contradiction; [reflexivity|apply ints_all|eapply reps_int_obj; eassumption|reflexivity]. }
      unfold int_call. destruct n'; exact I || exact Logic.I.
Qed.
End ops.
Lemma plain_len_meets a a' : is_val a a' -> meets (plain_len a) (rmap oint (LibModel.py_len a')).
Proof.
  intro H. assert (One : Forall2 is_val [a] [a']) by (constructor; [exact H|constructor]).
  pose proof (my_meets default_cfg eq_refl MyLen _ _ One) as M. cbv beta iota in M. destruct H; try exact M. apply meets_err.
Qed.


(** ** Sequences *)

Fixpoint entries_all (vs : list ival) : res (list Z * list Z) :=
  match vs with
  | [] => Ok ([], [])
  | v :: vs' => l <- entries v ;; m <- entries_all vs' ;; Ok (fst l ++ fst m, snd l ++ snd m)
  end.
Lemma entries_list vs : entries (IList vs) = entries_all vs.
Proof. reflexivity. Qed.
Lemma reps_vals t d : reps t d -> vals d = map vint (map fst t).
Proof.
  intros R. pose proof (rp_stands _ _ R) as H. clear R. revert H. generalize (total d). intros T H. induction H as [|a b t' d' [E _] _ IH]; [reflexivity|].
  unfold vals in *. cbn [map]. rewrite IH, E. reflexivity.
Qed.
(** the numbers and the values of the dice among the leaves *)
Definition leaves_are (os : list obj) (nd : list Z * list Z) : Prop :=
  filter (fun o => negb (is_meta_rv o)) os = map oint (fst nd) /\ flat_map rv_leaf_vals os = map vint (snd nd).
Lemma leaves_app a b x y : leaves_are a x -> leaves_are b y -> leaves_are (a ++ b) (fst x ++ fst y, snd x ++ snd y).
Proof.
  intros [A1 A2] [B1 B2]. split; cbn [fst snd]; [rewrite filter_app, map_app|rewrite flat_map_app, map_app]; congruence.
Qed.
Lemma leaves_ints l : leaves_are (map oint l) (l, []).
Proof.
  split; cbn [fst snd].
  - induction l as [|x l IH]; [reflexivity|]. cbn [map filter oint is_meta_rv negb]. rewrite IH. reflexivity.
  - induction l as [|x l IH]; [reflexivity|]. cbn [map flat_map oint rv_leaf_vals]. exact IH.
Qed.
Lemma entries_flat v' : forall v l, is_val v v' -> entries v = Ok l -> leaves_are (flat1 v') l.
Proof.
  induction v' as [x|s|m|m|l' IH|x|b|] using obj_ind'; intros v l R E; inversion R; subst; try discriminate E.
  - injection E as <-. split; reflexivity.
  - injection E as <-. cbn [flat1]. rewrite map_map. apply leaves_ints.
  - rewrite entries_list in E. cbn [flat1]. revert l IH E.
    match goal with H : Forall2 is_val ?a l' |- _ => clear R; induction H as [|u u' us us' Hu _ IH2] end; intros l IH E.
    + injection E as <-. split; reflexivity.
    + cbn [entries_all] in E. destruct (entries u) as [a|] eqn:Ea; [|discriminate]. cbn [bind] in E.
      destruct (entries_all us) as [b|] eqn:Eb; [|discriminate]. injection E as <-. inversion IH as [|? ? Iu Ius]; subst.
      cbn [flat_map]. apply leaves_app; [exact (Iu _ _ Hu Ea)|exact (IH2 b Ius eq_refl)].
  - injection E as <-. split; [reflexivity|]. cbn [flat1 flat_map rv_leaf_vals snd]. rewrite app_nil_r.
    match goal with H : is_dice _ _ x |- _ => exact (reps_vals _ _ (proj1 H)) end.
  - injection E as <-. split; reflexivity.
Qed.
Lemma seq_meets v v' : is_val v v' -> meets (ideal_seq v) (get_seq [v']).
Proof.
  intros R u E. unfold ideal_seq in E. destruct (entries v) as [l|] eqn:El; [|discriminate]. injection E as <-.
  exists (OSeq (map vint (fst l ++ snd l))). split; [|constructor]. rewrite <- (get_seq_ints (fst l ++ snd l)). unfold get_seq.
  destruct (entries_flat _ _ _ R El) as [F V].
  assert (E : forall os nd, leaves_are (flatten os) nd ->
    filter (fun o => negb (is_meta_rv o)) (flatten os) ++ map OV (flat_map rv_leaf_vals (flatten os)) = map oint (fst nd ++ snd nd)).
  { intros os nd [A B]. rewrite A, B, map_map, map_app. reflexivity. }
  rewrite (E [v'] l), (E (map oint (fst l ++ snd l)) (fst l ++ snd l, [])); cbn [fst snd]; [rewrite app_nil_r; reflexivity| |].
  - rewrite flatten_ints. apply leaves_ints.
  - unfold flatten. cbn [flat_map]. rewrite app_nil_r. now split.
Qed.
Lemma range_meets a b a' b' : is_val a a' -> is_val b b' ->
  meets (ideal_range a b) (rmap (fun l => OIter (map oint l)) (RollerModel.myrange a' b')).
Proof.
  intros [x|s|l|l l' _|t q x R|bb|] [y|s'|m|m m' _|u r y R'|bb'|]; try apply meets_err. cbn [ideal_range].
  unfold RollerModel.myrange, oint, vint. rewrite !ntrunc_int. cbv zeta. cbn [rmap].
  change (map (fun i => x + Z.of_nat i) (seq 0 (Z.to_nat (y + 1 - x)))) with (from_to x y). apply meets_ok. constructor.
  induction (from_to x y) as [|z l IH]; [constructor|]. constructor; [constructor|exact IH].
Qed.
