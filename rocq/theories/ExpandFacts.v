(** The expansion of dice into sequences counts ordered rolls. *)
From Coq Require Import String List ZArith QArith Bool Permutation Sorted Lia.
From Verif Require Import PyBase Num Val Sorting RVModel Obj AtModel Spec CmpFacts SortFacts MassFacts RVFacts ConstructFacts IntFacts OpFacts ConvFacts UnaryFacts MixFacts OrderFacts.
Import ListNotations.
Open Scope Z_scope.

(** ** Multinomial counting *)
Section Multi.
  Context {A : Type} (dec : forall a b : A, {a = b} + {a <> b}).

  Fixpoint remove1 (a : A) (t : list A) : option (list A) :=
    match t with
    | [] => None
    | b :: t' => if dec a b then Some t' else option_map (cons b) (remove1 a t')
    end.
  Fixpoint permb (u t : list A) : bool :=
    match u with
    | [] => match t with [] => true | _ => false end
    | a :: u' => match remove1 a t with Some t' => permb u' t' | None => false end
    end.

  Lemma remove1_perm a t t' : remove1 a t = Some t' -> Permutation t (a :: t').
  Proof.
    revert t'. induction t as [|b t IH]; intros t' H; [discriminate|]. cbn in H. destruct (dec a b) as [->|].
    - injection H as <-. reflexivity.
    - destruct (remove1 a t) as [s|]; [|discriminate]. injection H as <-. rewrite (IH s eq_refl). apply perm_swap.
  Qed.
  Lemma remove1_none a t : remove1 a t = None -> ~ In a t.
  Proof.
    induction t as [|b t IH]; intros H; [auto|]. cbn in H. destruct (dec a b) as [->|N]; [discriminate|].
    destruct (remove1 a t); [discriminate|]. intros [E|E]; [congruence|exact (IH eq_refl E)].
  Qed.
  Lemma permb_spec u : forall t, permb u t = true <-> Permutation u t.
  Proof.
    induction u as [|a u IH]; intro t; cbn [permb].
    - destruct t; split; intro H; auto; try discriminate. apply Permutation_nil_cons in H. contradiction.
    - destruct (remove1 a t) as [t'|] eqn:E.
      + pose proof (remove1_perm _ _ _ E) as P. rewrite IH. split; intro H.
        * rewrite P. now constructor.
        * apply (Permutation_cons_inv (a := a)). rewrite <- P. exact H.
      + split; intro H; [discriminate|]. exfalso. apply (remove1_none _ _ E), (Permutation_in _ H). left. reflexivity.
  Qed.

  Definition occ (t : list A) (a : A) : Z := Z.of_nat (count_occ dec t a).
  Fixpoint den (t : list A) : Z :=
    match t with [] => 1 | v :: l => (occ l v + 1) * den l end.

  Lemma occ_cons v t a : occ (v :: t) a = (if dec v a then 1 else 0) + occ t a.
  Proof. unfold occ. cbn [count_occ]. destruct (dec v a); lia. Qed.
  Lemma occ_perm t s a : Permutation t s -> occ t a = occ s a.
  Proof. intro P. unfold occ. f_equal. now apply Permutation_count_occ. Qed.
  Lemma occ_nonneg t a : 0 <= occ t a.
  Proof. unfold occ. lia. Qed.

  Lemma den_perm t s : Permutation t s -> den t = den s.
  Proof.
    intro P. induction P as [|v t s P IH|v w t|t s r P1 IH1 P2 IH2].
    - reflexivity.
    - cbn [den]. rewrite IH, (occ_perm _ _ v P). reflexivity.
    - cbn [den]. rewrite !occ_cons. destruct (dec v w) as [E1|N1], (dec w v) as [E2|N2]; try congruence; try (subst w); ring.
    - congruence.
  Qed.
  Lemma den_pos t : 0 < den t.
  Proof. induction t as [|v t IH]; cbn [den]; [lia|]. pose proof (occ_nonneg t v). nia. Qed.

  Variable p : A -> Z.
  Definition prodw (t : list A) : Z := fold_right (fun v q => p v * q) 1 t.
  Lemma prodw_perm t s : Permutation t s -> prodw t = prodw s.
  Proof. unfold prodw. induction 1; cbn [fold_right]; try congruence; try ring. Qed.

  Variable D : list (A * Z).
  Hypothesis ND : NoDup (map fst D).
  Hypothesis HP : forall a w, In (a, w) D -> p a = w.

  Definition W (n : nat) (t : list A) : Z := mass (fun u => permb u t) (tuples n D).

  Lemma W_step n t : W (S n) t = wsum (fun a => match remove1 a t with Some t' => W n t' | None => 0 end) D.
  Proof.
    unfold W. rewrite mass_tuples_S. apply wsum_ext. intros a w _. cbn [permb]. destruct (remove1 a t) as [t'|]; [reflexivity|].
    apply mass_false. reflexivity.
  Qed.

  Lemma wsum_zsum (f : A -> Z) (l : list (A * Z)) : wsum f l = zsum (map (fun aw => f (fst aw) * snd aw) l).
  Proof. induction l as [|[a w] l IH]; [reflexivity|]. cbn [wsum map]. rewrite zsum_cons, IH. reflexivity. Qed.
  Lemma zsum_cmul {B} k (f : B -> Z) l : zsum (map (fun b => k * f b) l) = k * zsum (map f l).
  Proof. induction l as [|b l IH]; cbn [map]; [cbn; lia|]. rewrite !zsum_cons, IH. ring. Qed.
  Lemma zsum_plus {B} (f g : B -> Z) l : zsum (map (fun b => f b + g b) l) = zsum (map f l) + zsum (map g l).
  Proof. induction l as [|b l IH]; cbn [map]; [reflexivity|]. rewrite !zsum_cons, IH. ring. Qed.

  Lemma sum_occ (l t : list A) : NoDup l -> Forall (fun a => In a l) t -> zsum (map (occ t) l) = Z.of_nat (length t).
  Proof.
    intros N. induction t as [|v t IH]; intro F.
    - clear. induction l as [|b l IH]; [reflexivity|]. cbn [map]. rewrite zsum_cons, IH. reflexivity.
    - inversion F; subst. rewrite (map_ext _ _ (occ_cons v t)), zsum_plus, IH by assumption. cbn [length].
      assert (E : zsum (map (fun a => if dec v a then 1 else 0) l) = 1); [|lia].
      clear IH H2 F. induction l as [|b l IHl]; [contradiction|]. inversion N; subst. cbn [map]. rewrite zsum_cons.
      destruct (dec v b) as [->|Nb].
      + assert (Z0 : zsum (map (fun a => if dec b a then 1 else 0) l) = 0); [|lia].
        clear - H2. induction l as [|a l IH]; [reflexivity|]. cbn [map]. rewrite zsum_cons.
        destruct (dec b a) as [->|]; [exfalso; apply H2; left; reflexivity|]. rewrite IH; [reflexivity|]. intro. apply H2. right. assumption.
      + destruct H1 as [E|H1]; [congruence|]. rewrite IHl by assumption. reflexivity.
  Qed.

  Lemma multinomial n : forall t, length t = n -> Forall (fun a => In a (map fst D)) t ->
    den t * W n t = fact_z n * prodw t.
  Proof.
    induction n as [|n IH]; intros t L F.
    - destruct t; [|discriminate]. reflexivity.
    - rewrite W_step, wsum_zsum, <- zsum_cmul.
      rewrite (zsum_ext _ (fun aw => (fact_z n * prodw t) * occ t (fst aw))).
      + rewrite zsum_cmul. rewrite <- (map_map fst (occ t)), (sum_occ _ _ ND F), L. cbn [fact_z]. ring.
      + intros [a w] Ha. cbn [fst snd]. destruct (remove1 a t) as [t'|] eqn:E.
        * pose proof (remove1_perm _ _ _ E) as P. rewrite (den_perm _ _ P), (prodw_perm _ _ P), (occ_perm _ _ a P).
          cbn [den prodw fold_right]. fold (prodw t').
          rewrite occ_cons. destruct (dec a a); [|contradiction]. rewrite (HP a w Ha).
          assert (I : den t' * W n t' = fact_z n * prodw t').
          { apply IH; [apply Permutation_length in P; cbn in P; lia|].
            apply (Permutation_Forall P) in F. inversion F; assumption. }
          transitivity ((occ t' a + 1) * w * (den t' * W n t')); [ring|]. rewrite I. ring.
        * assert (occ t a = 0); [|rewrite H; ring]. unfold occ. rewrite (proj1 (count_occ_not_In dec t a) (remove1_none _ _ E)). reflexivity.
  Qed.
End Multi.

(** the number of orders is a whole number *)
Lemma multi_count {A} (dec : forall a b : A, {a = b} + {a <> b}) (D : list (A * Z)) (p : A -> Z) n t :
  NoDup (map fst D) -> (forall a w, In (a, w) D -> p a = w) -> length t = n -> Forall (fun a => In a (map fst D)) t ->
  W dec D n t = fact_z n / den dec t * prodw p t.
Proof.
  intros ND HP L F.
  pose proof (multinomial dec p D ND HP n t L F) as M.
  set (D1 := map (fun aw => (fst aw, 1)) D).
  assert (M1 : den dec t * W dec D1 n t = fact_z n * prodw (fun _ => 1) t).
  { apply multinomial; auto; unfold D1; try (rewrite map_map; assumption).
    intros a w H. apply in_map_iff in H. destruct H as [[a' w'] [E _]]. injection E as _ <-. reflexivity. }
  assert (O : prodw (fun _ : A => 1) t = 1) by (unfold prodw; clear; induction t as [|a t IH]; cbn [fold_right]; [reflexivity|rewrite IH; reflexivity]).
  rewrite O, Z.mul_1_r in M1. pose proof (den_pos dec t) as DP.
  assert (Q : fact_z n / den dec t = W dec D1 n t) by (rewrite <- M1, (Z.mul_comm (den dec t)); apply Z.div_mul; lia). rewrite Q.
  apply (Z.mul_reg_l _ _ (den dec t)); [lia|]. rewrite M, <- M1. ring.
Qed.

(** ** Enumerating multisets in order *)
Section Enum.
  Context {A : Type} (R : A -> A -> Prop).
  Hypothesis Rrefl : forall a, R a a.

  Lemma cwr_S n (x : A) l : cwr (S n) (x :: l) = map (cons x) (cwr n (x :: l)) ++ cwr (S n) l.
  Proof. reflexivity. Qed.
  Lemma cwr_S_nil n : cwr (S n) (@nil A) = [].
  Proof. reflexivity. Qed.

  Lemma cwr_sound n : forall l t, StronglySorted R l -> In t (cwr n l) ->
    length t = n /\ Forall (fun a => In a l) t /\ StronglySorted R t.
  Proof.
    induction n as [|n IH]; intros l t S H.
    - cbn in H. destruct H as [<-|[]]. repeat constructor.
    - induction l as [|x l IHl]; [contradiction|]. rewrite cwr_S in H. apply in_app_or in H. destruct H as [H|H].
      + apply in_map_iff in H. destruct H as [t' [<- H]]. destruct (IH _ _ S H) as (L & F & St).
        split; [cbn; lia|]. split; [constructor; [left; reflexivity|exact F]|]. constructor; [exact St|].
        apply Forall_forall. intros b Hb. pose proof (proj1 (Forall_forall _ _) F b Hb) as [<-|I]; [apply Rrefl|].
        inversion S; subst. exact (proj1 (Forall_forall _ _) H3 b I).
      + inversion S; subst. destruct (IHl H2 H) as (L & F & St). split; [exact L|]. split; [|exact St].
        eapply Forall_impl; [|exact F]. intros a Ha. right. exact Ha.
  Qed.

  Lemma cwr_complete n : forall l t, StronglySorted (fun a b => ~ R b a) l ->
    length t = n -> Forall (fun a => In a l) t -> StronglySorted R t -> In t (cwr n l).
  Proof.
    induction n as [|n IH]; intros l t S L F St.
    - destruct t; [left; reflexivity|discriminate].
    - destruct t as [|a t]; [discriminate|]. inversion St as [|? ? St' Fa]; subst.
      induction l as [|x l IHl]; [inversion F; contradiction|]. rewrite cwr_S. apply in_or_app. inversion F as [|? ? Ha Ft]; subst.
      inversion S as [|? ? S' Fx]; subst.
      destruct Ha as [<-|Ia].
      + left. apply in_map. apply IH; auto; cbn in L; lia.
      + right. apply IHl; auto. constructor; [exact Ia|]. apply Forall_forall. intros b Hb.
        pose proof (proj1 (Forall_forall _ _) Ft b Hb) as [<-|Ib]; [|exact Ib]. exfalso.
        apply (proj1 (Forall_forall _ _) Fx a Ia). exact (proj1 (Forall_forall _ _) Fa x Hb).
  Qed.

  Lemma cwr_elements n : forall (l : list A) t, In t (cwr n l) -> Forall (fun a => In a l) t.
  Proof.
    induction n as [|n IH]; intros l t H.
    - cbn in H. destruct H as [<-|[]]. constructor.
    - induction l as [|x l IHl]; [contradiction|]. rewrite cwr_S in H. apply in_app_or in H. destruct H as [H|H].
      + apply in_map_iff in H. destruct H as [t' [<- H]]. constructor; [left; reflexivity|exact (IH _ _ H)].
      + eapply Forall_impl; [|exact (IHl H)]. intros a Ha. right. exact Ha.
  Qed.

  Lemma cwr_NoDup n : forall l : list A, NoDup l -> NoDup (cwr n l).
  Proof.
    induction n as [|n IH]; intros l N; [repeat constructor; auto|].
    induction l as [|x l IHl]; [constructor|]. inversion N; subst. rewrite cwr_S.
    assert (NA : forall (a b : list (list A)), NoDup a -> NoDup b -> (forall t, In t a -> ~ In t b) -> NoDup (a ++ b)).
    { clear. induction a as [|t a IH]; intros b Na Nb H; [exact Nb|]. inversion Na; subst. cbn. constructor.
      - intro I. apply in_app_or in I. destruct I as [I|I]; [contradiction|]. exact (H t (or_introl eq_refl) I).
      - apply IH; auto. intros s Hs. apply H. right. exact Hs. }
    apply NA.
    - apply FinFun.Injective_map_NoDup; [intros a b E; now injection E|apply IH, N].
    - apply IHl, H2.
    - intros t Ht I. apply in_map_iff in Ht. destruct Ht as [t' [<- _]]. apply cwr_elements in I. inversion I; subst. contradiction.
  Qed.

  Lemma sorted_perm_unique t : forall s, (forall a b, In a t -> In b t -> R a b -> R b a -> a = b) ->
    StronglySorted R t -> StronglySorted R s -> Permutation t s -> t = s.
  Proof.
    induction t as [|a t IH]; intros s AS S1 S2 P; [now apply Permutation_nil in P|].
    destruct s as [|b s]; [symmetry in P; apply Permutation_nil_cons in P; contradiction|].
    inversion S1; subst. inversion S2; subst.
    assert (Ib : In b (a :: t)) by (apply (Permutation_in _ (Permutation_sym P)); left; reflexivity).
    assert (Ia : In a (b :: s)) by (apply (Permutation_in _ P); left; reflexivity).
    assert (E : a = b).
    { destruct Ia as [E|Ia]; [congruence|]. destruct Ib as [E|Ib]; [congruence|].
      apply AS; [left; reflexivity|right; exact Ib| |].
      - exact (proj1 (Forall_forall _ _) H2 b Ib).
      - exact (proj1 (Forall_forall _ _) H4 a Ia). }
    subst b. f_equal. apply IH; auto.
    - intros x y Hx Hy. apply AS; right; assumption.
    - exact (Permutation_cons_inv P).
  Qed.
End Enum.

(** ** The rolls of one die *)
Definition num_eq_dec (a b : num) : {a = b} + {a <> b}.
Proof. decide equality; apply Z.eq_dec. Defined.
Definition pval_eq_dec (a b : pval) : {a = b} + {a <> b}.
Proof.
  decide equality; [apply num_eq_dec|]. apply list_eq_dec. intros [s1 n1] [s2 n2].
  destruct (string_dec s1 s2) as [->|N]; [|right; congruence]. destruct (num_eq_dec n1 n2) as [->|N]; [left; reflexivity|right; congruence].
Defined.

Lemma str_list_eqb_refl l : str_list_eqb l l = true.
Proof. induction l as [|s l IH]; [reflexivity|]. cbn. rewrite String.eqb_refl. exact IH. Qed.
Lemma dict_same_refl v : dict_same v v = true.
Proof. unfold dict_same. rewrite veqb_refl. destruct v; [reflexivity|apply str_list_eqb_refl]. Qed.

Section Faces.
  Variable x : dist.
  Hypothesis HS : strict x.

  Lemma face_unique a b : In a x -> In b x -> veqb (fst a) (fst b) = true -> a = b.
  Proof.
    revert HS. induction x as [|y d IH]; intros S Ha Hb E; [contradiction|].
    destruct Ha as [<-|Ha], Hb as [<-|Hb]; auto.
    - rewrite (strict_cons_notin y d b S Hb) in E. discriminate.
    - rewrite veqb_sym, (strict_cons_notin y d a S Ha) in E. discriminate.
    - apply IH; auto. inversion S; assumption.
  Qed.
  Lemma face_eq a b : In a (vals x) -> In b (vals x) -> veqb a b = true -> a = b.
  Proof.
    intros Ha Hb E. apply in_map_iff in Ha. apply in_map_iff in Hb. destruct Ha as [a' [<- Ha]], Hb as [b' [<- Hb]].
    now rewrite (face_unique a' b' Ha Hb E).
  Qed.
  Lemma face_dict a b : In a (vals x) -> In b (vals x) -> dict_same a b = if pval_eq_dec a b then true else false.
  Proof.
    intros Ha Hb. destruct (pval_eq_dec a b) as [->|N]; [apply dict_same_refl|].
    destruct (dict_same a b) eqn:E; [|reflexivity]. exfalso. apply N, face_eq; auto. now apply dict_same_veqb.
  Qed.
  Lemma vals_NoDup : NoDup (vals x).
  Proof.
    revert HS. induction x as [|y d IH]; intro S; [constructor|]. cbn. constructor.
    - intro I. apply in_map_iff in I. destruct I as [z [E Hz]]. pose proof (strict_cons_notin y d z S Hz) as K.
      rewrite E, veqb_refl in K. discriminate.
    - apply IH. inversion S; assumption.
  Qed.

  Lemma pdf_get_face a w : In (a, w) x -> pdf_get x a = Some w.
  Proof.
    intro H. assert (G : forall d, incl d x -> pdf_get d a = if in_dec pval_eq_dec a (vals d) then Some w else None).
    { induction d as [|[b q] d IH]; intro I; [reflexivity|]. cbn [pdf_get]. rewrite IH by (intros z Hz; apply I; right; exact Hz).
      assert (Hb : In (b, q) x) by (apply I; left; reflexivity).
      destruct (in_dec pval_eq_dec a (vals d)) as [Hin|Hn].
      - destruct (in_dec pval_eq_dec a (vals ((b, q) :: d))) as [|Nn]; [reflexivity|]. exfalso. apply Nn. right. exact Hin.
      - rewrite face_dict; [|apply (in_map fst _ _ Hb)|apply (in_map fst _ _ H)].
        destruct (pval_eq_dec b a) as [->|N].
        + destruct (in_dec pval_eq_dec a (vals ((a, q) :: d))) as [|Nn]; [|exfalso; apply Nn; left; reflexivity].
          pose proof (face_unique _ _ Hb H (veqb_refl a)) as E. injection E as ->. reflexivity.
        + destruct (in_dec pval_eq_dec a (vals ((b, q) :: d))) as [[E|Hin]|]; [cbn in E; congruence|contradiction|reflexivity]. }
    rewrite G by (intros z Hz; exact Hz). destruct (in_dec pval_eq_dec a (vals x)) as [|N]; [reflexivity|].
    exfalso. apply N. exact (in_map fst _ _ H).
  Qed.

  Definition faces (t : list pval) : Prop := Forall (fun a => In a (vals x)) t.

  Lemma roll_prob_prod t : faces t -> roll_prob x t = Ok (prodw (wt x) t).
  Proof.
    induction 1 as [|a t Ha F IH]; [reflexivity|]. cbn [roll_prob prodw fold_right]. fold (prodw (wt x) t).
    apply in_map_iff in Ha. destruct Ha as [[a' w] [E Ha]]. cbn in E. subst a'.
    rewrite (pdf_get_face _ _ Ha), IH. cbn [bind]. pose proof (wt_strict x (a, w) HS Ha) as Q. cbn [fst snd] in Q. rewrite Q. reflexivity.
  Qed.

  Lemma count_same_occ l v : faces l -> In v (vals x) -> count_same l v = occ pval_eq_dec l v.
  Proof.
    intros F Hv. induction F as [|a l Ha F IH]; [reflexivity|]. cbn [count_same]. rewrite occ_cons, IH, face_dict by assumption.
    destruct (pval_eq_dec a v); reflexivity.
  Qed.
  Lemma run_counts_den l : forall seen, faces seen -> faces l ->
    run_counts seen l * den pval_eq_dec seen = den pval_eq_dec (rev l ++ seen).
  Proof.
    induction l as [|v l IH]; intros seen Fs Fl; [cbn [run_counts rev app]; ring|]. inversion Fl; subst. cbn [run_counts rev].
    rewrite <- app_assoc. cbn [app]. rewrite <- IH by (auto; constructor; auto). cbn [den]. rewrite count_same_occ by assumption. ring.
  Qed.

  (** the weight of a roll: the ordered rolls that rearrange to it *)
  Definition arrangements (n : nat) (t : list pval) : Z := W pval_eq_dec x n t.

  Lemma roll_weight n t : length t = n -> faces t -> fact_z n / run_counts [] t * prodw (wt x) t = arrangements n t.
  Proof.
    intros L F. unfold arrangements. rewrite (multi_count pval_eq_dec x (wt x) n t); auto.
    - pose proof (run_counts_den t [] (Forall_nil _) F) as E. cbn [den] in E. rewrite Z.mul_1_r, app_nil_r in E. rewrite E.
      now rewrite (den_perm pval_eq_dec _ _ (Permutation_rev t)).
    - exact vals_NoDup.
    - intros a w H. exact (wt_strict x (a, w) HS H).
  Qed.

  Definition roll_list (n : nat) : list (list pval) :=
    if Nat.eqb n 1 then map (fun v => [v]) (vals x) else cwr n (rev (vals x)).

  Let ge (a b : pval) : Prop := vleb b a = true.
  Lemma rev_vals_sorted : StronglySorted ge (rev (vals x)) /\ StronglySorted (fun a b => ~ ge b a) (rev (vals x)).
  Proof.
    assert (S : StronglySorted (fun a b => vcmp a b = Lt) (vals x)).
    { unfold vals. apply (StronglySorted_map vlt); [intros a b H; exact H|exact HS]. }
    apply StronglySorted_rev in S. split; (eapply StronglySorted_impl; [|exact S]); intros a b H; unfold ge, vleb in *.
    - rewrite H. reflexivity.
    - intro K. rewrite (lw_anti _ vcmp_lawful b a), H in K. discriminate.
  Qed.

  Lemma ge_eq a b : In a (vals x) -> In b (vals x) -> ge a b -> ge b a -> a = b.
  Proof.
    unfold ge, vleb. intros Ha Hb H1 H2. apply face_eq; auto. unfold veqb. rewrite (lw_anti _ vcmp_lawful b a) in *.
    destruct (vcmp b a); cbn in *; try discriminate; reflexivity.
  Qed.

  Lemma roll_list_spec n t : In t (roll_list n) <-> length t = n /\ faces t /\ StronglySorted ge t.
  Proof.
    unfold roll_list. destruct (Nat.eqb_spec n 1) as [->|N].
    - rewrite in_map_iff. split.
      + intros [v [<- Hv]]. repeat split; repeat constructor. exact Hv.
      + intros (L & F & _). destruct t as [|v [|? ?]]; try discriminate. exists v. inversion F; subst. auto.
    - destruct rev_vals_sorted as [S1 S2]. split.
      + intro H. destruct (cwr_sound ge (fun a => match vleb_total a a with or_introl e => e | or_intror e => e end) n _ _ S1 H) as (L & F & St).
        split; [exact L|]. split; [|exact St]. eapply Forall_impl; [|exact F]. intros a Ha. apply in_rev. exact Ha.
      + intros (L & F & St). apply (cwr_complete ge); auto. eapply Forall_impl; [|exact F]. intros a Ha. apply in_rev in Ha. exact Ha.
  Qed.
  Lemma roll_list_NoDup n : NoDup (roll_list n).
  Proof.
    unfold roll_list. destruct (Nat.eqb n 1).
    - apply FinFun.Injective_map_NoDup; [intros a b E; now injection E|apply vals_NoDup].
    - apply cwr_NoDup. apply NoDup_rev, vals_NoDup.
  Qed.

  Lemma arrangements_1 v w : In (v, w) x -> arrangements 1 [v] = w.
  Proof.
    intro H. pose proof (roll_weight 1 [v] eq_refl) as R. cbn [run_counts count_same fact_z prodw fold_right] in R.
    pose proof (wt_strict x (v, w) HS H) as Q. cbn [fst snd] in Q. rewrite Q in R. rewrite <- R; [|repeat constructor; exact (in_map fst _ _ H)].
    change (Z.of_nat 1 * 1 / ((0 + 1) * 1)) with 1. lia.
  Qed.

  Lemma expanded_list (y : rv) : rv_die y = x -> 0 <= rv_roll y ->
    expanded_rolls y = Ok (map (fun t => (t, arrangements (Z.to_nat (rv_roll y)) t)) (roll_list (Z.to_nat (rv_roll y)))).
  Proof.
    intros HD HN. unfold expanded_rolls. rewrite HD. unfold roll_list.
    destruct (Z.eqb_spec (rv_roll y) 1) as [E|N].
    - rewrite E. change (Z.to_nat 1) with 1%nat. cbn [Nat.eqb]. rewrite map_map. unfold vals. rewrite map_map. f_equal.
      apply map_ext_in. intros [v w] H. cbn [fst snd]. now rewrite (arrangements_1 v w H).
    - destruct (Nat.eqb_spec (Z.to_nat (rv_roll y)) 1) as [E|_]; [exfalso; lia|].
      destruct (Z.ltb_spec (rv_roll y) 0) as [E|_]; [exfalso; lia|].
      set (n := Z.to_nat (rv_roll y)).
      assert (G : forall l, (forall t, In t l -> length t = n /\ faces t) ->
        mapM (fun roll => p <- roll_prob x roll ;; Ok (roll, fact_z n / run_counts [] roll * p)) l =
        Ok (map (fun t => (t, arrangements n t)) l)).
      { induction l as [|t l IH]; intro H; [reflexivity|]. cbn [mapM map]. destruct (H t (or_introl eq_refl)) as [L F].
        rewrite (roll_prob_prod t F). cbn [bind]. rewrite (roll_weight n t L F), IH; [reflexivity|]. intros s Hs. apply H. right. exact Hs. }
      apply G. intros t Ht. assert (R : In t (roll_list n)).
      { unfold roll_list. destruct (Nat.eqb_spec n 1); [subst n; lia|exact Ht]. }
      apply roll_list_spec in R. tauto.
  Qed.

  Lemma arrangement_unique n u t : length u = n -> faces u -> In t (roll_list n) ->
    permb pval_eq_dec u t = if list_eq_dec pval_eq_dec t (descending u) then true else false.
  Proof.
    intros L F H. apply roll_list_spec in H. destruct H as (Lt & Ft & St).
    destruct (list_eq_dec pval_eq_dec t (descending u)) as [->|N].
    - apply permb_spec, descending_perm.
    - destruct (permb pval_eq_dec u t) eqn:E; [|reflexivity]. apply permb_spec in E. exfalso. apply N.
      apply (sorted_perm_unique ge); auto.
      + intros a b Ha Hb. apply ge_eq; [exact (proj1 (Forall_forall _ _) Ft a Ha)|exact (proj1 (Forall_forall _ _) Ft b Hb)].
      + apply descending_sorted.
      + rewrite <- (descending_perm u). now symmetry.
  Qed.
  Lemma descending_listed n u : length u = n -> faces u -> In (descending u) (roll_list n).
  Proof.
    intros L F. apply roll_list_spec. split; [now rewrite descending_length|]. split; [|apply descending_sorted].
    exact (Permutation_Forall (descending_perm u) F).
  Qed.

  Lemma arrangements_mass n t : In t (roll_list n) ->
    arrangements n t = mass (fun u => if list_eq_dec pval_eq_dec t (descending u) then true else false) (tuples n x).
  Proof.
    intro H. unfold arrangements, W. rewrite !mass_wsum. apply wsum_ext. intros u w Hu.
    rewrite (arrangement_unique n u t); auto; [exact (tuples_length _ _ _ _ Hu)|exact (tuples_in _ _ _ _ Hu)].
  Qed.

  Lemma zsum_wsum_swap {A B} (g : A -> B -> Z) (R : list A) (l : list (B * Z)) :
    zsum (map (fun t => wsum (g t) l) R) = wsum (fun u => zsum (map (fun t => g t u) R)) l.
  Proof.
    induction R as [|t R IH]; cbn [map].
    - rewrite (wsum_ext _ (fun _ => 0)) by reflexivity. rewrite wsum_const. reflexivity.
    - rewrite zsum_cons, IH, <- wsum_plus. apply wsum_ext. intros u w _. rewrite zsum_cons. reflexivity.
  Qed.
  Lemma zsum_pick {A} (dec : forall a b : A, {a = b} + {a <> b}) (f : A -> Z) t0 (R : list A) : NoDup R -> In t0 R ->
    zsum (map (fun t => if dec t t0 then f t else 0) R) = f t0.
  Proof.
    induction R as [|t R IH]; intros N H; [contradiction|]. inversion N; subst. cbn [map]. rewrite zsum_cons.
    destruct (dec t t0) as [->|Ne].
    - rewrite (zsum_ext _ (fun _ => 0)).
      + assert (Z0 : forall l : list A, zsum (map (fun _ => 0) l) = 0); [|rewrite Z0; lia].
        induction l as [|a l IHl]; [reflexivity|]. cbn [map]. rewrite zsum_cons, IHl. reflexivity.
      + intros a Ha. destruct (dec a t0) as [->|]; [contradiction|reflexivity].
    - destruct H as [E|H]; [congruence|]. rewrite IH by assumption. reflexivity.
  Qed.

  Lemma roll_list_law n (f : list pval -> Z) :
    wsum f (map (fun t => (t, arrangements n t)) (roll_list n)) = wsum (fun u => f (descending u)) (tuples n x).
  Proof.
    rewrite wsum_zsum, map_map. cbn [fst snd].
    rewrite (zsum_ext _ (fun t => wsum (fun u => if list_eq_dec pval_eq_dec t (descending u) then f t else 0) (tuples n x))).
    - rewrite zsum_wsum_swap. apply wsum_ext. intros u w Hu.
      apply (zsum_pick (list_eq_dec pval_eq_dec)); [apply roll_list_NoDup|].
      apply descending_listed; [exact (tuples_length _ _ _ _ Hu)|exact (tuples_in _ _ _ _ Hu)].
    - intros t Ht. rewrite (arrangements_mass n t Ht), mass_wsum, <- wsum_cmul. apply wsum_ext. intros u w _.
      destruct (list_eq_dec pval_eq_dec t (descending u)); ring.
  Qed.
  Lemma roll_list_mass n (P : list pval -> bool) :
    mass P (map (fun t => (t, arrangements n t)) (roll_list n)) = mass (fun u => P (descending u)) (tuples n x).
  Proof. rewrite !mass_wsum. exact (roll_list_law n (fun t => if P t then 1 else 0)). Qed.
End Faces.
