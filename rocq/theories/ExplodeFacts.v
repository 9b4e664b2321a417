(** Facts about exploding dice. *)
From Coq Require Import String List ZArith QArith Qabs Bool Permutation Sorted Lia Lqa.
From Verif Require Import PyBase Num Val Sorting RVModel Obj RollModel RollSpec AtModel CastModel DispModel LibModel Spec SeqSpec LibSpec CmpFacts SortFacts NumFacts MassFacts RVFacts ConstructFacts IntFacts LimitFacts OpFacts ConvFacts UnaryFacts MixFacts RollFacts RollObjFacts RollErrFacts OrderFacts ExpandFacts SelectFacts CastSpec CastFacts CastMixFacts DispFacts SeqFacts LawFacts LibFacts LibLaws PoolFacts.
Import ListNotations.
Open Scope Z_scope.

(** *** Tuples, one roll at a time *)
Lemma average_tuples {A} (P : list A -> bool) n (d : list (A * Z)) : 0 < total d ->
  (PrP P (tuples (S n) d) == average (fun a => PrP (fun t => P (a :: t)) (tuples n d)) d)%Q.
Proof.
  intros T. rewrite (average_PrP (fun a t => P (a :: t))); [|exact T|rewrite total_tuples; apply Z.pow_pos_nonneg; lia].
  unfold PrP. rewrite mass_tuples_S, mass_indep_wsum. cbn [fst snd]. rewrite total_indep, !total_tuples.
  replace (total d ^ Z.of_nat (S n)) with (total d * total d ^ Z.of_nat n); [reflexivity|].
  rewrite Nat2Z.inj_succ, Z.pow_succ_r by lia. reflexivity.
Qed.

Lemma PrP_const {A} (b : bool) (l : list (A * Z)) : 0 < total l -> (PrP (fun _ => b) l == if b then 1 else 0)%Q.
Proof.
  intros T. unfold PrP. destruct b.
  - change (mass (fun _ => true) l) with (total l). field. intro X. change 0%Q with (inject_Z 0) in X.
    apply (proj1 (inject_Z_injective _ _)) in X. lia.
  - rewrite (mass_false (fun _ => false) l) by reflexivity. reflexivity.
Qed.

Lemma PrP_ext_in {A} (P Q : A -> bool) (l : list (A * Z)) : (forall a w, In (a, w) l -> P a = Q a) -> (PrP P l == PrP Q l)%Q.
Proof. intros H. unfold PrP. rewrite (mass_ext P Q l H). reflexivity. Qed.

Lemma Pr_point v u : (Pr [(u, 1%Z)] v == if veqb v u then 1 else 0)%Q.
Proof. unfold Pr, wt, total. cbn [mass]. destruct (veqb v u); reflexivity. Qed.

Lemma zprod_ones (F : pval -> Z) l : (forall v, In v l -> F v = 1) -> zprod (map F l) = 1.
Proof.
  unfold zprod. induction l as [|a l IH]; intros H; [reflexivity|]. cbn [map fold_right]. rewrite IH by (intros; apply H; right; assumption).
  rewrite (H a) by (left; reflexivity). reflexivity.
Qed.

Lemma zprod_app l l' : zprod (l ++ l') = zprod l * zprod l'.
Proof. unfold zprod. induction l as [|a l IH]; cbn [app fold_right]; [lia|]. rewrite IH. lia. Qed.

Lemma zprod_single (F : pval -> Z) m l : (forall v, In v l -> v <> m -> F v = 1) -> NoDup l -> In m l -> zprod (map F l) = F m.
Proof.
  intros H N M. apply in_split in M. destruct M as (l1 & l2 & ->). apply NoDup_remove in N. destruct N as [_ N].
  rewrite map_app, zprod_app. cbn [map]. change (zprod (F m :: map F l2)) with (F m * zprod (map F l2)).
  rewrite !zprod_ones; [lia| |].
  - intros v I. apply H; [apply in_or_app; right; right; exact I|]. intros ->. apply N, in_or_app. right. exact I.
  - intros v I. apply H; [apply in_or_app; left; exact I|]. intros ->. apply N, in_or_app. left. exact I.
Qed.

Lemma add_int_die c n x : cfg_trunc c = false -> proper (rv_dist x) -> int_vals (rv_dist x) ->
  exists r, py_op c OAdd (oint n) (ORV x) = Ok (ORV r) /\ int_vals (rv_dist r) /\ canon (rv_dist r) /\ proper (rv_dist r) /\
    total (rv_dist r) <= total (rv_dist x) /\ forall v, (Pr (rv_dist r) v == PrP (fun a => veqb v (vint (n + toZ a))) (rv_dist x))%Q.
Proof.
  intros T P I. unfold oint. change (vint n) with (VN (NI n)). rewrite py_number_die by reflexivity. unfold const_op_rv. change (fun a => vop OAdd (VN (NI n)) a) with (vop OAdd (VN (NI n))).
  assert (F : forall v, v_is_int v = true -> vop OAdd (VN (NI n)) v = Ok (vint (n + toZ v))).
  { intros v V. rewrite (is_int_vint v V). reflexivity. }
  pose proof (rv_map_int c _ (fun z => n + z) _ T (proj1 P) I F) as X. cbv beta in X. rewrite X. clear X. cbn [rmap]. eexists. split; [reflexivity|]. cbn [rv_of rv_dist].
  assert (PI : proper (image (fun v => vint (n + toZ v)) (rv_dist x))) by (apply proper_image, P).
  split; [apply normal_int, (image_int (fun z => n + z))|]. split; [apply normal_canon, PI|]. split; [apply normal_proper, PI|]. split.
  - eapply Z.le_trans; [apply normal_total_le, PI|]. rewrite total_image. destruct P. lia.
  - intro v. rewrite normal_Pr by exact PI. rewrite Pr_image. reflexivity.
Qed.

Lemma eq_truth c a b : v_is_int a = true -> v_is_int b = true -> (e <- py_op c OEq (OV a) (OV b) ;; truth e) = Ok (toZ a =? toZ b).
Proof.
  intros A B. rewrite (is_int_vint a A), (is_int_vint b B) at 1. apply int_eq_truth.
Qed.

(** a law on integers, shifted *)
Lemma shift_law {A} (q : dist) (K : list (A * Z)) (g : A -> Z) n : int_vals q ->
  (forall v, (Pr q v == PrP (fun t => veqb v (vint (g t))) K)%Q) ->
  forall v, (PrP (fun a => veqb v (vint (n + toZ a))) q == PrP (fun t => veqb v (vint (n + g t))) K)%Q.
Proof.
  intros I H v.
  assert (ST : forall z, veqb v (vint z) = true -> (PrP (fun a => veqb v (vint (n + toZ a))) q == PrP (fun t => veqb v (vint (n + g t))) K)%Q).
  { intros z E. transitivity (Pr q (vint (z - n))).
    - unfold Pr. apply PrP_ext_in. intros a w J. rewrite (veqb_congr_l v (vint z) _ E). rewrite veqb_int.
      rewrite (is_int_vint a (proj1 (Forall_forall _ _) I _ J)) at 2. rewrite veqb_int. apply bool_iff_eq. rewrite !Z.eqb_eq. lia.
    - rewrite H. apply PrP_ext_in. intros t w J. rewrite (veqb_congr_l v (vint z) _ E). rewrite !veqb_int. apply bool_iff_eq. rewrite !Z.eqb_eq. lia. }
  destruct (existsb (fun aw => veqb v (vint (n + toZ (fst aw)))) q) eqn:E1; [apply existsb_exists in E1; destruct E1 as (a & _ & E1); eapply ST; exact E1|].
  destruct (existsb (fun tw => veqb v (vint (n + g (fst tw)))) K) eqn:E2; [apply existsb_exists in E2; destruct E2 as (a & _ & E2); eapply ST; exact E2|].
  unfold PrP. rewrite (mass_false _ q), (mass_false _ K).
  - unfold Qdiv. ring.
  - intros t w J. destruct (veqb v (vint (n + g t))) eqn:X; [|reflexivity]. rewrite <- E2. symmetry. apply existsb_exists. exists (t, w). auto.
  - intros t w J. destruct (veqb v (vint (n + toZ t))) eqn:X; [|reflexivity]. rewrite <- E1. symmetry. apply existsb_exists. exists (t, w). auto.
Qed.

Section Explode.
  Variables (c : cfg) (x : rv) (m : pval).
  Hypothesis T : cfg_trunc c = false.
  Hypothesis C : canon (rv_dist x).
  Hypothesis I : int_vals (rv_dist x).
  Hypothesis P : 0 < total (rv_dist x).
  Hypothesis M : In m (vals (rv_dist x)).
  Let d := rv_dist x.
  Let PX : proper d := conj (proj2 (proj2 (proj1 C))) P.

  Lemma vals_int v : In v (vals d) -> v_is_int v = true.
  Proof. intro J. apply in_map_iff in J. destruct J as [[v' w] [<- J]]. exact (proj1 (Forall_forall _ _) I _ J). Qed.

  Lemma toZ_eq v : In v (vals d) -> toZ v = toZ m -> v = m.
  Proof. intros J E. rewrite (is_int_vint v (vals_int v J)), (is_int_vint m (vals_int m M)). f_equal. exact E. Qed.

  Definition explosion (k : nat) (q : rv) : Prop :=
    rv_roll q = 1 /\ rv_src q = None /\ int_vals (rv_dist q) /\ canon (rv_dist q) /\ proper (rv_dist q) /\ total (rv_dist q) <= total d ^ Z.of_nat (S k) /\
    forall v, (Pr (rv_dist q) v == PrP (fun t => veqb v (vint (exploded (toZ m) t))) (tuples (S k) d))%Q.

  Lemma explosion_total k q : canon (rv_dist q) -> proper (rv_dist q) ->
    (forall v, (Pr (rv_dist q) v == PrP (fun t => veqb v (vint (exploded (toZ m) t))) (tuples (S k) d))%Q) -> total (rv_dist q) <= total d ^ Z.of_nat (S k).
  Proof.
    intros CQ PQ E. apply (canon_total_le _ (total d ^ Z.of_nat (S k)) (fun v => mass (fun t => veqb v (vint (exploded (toZ m) t))) (tuples (S k) d))); auto.
    - apply Z.pow_pos_nonneg; [exact P|lia].
    - intro v. rewrite E. unfold PrP. rewrite total_tuples. reflexivity.
  Qed.

  Lemma one_roll v u k : In u (vals d) -> toZ u <> toZ m ->
    (PrP (fun t => veqb v (vint (exploded (toZ m) (u :: t)))) (tuples k d) == Pr [(u, 1%Z)] v)%Q.
  Proof.
    intros J N. rewrite (PrP_ext_in _ (fun _ => veqb v u)).
    - rewrite PrP_const by (rewrite total_tuples; apply Z.pow_pos_nonneg; [exact P|lia]). rewrite Pr_point. reflexivity.
    - intros t w _. cbn [exploded]. destruct (Z.eqb_spec (toZ u) (toZ m)); [contradiction|]. rewrite Z.add_0_r.
      rewrite <- (is_int_vint u (vals_int u J)). reflexivity.
  Qed.

  Let rest depth : args := [(KPos 1, OV m); (KName "ORIG_DIE", ORV x); (KName "depth", oint depth)].

  Lemma explode_laws k : forall depth, Z.to_nat depth = k -> total d ^ Z.of_nat (S k) <= SUM_LIMIT ->
    exists q, explode_helper c k (explode_args (ORV x) (OV m) (ORV x) depth) = Ok (ORV q) /\ explosion k q.
  Proof.
    assert (VM : v_is_int m = true) by (apply vals_int, M).
    assert (ND : NoDup (KPos 0 :: map fst (rest 0))).
    { repeat constructor; cbn; intuition discriminate. }
    assert (KP : forall depth, Forall (kept explode_helper_sig) (rest depth)).
    { intro depth. destruct m as [n|s]; [|discriminate VM]. repeat constructor. }
    induction k as [|k IH]; intros depth E L.
    - change (explode_helper c 0 (explode_args (ORV x) (OV m) (ORV x) depth)) with
        (casting c explode_helper_sig (fun a =>
          n <- need 0 "N" a ;; mx <- need 1 "MAX" a ;; d <- need 2 "ORIG_DIE" a ;; depth <- (k <- need 3 "depth" a ;; int_param k) ;;
          t <- (e <- py_op c OEq n mx ;; truth e) ;; if (t : bool) && (0 <? depth) then Err Unmodelled else Ok n) ((KPos 0, ORV x) :: rest depth)).
      assert (HF : forall v, In v (vals d) -> (n <- need 0 "N" ((KPos 0, OV v) :: rest depth) ;; mx <- need 1 "MAX" ((KPos 0, OV v) :: rest depth) ;;
          d <- need 2 "ORIG_DIE" ((KPos 0, OV v) :: rest depth) ;; depth <- (k <- need 3 "depth" ((KPos 0, OV v) :: rest depth) ;; int_param k) ;;
          t <- (e <- py_op c OEq n mx ;; truth e) ;; if (t : bool) && (0 <? depth) then Err Unmodelled else Ok n) = Ok (OV v)).
      { intros v J. change (need 0 "N" ((KPos 0, OV v) :: rest depth)) with (Ok (OV v)). change (need 1 "MAX" ((KPos 0, OV v) :: rest depth)) with (Ok (OV m)).
        change (need 2 "ORIG_DIE" ((KPos 0, OV v) :: rest depth)) with (Ok (ORV x)). change (need 3 "depth" ((KPos 0, OV v) :: rest depth)) with (Ok (oint depth)).
        cbn [bind]. change (int_param (oint depth)) with (Ok depth). cbn [bind]. rewrite (eq_truth c v m (vals_int v J) VM). cbn [bind].
        destruct (Z.ltb_spec 0 depth); [lia|]. rewrite andb_false_r. reflexivity. }
      match goal with |- context [casting c explode_helper_sig ?F _] => set (f := F) end.
      destruct (casting_mix c explode_helper_sig f (KPos 0) x (rest depth) (fun v => OV v) (fun v => [(v, 1)])) as (q & Q1 & Q2 & Q3 & Q4 & Q5 & Q6); auto.
      { intros v J. split; [apply HF, J|]. split; [exact Logic.I|reflexivity]. }
      { rewrite (zprod_ones (fun v => total [(v, 1)])) by reflexivity. rewrite Z.mul_1_l. fold d. rewrite Z.pow_1_r in L. exact L. }
      exists q. split; [exact Q1|].
      assert (QP : forall v, (Pr (rv_dist q) v == PrP (fun t => veqb v (vint (exploded (toZ m) t))) (tuples 1 d))%Q).
      { intro v. rewrite Q6, average_tuples by exact P. unfold average. apply Qdiv_comp; [|reflexivity]. apply qsum_ext. intros u w J.
        apply (in_map fst) in J. cbn [fst] in J. rewrite Pr_point. change (tuples 0 d) with [(@nil pval, 1)]. unfold PrP, total. cbn [mass exploded].
        replace (toZ u + (if toZ u =? toZ m then 0 else 0)) with (toZ u) by (destruct (toZ u =? toZ m); lia).
        rewrite <- (is_int_vint u (vals_int u J)). destruct (veqb v u); reflexivity. }
      repeat (split; [assumption|]). split; [|split; [assumption|split; [assumption|split; [|exact QP]]]].
      + apply (casting_mix_ints c explode_helper_sig f (KPos 0) x (rest depth) (fun v => OV v) (fun v => [(v, 1)])); auto.
        * intros v J. split; [apply HF, J|]. split; [exact Logic.I|reflexivity].
        * intros v J. repeat constructor. apply vals_int, J.
      + apply explosion_total; assumption.
    - destruct (IH (depth - 1)) as (q' & E' & (_ & _ & I' & C' & P' & L' & R')); [lia| |].
      { eapply Z.le_trans; [|exact L]. apply Z.pow_le_mono_r; [exact P|lia]. }
      destruct (add_int_die c (toZ m) q' T P' I') as (r & A1 & A2 & A3 & A4 & A5 & A6).
      set (h := fun v => if toZ v =? toZ m then ORV r else OV v).
      set (DD := fun v => if toZ v =? toZ m then rv_dist r else [(v, 1)]).
      change (explode_helper c (S k) (explode_args (ORV x) (OV m) (ORV x) depth)) with
        (casting c explode_helper_sig (fun a =>
          n <- need 0 "N" a ;; mx <- need 1 "MAX" a ;; d <- need 2 "ORIG_DIE" a ;; depth <- (k <- need 3 "depth" a ;; int_param k) ;;
          t <- (e <- py_op c OEq n mx ;; truth e) ;; if (t : bool) && (0 <? depth) then
            r <- explode_helper c k (explode_args d mx d (depth - 1)) ;; py_op c OAdd n r else Ok n) ((KPos 0, ORV x) :: rest depth)).
      match goal with |- context [casting c explode_helper_sig ?F _] => set (f := F) end.
      assert (HF : forall v, In v (vals d) -> f ((KPos 0, OV v) :: rest depth) = Ok (h v)).
      { intros v J. unfold f.
        change (need 0 "N" ((KPos 0, OV v) :: rest depth)) with (Ok (OV v)). change (need 1 "MAX" ((KPos 0, OV v) :: rest depth)) with (Ok (OV m)).
        change (need 2 "ORIG_DIE" ((KPos 0, OV v) :: rest depth)) with (Ok (ORV x)). change (need 3 "depth" ((KPos 0, OV v) :: rest depth)) with (Ok (oint depth)).
        cbn [bind]. change (int_param (oint depth)) with (Ok depth). cbn [bind]. rewrite (eq_truth c v m (vals_int v J) VM). cbn [bind].
        destruct (Z.ltb_spec 0 depth); [|lia]. rewrite andb_true_r. unfold h. destruct (Z.eqb_spec (toZ v) (toZ m)) as [X|X]; [|reflexivity].
        rewrite E'. cbn [bind]. rewrite <- A1. unfold oint. rewrite (toZ_eq v J X). rewrite <- (is_int_vint m VM). reflexivity. }
      assert (HH : forall v, In v (vals (rv_dist x)) -> f ((KPos 0, OV v) :: rest depth) = Ok (h v) /\ usable (h v) /\ result_law (h v) = Some (DD v)).
      { intros v J. split; [apply HF, J|]. unfold h, DD. destruct (toZ v =? toZ m); split; try reflexivity; try exact Logic.I. exact A4. }
      destruct (casting_mix c explode_helper_sig f (KPos 0) x (rest depth) h DD) as (q & Q1 & Q2 & Q3 & Q4 & Q5 & Q6); auto.
      { rewrite (zprod_single (fun v => total (DD v)) m).
        - unfold DD. rewrite Z.eqb_refl. eapply Z.le_trans; [|exact L]. rewrite Nat2Z.inj_succ, Z.pow_succ_r by lia. fold d. fold d in P. nia.
        - intros v J N. unfold DD. destruct (Z.eqb_spec (toZ v) (toZ m)) as [X|X]; [|reflexivity]. exfalso. apply N, toZ_eq; assumption.
        - apply vals_NoDup. apply C.
        - exact M. }
      exists q. split; [exact Q1|].
      assert (QP : forall v, (Pr (rv_dist q) v == PrP (fun t => veqb v (vint (exploded (toZ m) t))) (tuples (S (S k)) d))%Q).
      { intro v. rewrite Q6, (average_tuples _ (S k)) by exact P. unfold average. apply Qdiv_comp; [|reflexivity]. apply qsum_ext. intros u w J.
        apply (in_map fst) in J. cbn [fst] in J. unfold DD. destruct (Z.eqb_spec (toZ u) (toZ m)) as [X|X].
        - rewrite A6. rewrite (shift_law (rv_dist q') (tuples (S k) d) (exploded (toZ m)) (toZ m) I' R' v).
          apply PrP_ext_in. intros t w' _. cbn [exploded]. rewrite X, Z.eqb_refl. reflexivity.
        - symmetry. apply one_roll; assumption. }
      repeat (split; [assumption|]). split; [|split; [assumption|split; [assumption|split; [|exact QP]]]].
      + apply (casting_mix_ints c explode_helper_sig f (KPos 0) x (rest depth) h DD); auto.
        intros v J. unfold DD. destruct (toZ v =? toZ m); [exact A2|]. repeat constructor. apply vals_int, J.
      + apply explosion_total; assumption.
  Qed.
End Explode.

Lemma explode_law c x depth : cfg_trunc c = false -> canon (rv_dist x) -> 0 < total (rv_dist x) -> int_vals (rv_dist x) ->
  total (rv_dist x) ^ Z.of_nat (S (Z.to_nat depth)) <= SUM_LIMIT ->
  exists m q, In m (vals (rv_dist x)) /\ (forall v, In v (vals (rv_dist x)) -> toZ v <= toZ m) /\
    explode c [(KPos 0, ORV x); (KName "depth", oint depth)] = Ok (ORV q) /\
    (depth = cfg_explode c -> explode c (positional [ORV x]) = Ok (ORV q) /\ explode c [(KPos 0, ORV x); (KName "depth", ONone)] = Ok (ORV q)) /\
    canon (rv_dist q) /\ proper (rv_dist q) /\
    same_law (rv_dist q) (image (fun t => vint (exploded (toZ m) t)) (tuples (S (Z.to_nat depth)) (rv_dist x))).
Proof.
  intros T C P I L.
  assert (N : numbers (vals (rv_dist x))).
  { apply Forall_map. eapply Forall_impl; [|exact I]. intros [v w] V. cbn [fst] in *. destruct v; [reflexivity|discriminate V]. }
  destruct (maximum_law c x N (proj1 (proj2 (proj1 C))) (proj1 (proj1 C))) as (m & M1 & M2 & M3).
  destruct (explode_laws c x m T C I P M2 _ depth eq_refl L) as (q & E & (_ & _ & _ & Q1 & Q2 & _ & Q3)).
  exists m, q. split; [exact M2|]. split; [|split; [|split; [|split; [exact Q1|split; [exact Q2|]]]]].
  - intros v J. specialize (M3 v J).
    assert (V : v_is_int v = true). { apply in_map_iff in J. destruct J as [[v' w] [<- J]]. exact (proj1 (Forall_forall _ _) I _ J). }
    assert (V' : v_is_int m = true). { apply in_map_iff in M2. destruct M2 as [[v' w] [<- J']]. exact (proj1 (Forall_forall _ _) I _ J'). }
    rewrite (is_int_vint v V), (is_int_vint m V') in M3. apply (vleb_Q (vint (toZ v)) (vint (toZ m)) eq_refl eq_refl) in M3. cbn [vq vint numQ] in M3. rewrite Zle_Qle. exact M3.
  - change (explode c [(KPos 0, ORV x); (KName "depth", oint depth)]) with
      (mx <- maximum_of c (positional [ORV x]) ;; explode_helper c (Z.to_nat depth) (explode_args (ORV x) mx (ORV x) depth)).
    rewrite M1. exact E.
  - intros ->. split.
    + change (explode c (positional [ORV x])) with
        (mx <- maximum_of c (positional [ORV x]) ;; explode_helper c (Z.to_nat (cfg_explode c)) (explode_args (ORV x) mx (ORV x) (cfg_explode c))).
      rewrite M1. exact E.
    + change (explode c [(KPos 0, ORV x); (KName "depth", ONone)]) with
        (mx <- maximum_of c (positional [ORV x]) ;; explode_helper c (Z.to_nat (cfg_explode c)) (explode_args (ORV x) mx (ORV x) (cfg_explode c))).
      rewrite M1. exact E.
  - intro v. rewrite Q3, Pr_image. reflexivity.
Qed.

(** the total is at most depth + 1 times the maximum *)
Lemma exploded_bounds mx t : 0 <= mx -> Forall (fun v => 0 <= toZ v <= mx) t -> 0 <= exploded mx t <= Z.of_nat (length t) * mx.
Proof.
  intros M. induction t as [|v t IH]; intros F; [cbn; lia|]. inversion F as [|? ? V F']; subst. specialize (IH F').
  cbn [exploded length]. rewrite Nat2Z.inj_succ. destruct (Z.eqb_spec (toZ v) mx); nia.
Qed.
