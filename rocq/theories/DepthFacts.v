(** The depth limiter over all programs of decorated functions. *)
From Coq Require Import String List ZArith Bool Lia.
From Verif Require Import PyBase Num Val RVModel Obj AtModel CastModel.
Import ListNotations.
Open Scope Z_scope.

(** code that leaves the limiter's settings alone *)
Inductive quiet : code -> Prop :=
| quiet_ret o : quiet (Ret o)
| quiet_raise e : quiet (Raise e)
| quiet_call f a k : (forall r, quiet (k r)) -> quiet (Call f a k).
Definition quiet_program (P : program) : Prop := forall f a, quiet (fd_body (P f) a).

(** what a run may do to the world *)
Record rel (w w' : world) : Prop := mkRel {
  rel_max : w_max w' = w_max w;
  rel_active : w_active w' = w_active w;
  rel_failed : w_failed w <= w_failed w';
  rel_depth : w_depth w' = w_depth w + (w_failed w' - w_failed w);
  rel_bound : w_depth w' <= Z.max (w_depth w) (w_max w);
  rel_peak0 : w_peak w <= w_peak w';
  rel_peak : w_peak w' <= Z.max (w_peak w) (w_max w);
  rel_warned : w_warned w = true -> w_warned w' = true;
  rel_printed : w_printed w' = w_printed w + (if w_warned w then 0 else if w_warned w' then 1 else 0) }.

Lemma rel_refl w : rel w w.
Proof. split; try lia; auto. destruct (w_warned w); lia. Qed.

Lemma rel_trans a b c : rel a b -> rel b c -> rel a c.
Proof.
  intros [A1 A2 A3 A4 A5 A6 A7 A8 A9] [B1 B2 B3 B4 B5 B6 B7 B8 B9].
  split; try lia; auto.
  rewrite B9, A9. destruct (w_warned a), (w_warned b) eqn:E, (w_warned c) eqn:E'; try lia.
Qed.

(** a run started in a world satisfying [I] that ends, ends in a related world *)
Definition keeps {A} (I : world -> Prop) (m : M A) : Prop :=
  forall w r w', I w -> m w = Some (r, w') -> rel w w'.
Definition ends {A} (I : world -> Prop) (m : M A) : Prop := forall w, I w -> m w <> None.

Definition outside (w : world) : Prop := w_active w <= w_depth w.
Definition inside (w : world) : Prop := w_active w + 1 <= w_depth w <= w_max w.
Definition at_least (d mx : Z) (w : world) : Prop := d <= w_depth w /\ w_max w = mx.

Lemma rel_outside w w' : rel w w' -> outside w -> outside w'.
Proof. unfold outside. intros [? ? ? ? ? ? ? ? ?]. lia. Qed.
Lemma rel_inside w w' : rel w w' -> inside w -> inside w'.
Proof. unfold inside. intros [? ? ? ? ? ? ? ? ?]. lia. Qed.
Lemma rel_at_least d mx w w' : rel w w' -> at_least d mx w -> at_least d mx w'.
Proof. unfold at_least. intros [? ? ? ? ? ? ? ? ?]. lia. Qed.

Definition stable (I : world -> Prop) : Prop := forall w w', rel w w' -> I w -> I w'.

Lemma keeps_ret {A} I (r : res A) : keeps I (mret r).
Proof. intros w r' w' _ E. injection E as <- <-. apply rel_refl. Qed.

Lemma keeps_bind {A B} I (m : M A) (f : A -> M B) : stable I -> keeps I m -> (forall a, keeps I (f a)) -> keeps I (mbind m f).
Proof.
  intros S Hm Hf w r w' Iw E. unfold mbind in E. destruct (m w) as [[[a|e] w1]|] eqn:E1; [| |discriminate].
  - pose proof (Hm _ _ _ Iw E1) as R. eapply rel_trans; [exact R|]. exact (Hf a _ _ _ (S _ _ R Iw) E).
  - injection E as <- <-. exact (Hm _ _ _ Iw E1).
Qed.

Lemma keeps_map {A B} I (f : A -> M B) l : stable I -> (forall a, keeps I (f a)) -> keeps I (mapF (@mret) (@mbind) f l).
Proof.
  intros S Hf. induction l as [|x l IH]; [apply keeps_ret|].
  apply keeps_bind; [exact S|apply Hf|]. intros y. apply keeps_bind; [exact S|exact IH|].
  intros ys. apply keeps_ret.
Qed.

Lemma keeps_casting I c s f a : stable I -> (forall a, keeps I (f a)) -> keeps I (casting_in (@mret) (@mbind) c s f a).
Proof.
  intros S Hf. apply keeps_bind; [exact S|apply keeps_ret|]. intros [|a'|calls].
  - apply keeps_ret.
  - apply Hf.
  - apply keeps_bind; [exact S| |].
    + apply keeps_map; [exact S|]. intros x. apply keeps_bind; [exact S|apply Hf|]. intros o. apply keeps_ret.
    + intros os. apply keeps_ret.
Qed.

Lemma warn_rel w : rel w (warn w).
Proof.
  unfold warn. destruct (w_warned w) eqn:E; [apply rel_refl|].
  split; cbn; try lia; auto. rewrite E. lia.
Qed.

Lemma keeps_limited f a : (forall a, keeps inside (f a)) -> keeps outside (limited f a).
Proof.
  intros Hf w r w' O E. unfold limited in E. destruct (w_max w <=? w_depth w) eqn:G.
  - injection E as <- <-. apply warn_rel.
  - apply Z.leb_gt in G. destruct (f a (add_depth 1 w)) as [[[o|e] w1]|] eqn:E1; [| |discriminate].
    + injection E as <- <-. apply Hf in E1; [|unfold inside, outside in *; cbn; lia].
      destruct E1 as [? ? ? ? ? ? ? ? ?]. cbn in *. split; cbn; try lia; auto.
    + injection E as <- <-. apply Hf in E1; [|unfold inside, outside in *; cbn; lia].
      destruct E1 as [? ? ? ? ? ? ? ? ?]. cbn in *. split; cbn; try lia; auto.
Qed.

Lemma keeps_observed m : keeps outside m -> keeps inside (observed m).
Proof.
  intros Hm w r w' I E. unfold observed in E.
  destruct (m _) as [[r1 w1]|] eqn:E1; [|discriminate]. injection E as <- <-.
  apply Hm in E1; [|unfold inside, outside in *; cbn; lia].
  destruct E1 as [? ? ? ? ? ? ? ? ?]. unfold inside in I. cbn in *. split; cbn; try lia; auto.
Qed.

Lemma keeps_run callf p : (forall f a, keeps outside (callf f a)) -> quiet p -> keeps outside (run callf p).
Proof.
  intros Hc. induction p as [o|e|f a k IH|n k IH|k IH]; intros Q; inversion Q as [| |? ? ? HQ]; subst.
  - apply keeps_ret.
  - apply keeps_ret.
  - intros w r w' O E. cbn in E. destruct (callf f a w) as [[r1 w1]|] eqn:E1; [|discriminate].
    pose proof (Hc _ _ _ _ _ O E1) as R. eapply rel_trans; [exact R|].
    exact (IH r1 (HQ r1) _ _ _ (rel_outside _ _ R O) E).
Qed.

Lemma keeps_call c P : quiet_program P -> forall n f a, keeps outside (call_fn n c P f a).
Proof.
  intros Q. induction n as [|n IH]; intros f a; [intros w r w' _ E; discriminate|].
  cbn [call_fn]. apply keeps_limited. intros a'. apply keeps_casting; [exact rel_inside|].
  intros a''. apply keeps_observed. apply keeps_run; [exact IH|apply Q].
Qed.

Lemma exec_rel n c P script w r w' : quiet_program P -> quiet script -> outside w ->
  exec n c P script w = Some (r, w') -> rel w w'.
Proof. intros QP QS. apply keeps_run; [apply keeps_call; exact QP|exact QS]. Qed.

(** ** Termination *)

Lemma ends_ret {A} I (r : res A) : ends I (mret r).
Proof. intros w _. discriminate. Qed.
Lemma ends_bind {A B} I (m : M A) (f : A -> M B) : stable I -> keeps I m -> ends I m -> (forall a, ends I (f a)) -> ends I (mbind m f).
Proof.
  intros S K Hm Hf w Iw. unfold mbind. pose proof (Hm w Iw) as N. destruct (m w) as [[[a|e] w1]|] eqn:E1; try congruence.
  apply Hf. exact (S _ _ (K _ _ _ Iw E1) Iw).
Qed.
Lemma ends_map {A B} I (f : A -> M B) l : stable I -> (forall a, keeps I (f a)) -> (forall a, ends I (f a)) ->
  ends I (mapF (@mret) (@mbind) f l).
Proof.
  intros S K Hf. induction l as [|x l IH]; [apply ends_ret|].
  apply ends_bind; [exact S|apply K|apply Hf|]. intros y. apply ends_bind; [exact S|apply keeps_map; assumption|exact IH|].
  intros ys. apply ends_ret.
Qed.
Lemma ends_casting I c s f a : stable I -> (forall a, keeps I (f a)) -> (forall a, ends I (f a)) ->
  ends I (casting_in (@mret) (@mbind) c s f a).
Proof.
  intros S K Hf. apply ends_bind; [exact S|apply keeps_ret|apply ends_ret|]. intros [|a'|calls].
  - apply ends_ret.
  - apply Hf.
  - assert (K' : forall x : args * Z, keeps I (mbind (f (fst x)) (fun o => mret (single o)))).
    { intros x. apply keeps_bind; [exact S|apply K|]. intros o. apply keeps_ret. }
    apply ends_bind; [exact S| | |].
    + apply keeps_map; [exact S|exact K'].
    + apply ends_map; [exact S|exact K'|]. intros x. apply ends_bind; [exact S|apply K|apply Hf|]. intros o. apply ends_ret.
    + intros os. apply ends_ret.
Qed.

Definition room (n : nat) (w : world) : Prop := outside w /\ Z.max 0 (w_max w - w_depth w) < Z.of_nat n.
Definition room_in (n : nat) (w : world) : Prop := inside w /\ Z.max 0 (w_max w - w_depth w) < Z.of_nat n.
Lemma room_stable n : stable (room n).
Proof. intros w w' R [O L]. split; [exact (rel_outside _ _ R O)|]. destruct R. lia. Qed.
Lemma room_in_stable n : stable (room_in n).
Proof. intros w w' R [O L]. split; [exact (rel_inside _ _ R O)|]. destruct R. lia. Qed.

Lemma keeps_weaken {A} (I J : world -> Prop) (m : M A) : (forall w, I w -> J w) -> keeps J m -> keeps I m.
Proof. intros H K w r w' Iw. apply K. apply H. exact Iw. Qed.

Lemma ends_run n callf p : (forall f a, keeps outside (callf f a)) -> (forall f a, ends (room n) (callf f a)) ->
  quiet p -> ends (room n) (run callf p).
Proof.
  intros Hc He. induction p as [o|e|f a k IH|m k IH|k IH]; intros Q; inversion Q as [| |? ? ? HQ]; subst; try (apply ends_ret).
  intros w R. cbn. pose proof (He f a w R) as N. destruct (callf f a w) as [[r1 w1]|] eqn:E1; [|congruence].
  apply IH; [apply HQ|]. exact (room_stable n _ _ (Hc _ _ _ _ _ (proj1 R) E1) R).
Qed.

Lemma ends_call c P : quiet_program P -> forall n f a, ends (room n) (call_fn n c P f a).
Proof.
  intros Q. induction n as [|n IH]; intros f a w [O L]; [lia|].
  cbn [call_fn]. unfold limited. destruct (w_max w <=? w_depth w) eqn:G; [discriminate|]. apply Z.leb_gt in G.
  set (F := fun a' => observed (run (call_fn n c P) (fd_body (P f) a'))).
  assert (K : forall a, keeps inside (F a)).
  { intros a'. apply keeps_observed, keeps_run; [apply keeps_call; exact Q|apply Q]. }
  assert (N : casting_in (@mret) (@mbind) c (fd_sig (P f)) F a (add_depth 1 w) <> None).
  { apply (ends_casting (room_in n)).
    - apply room_in_stable.
    - intros a'. apply (keeps_weaken _ inside); [intros ? X; exact (proj1 X)|apply K].
    - intros a' w1 [I1 L1]. unfold F, observed.
      match goal with |- context[run ?cf ?p ?w2] => pose proof (ends_run n cf p (keeps_call c P Q n) IH (Q f a') w2) as N;
        destruct (run cf p w2) as [[r2 w3]|]; [discriminate|] end.
      exfalso. apply N; [|reflexivity]. unfold room, outside, inside in *. cbn. lia.
    - unfold room_in, inside, outside in *. cbn. lia. }
  fold F. destruct (casting_in (@mret) (@mbind) c (fd_sig (P f)) F a (add_depth 1 w)) as [[[o|e] w1]|]; congruence.
Qed.

Lemma exec_ends n c P script w : quiet_program P -> quiet script -> outside w ->
  Z.max 0 (w_max w - w_depth w) < Z.of_nat n -> exec n c P script w <> None.
Proof.
  intros QP QS O L. apply (ends_run n); [apply keeps_call; exact QP|apply ends_call; exact QP|exact QS|split; assumption].
Qed.

(** ** More fuel gives the same result *)

Definition below {A} (m m' : M A) : Prop := forall w x, m w = Some x -> m' w = Some x.
Lemma below_refl {A} (m : M A) : below m m.
Proof. intros w x E. exact E. Qed.
Lemma below_bind {A B} (m m' : M A) (f f' : A -> M B) : below m m' -> (forall a, below (f a) (f' a)) -> below (mbind m f) (mbind m' f').
Proof.
  intros Hm Hf w x. unfold mbind. destruct (m w) as [[[a|e] w1]|] eqn:E; intros X; [| |discriminate];
    rewrite (Hm _ _ E); [apply Hf; exact X|exact X].
Qed.
Lemma below_map {A B} (f f' : A -> M B) l : (forall a, below (f a) (f' a)) -> below (mapF (@mret) (@mbind) f l) (mapF (@mret) (@mbind) f' l).
Proof.
  intros H. induction l as [|x l IH]; [apply below_refl|]. apply below_bind; [apply H|]. intros y.
  apply below_bind; [exact IH|]. intros ys. apply below_refl.
Qed.
Lemma below_casting c s f f' a : (forall a, below (f a) (f' a)) ->
  below (casting_in (@mret) (@mbind) c s f a) (casting_in (@mret) (@mbind) c s f' a).
Proof.
  intros H. apply below_bind; [apply below_refl|]. intros [|a'|calls]; [apply below_refl|apply H|].
  apply below_bind; [|intros os; apply below_refl]. apply below_map. intros x.
  apply below_bind; [apply H|]. intros o. apply below_refl.
Qed.
Lemma below_run callf callf' p : (forall f a, below (callf f a) (callf' f a)) -> below (run callf p) (run callf' p).
Proof.
  intros H. induction p as [o|e|f a k IH|n k IH|k IH]; try apply below_refl.
  - intros w x. cbn. destruct (callf f a w) as [[r w1]|] eqn:E; [|discriminate]. rewrite (H _ _ _ _ E). apply IH.
  - intros w x. cbn. apply IH.
  - intros w x. cbn. apply IH.
Qed.
Lemma call_fn_S n c P f a : call_fn (S n) c P f a =
  limited (casting_in (@mret) (@mbind) c (fd_sig (P f)) (fun a' => observed (run (call_fn n c P) (fd_body (P f) a')))) a.
Proof. reflexivity. Qed.
Lemma below_call c P n f a : below (call_fn n c P f a) (call_fn (S n) c P f a).
Proof.
  revert f a. induction n as [|n IH]; intros f a w x E; [discriminate|].
  rewrite call_fn_S in E |- *. unfold limited in *. destruct (w_max w <=? w_depth w); [exact E|].
  match type of E with match ?t with _ => _ end = _ => destruct t as [y|] eqn:E1; [|discriminate] end.
  apply (below_casting c (fd_sig (P f)) _ (fun a' => observed (run (call_fn (S n) c P) (fd_body (P f) a')))) in E1.
  - rewrite E1. exact E.
  - intros a' w2 x2. unfold observed.
    match goal with |- match ?t with _ => _ end = _ -> _ => destruct t as [y2|] eqn:E2; [|discriminate] end.
    rewrite (below_run _ _ _ IH _ _ E2). auto.
Qed.
Lemma exec_more c P script n m : (n <= m)%nat -> below (exec n c P script) (exec m c P script).
Proof.
  intros L. induction L as [|m L IH]; [apply below_refl|]. intros w x E. apply IH in E.
  revert E. apply below_run. intros f a. apply below_call.
Qed.

(** ** Calls beyond the limit, and failures *)

Lemma call_beyond n c P f a w : w_max w <= w_depth w -> call_fn (S n) c P f a w = Some (Ok (OBlank false), warn w).
Proof. intros L. cbn [call_fn]. unfold limited. rewrite (proj2 (Z.leb_le _ _) L). reflexivity. Qed.

(** the calls [fs], each with its exceptions caught, then [k] *)
Fixpoint catching (fs : list (nat * args)) (k : code) : code :=
  match fs with
  | [] => k
  | (f, a) :: fs' => Call f a (fun _ => catching fs' k)
  end.

Lemma quiet_catching fs k : quiet k -> quiet (catching fs k).
Proof. intros Q. induction fs as [|[f a] fs IH]; [exact Q|]. apply quiet_call. intros _. exact IH. Qed.

(** a call that always raises as long as it is not cut off *)
Definition raises (c : cfg) (P : program) (fa : nat * args) : Prop :=
  forall n w r w', w_depth w < w_max w -> call_fn n c P (fst fa) (snd fa) w = Some (r, w') -> exists e, r = Err e.

Lemma call_failed n c P f a w e w' : quiet_program P -> outside w -> call_fn n c P f a w = Some (Err e, w') ->
  w_failed w + 1 <= w_failed w'.
Proof.
  intros Q O E. destruct n as [|n]; [discriminate|]. cbn [call_fn] in E. unfold limited in E.
  destruct (w_max w <=? w_depth w) eqn:G; [discriminate|]. apply Z.leb_gt in G.
  match type of E with match ?t with _ => _ end = _ => destruct t as [[[o|e1] w1]|] eqn:E1; [discriminate| |discriminate] end.
  injection E as <- <-. apply (keeps_casting inside) in E1.
  - destruct E1 as [_ _ ? _ _ _ _ _ _]. cbn in *. lia.
  - exact rel_inside.
  - intros a'. apply keeps_observed, keeps_run; [apply keeps_call; exact Q|apply Q].
  - unfold inside, outside in *. cbn. lia.
Qed.

Lemma failures_leak n c P fs k w x : quiet_program P -> Forall (raises c P) fs -> outside w ->
  exec n c P (catching fs k) w = Some x ->
  exists w1, outside w1 /\ w_max w1 = w_max w /\
    Z.min (w_max w) (w_depth w + Z.of_nat (length fs)) <= w_depth w1 /\
    exec n c P k w1 = Some x.
Proof.
  intros Q. revert w. induction fs as [|[f a] fs IH]; intros w H O E.
  - exists w. cbn. repeat split; try assumption; lia.
  - inversion H as [|? ? Hf Hr]; subst. cbn [catching] in E. unfold exec in E. cbn [run] in E.
    destruct (call_fn n c P f a w) as [[r w1]|] eqn:E1; [|discriminate].
    pose proof (keeps_call c P Q n f a _ _ _ O E1) as R.
    destruct (IH w1 Hr (rel_outside _ _ R O) E) as (w2 & O2 & M2 & D2 & E2).
    exists w2. destruct R as [R1 R2 R3 R4 R5 R6 R7 R8 R9]. cbn [length]. repeat split; try assumption; try lia.
    destruct (Z_lt_le_dec (w_depth w) (w_max w)) as [L|L].
    + destruct (Hf n w r w1 L E1) as [e ->]. pose proof (call_failed n c P f a w e w1 Q O E1). lia.
    + lia.
Qed.

Lemma poisoned n c P fs g b w x : quiet_program P -> Forall (raises c P) fs -> outside w ->
  w_max w - w_depth w <= Z.of_nat (length fs) ->
  exec (S n) c P (catching fs (Call g b (fun r => match r with Ok o => Ret o | Err e => Raise e end))) w = Some x ->
  fst x = Ok (OBlank false).
Proof.
  intros Q H O L E. destruct (failures_leak _ _ _ _ _ _ _ Q H O E) as (w1 & O1 & M1 & D1 & E1).
  unfold exec in E1. cbn [run] in E1. rewrite call_beyond in E1 by lia. cbn in E1. injection E1 as <-. reflexivity.
Qed.

(** ** The statements *)

Lemma depth_bounded n c P script w r w' :
  quiet_program P -> quiet script -> w_active w = 0 -> w_peak w = 0 -> 0 <= w_depth w -> 0 <= w_max w ->
  exec n c P script w = Some (r, w') -> w_peak w' <= w_max w.
Proof.
  intros QP QS A K D X E. apply exec_rel in E; auto; [|unfold outside; lia]. destruct E. lia.
Qed.

Lemma depth_terminates n c P script w :
  quiet_program P -> quiet script -> w_active w = 0 -> 0 <= w_depth w <= w_max w ->
  w_max w - w_depth w < Z.of_nat n ->
  exists r w', exec n c P script w = Some (r, w').
Proof.
  intros QP QS A D L. pose proof (exec_ends n c P script w QP QS) as N.
  destruct (exec n c P script w) as [[r w']|]; [eauto|]. exfalso. apply N; [unfold outside; lia|lia|reflexivity].
Qed.

Lemma exec_fuel c P script n m w x : (n <= m)%nat -> exec n c P script w = Some x -> exec m c P script w = Some x.
Proof. intros L. apply exec_more. exact L. Qed.

Lemma warned_once n c P script w r w' : quiet_program P -> quiet script -> w_active w <= w_depth w ->
  exec n c P script w = Some (r, w') -> w_printed w' - w_printed w <= 1 /\ (w_warned w = true -> w_printed w' = w_printed w).
Proof.
  intros QP QS O E. apply exec_rel in E; auto. destruct E as [_ _ _ _ _ _ _ _ E]. rewrite E.
  destruct (w_warned w), (w_warned w'); split; try lia; discriminate.
Qed.

Lemma depth_restored n c P script w r w' : quiet_program P -> quiet script -> w_active w <= w_depth w ->
  exec n c P script w = Some (r, w') ->
  w_depth w' = w_depth w + (w_failed w' - w_failed w) /\ w_failed w <= w_failed w' /\
  (w_failed w' = w_failed w -> w_depth w' = w_depth w).
Proof. intros QP QS O E. apply exec_rel in E; auto. destruct E. lia. Qed.

(** a function that resets the settings and calls itself while its argument is positive *)
Definition reset_loop : program := fun _ =>
  mkF (mkSig ["n"%string] [("n"%string, AN)])
      (fun a => match a with
                | [(_, OV (VN (NI z)))] => if z <=? 0 then Ret (oint 0) else Reset (Call 0 (positional [oint (z - 1)]) (fun _ => Ret (oint 0)))
                | _ => Raise TypeErr
                end).

Lemma reset_unbounded : exists P script n c w r w',
  w_active w = 0 /\ w_peak w = 0 /\ w_depth w = 0 /\ w_max w = 10 /\
  exec n c P script w = Some (r, w') /\ 10 < w_peak w'.
Proof.
  exists reset_loop, (Call 0 (positional [oint 20]) (fun _ => Ret (oint 0))), 30%nat, default_cfg, (fresh 10). eexists. eexists.
  do 4 (split; [reflexivity|]). split; [vm_compute; reflexivity|reflexivity].
Qed.

(** Function 0 raises; function 1 returns 7, but not after ten failures. *)
Definition ex_fail : program := fun i =>
  mkF (mkSig [] []) (fun _ => match i with O => Raise ValueErr | _ => Ret (oint 7) end).
Definition ex_seven : code := Call 1 [] (fun r => match r with Ok o => Ret o | Err e => Raise e end).

Lemma fail_step w n : w_depth w < w_max w -> call_fn (S n) default_cfg ex_fail 0 [] w =
  Some (Err ValueErr, mkW (w_depth w + 1) (w_warned w) (w_max w) (w_active w + 1 - 1) (Z.max (w_peak w) (w_active w + 1)) (w_failed w + 1) (w_printed w)).
Proof. intros L. rewrite call_fn_S. unfold limited. rewrite (proj2 (Z.leb_gt _ _) L). reflexivity. Qed.

Lemma ten_failures :
  quiet_program ex_fail /\ raises default_cfg ex_fail (0%nat, []) /\
  (forall n, (n < 10)%nat -> exists w', exec 1 default_cfg ex_fail (catching (repeat (0%nat, []) n) ex_seven) (fresh 10) = Some (Ok (oint 7), w')) /\
  (forall n, (10 <= n)%nat -> exists w', exec 1 default_cfg ex_fail (catching (repeat (0%nat, []) n) ex_seven) (fresh 10) = Some (Ok (OBlank false), w')).
Proof.
  assert (Q : quiet_program ex_fail) by (intros [|i] a; constructor).
  assert (R : raises default_cfg ex_fail (0%nat, [])).
  { intros n w r w' L E. destruct n as [|n]; [discriminate|]. cbn [fst snd] in E. rewrite fail_step in E by exact L. injection E as <- _. eauto. }
  split; [exact Q|]. split; [exact R|]. split.
  - intros n L. do 10 (destruct n as [|n]; [eexists; vm_compute; reflexivity|]). lia.
  - intros n L. assert (QS : quiet (catching (repeat (0%nat, []) n) ex_seven)).
    { apply quiet_catching. constructor. intros [o|e]; constructor. }
    assert (G : forall m w, exists x, exec 1 default_cfg ex_fail (catching (repeat (0%nat, []) m) ex_seven) w = Some x).
    { induction m as [|m IH]; intros w.
      - unfold exec. cbn [repeat catching run ex_seven]. rewrite call_fn_S. unfold limited.
        destruct (w_max w <=? w_depth w); eexists; reflexivity.
      - unfold exec in *. cbn [repeat catching run]. rewrite call_fn_S. unfold limited.
        destruct (w_max w <=? w_depth w); cbn; apply IH. }
    destruct (G n (fresh 10)) as [[r w'] E]. exists w'.
    assert (X : fst (r, w') = Ok (OBlank false)).
    { apply (poisoned 0 default_cfg ex_fail (repeat (0%nat, []) n) 1%nat [] (fresh 10)); auto.
      - apply Forall_forall. intros y I. apply repeat_spec in I. subst y. exact R.
      - unfold outside. cbn. lia.
      - rewrite repeat_length. cbn. lia. }
    cbn in X. subst r. exact E.
Qed.
