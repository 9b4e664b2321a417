(** Programs stop also when functions work on copies of variables, and when they start with
    variables. *)
From Coq Require Import String Ascii List ZArith Bool Arith Lia.
From Verif Require Import PyBase Num Val Obj SettingsModel LexModel ParseModel SynSpec SynInd NameSpec Runtime RunModel MeanSpec RunSpec
  ScopeSpec StartSpec StopSpec StopFacts.
Import ListNotations.
Open Scope string_scope.
Open Scope nat_scope.
Open Scope list_scope.
Open Scope run_scope.

Lemma calls_over_settle oplib : forall j k m, (m - k <= Z.of_nat j)%Z -> forall gs fs f l, keep_depth fs -> keeps_depth f ->
  settles (counted k m) (fun n => call_over library oplib n gs fs f l) any.
Proof.
  induction j as [|j IH]; intros k m Hj gs fs f l Kfs Kf; apply settles_shift; cbn [call_over rt_call library].
  - refine (st_bnd _ _ _ _ _ (st_any_lift _ _) _). intros ks _. apply run_call_settles. intro L. lia.
  - refine (st_bnd _ _ _ _ _ (st_any_lift _ _) _). intros ks _. apply run_call_settles. intros L l'.
    unfold body_over. destruct (give_all (d_params f) l') as [own|]; [|exact (st_any_lift _ (Err TypeErr))].
    refine (st_bnd _ _ _ keeping _ (st_block (counted (k + 1) m) false oplib (call_over library oplib) (d_body f) _ _ _ (mkPlace (own ++ gs) fs None) Kfs)
              (fun r _ => st_ret _ _ _ Logic.I)).
    + apply Forall_forall. intros s _. refine (proj1 (st_stmt (counted (k + 1) m) (counted_same (k + 1) m) false _ oplib (call_over library oplib) _) s).
      * intros n v [N|N]; [discriminate|]. exact (counted_set _ _ n v N).
      * intros gs' fs' f' l'' Kfs' Kf'. apply IH; [lia|exact Kfs'|exact Kf'].
    + exact (inside_steady f Kf).
    + right. exact Kf.
Qed.

Lemma steady_block oplib (callf : nat -> @variables obj -> functions -> fdef -> list obj -> Run obj) gs (lib : bool) p :
  (forall j k m, (m - k <= Z.of_nat j)%Z -> forall gs fs f l, keep_depth fs -> keeps_depth f ->
     settles (counted k m) (fun n => callf n gs fs f l) any) ->
  steady p = true -> forall w, exists r w' n, forall k, n <= k ->
  (r <== mean_block library oplib (callf k) p (mkPlace gs (if lib then library_functions else []) None) ;; ret Datatypes.tt) w = Some (r, w').
Proof.
  intros HC S w.
  assert (A : all_steady (flat_map functions_s p)).
  { unfold steady in S. rewrite forallb_forall in S. apply Forall_forall. intros f Hf. specialize (S f Hf).
    apply negb_true_iff in S. exact S. }
  assert (B : settles anywhere (fun n => mean_block library oplib (callf n) p
                (mkPlace gs (if lib then library_functions else []) None)) keeping).
  { apply (st_block anywhere true); [| exact A | left; reflexivity |].
    - apply Forall_forall. intros s _.
      refine (proj1 (st_stmt anywhere (fun _ _ _ _ => Logic.I) true _ oplib callf _) s).
      + intros n v _. exact (anywhere_set n v).
      + intros gs' fs f l Kfs Kf w0 _.
        destruct (HC (Z.to_nat (num depth_setting w0 - num "INTERNAL_CURR_DEPTH" w0))
                    (num "INTERNAL_CURR_DEPTH" w0) (num depth_setting w0) ltac:(lia) gs' fs f l Kfs Kf w0 (conj (Z.le_refl _) eq_refl))
          as (n & r & w' & E & _).
        exists n, r, w'. split; [exact E|]. destruct r; unfold any, anywhere; auto.
    - cbn [pl_functions]. intros s f. destruct lib; cbn [library_functions find_function]; [|discriminate].
      repeat (destruct (shape_eqb s _); [discriminate|]). discriminate. }
  destruct (B w Logic.I) as (n & r & w' & E & _).
  exists (match r with Ok _ => Ok Datatypes.tt | Err e => Err e end), w', n. intros k Hk.
  unfold bnd. rewrite (E k Hk). destruct r; reflexivity.
Qed.

Theorem steady_over_stops : forall oplib lib p w, steady p = true ->
  exists r w' n, forall k, n <= k -> mean_over library oplib lib k p w = Some (r, w').
Proof. intros oplib lib p w S. exact (steady_block oplib (call_over library oplib) [] lib p (calls_over_settle oplib) S w). Qed.
Theorem steady_with_stops : forall oplib lib gs p w, steady p = true ->
  exists r w' n, forall k, n <= k -> mean_with library oplib lib k gs p w = Some (r, w').
Proof. intros oplib lib gs p w S. exact (steady_block oplib (call_defined library oplib) gs lib p (calls_settle oplib) S w). Qed.
