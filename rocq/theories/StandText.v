(** Proofs about constants in the library, and the texts of programs with them. *)
From Coq Require Import String List Bool.
From Verif Require Import PyBase Obj LexModel ParseModel SynSpec SynInd NameSpec ResolveModel Runtime MeanSpec RunSpec RunModel PyProgLaws
  MainModel MainSpec StartSpec StartLaws StartSame SameText StandSpec StandFacts.
Import ListNotations.
Open Scope list_scope.
Open Scope run_scope.

(** what evaluates to the same everywhere and changes nothing *)
Definition constantly {V W A : Type} (m : (variables (V := V) -> functions -> fdef -> list V -> M W V) -> @place V -> M W A) : Prop :=
  exists r, forall callf pl w, m callf pl w = Some (r, w).
Lemma constantly_bnd {V W A B} (m : _ -> _ -> M W A) (f : A -> M W B) :
  @constantly V W A m -> (forall a, exists r, forall w, f a w = Some (r, w)) -> @constantly V W B (fun cf pl => bnd (m cf pl) f).
Proof.
  intros [r R] F. destruct r as [a|e].
  - destruct (F a) as [q Q]. exists q. intros cf pl w. unfold bnd. rewrite R. apply Q.
  - exists (Err e). intros cf pl w. unfold bnd. rewrite R. reflexivity.
Qed.
Lemma constantly_bnd2 {V W A B} (m : _ -> _ -> M W A) (f : _ -> _ -> A -> M W B) :
  @constantly V W A m -> (forall a, @constantly V W B (fun cf pl => f cf pl a)) -> @constantly V W B (fun cf pl => bnd (m cf pl) (f cf pl)).
Proof.
  intros [r R] F. destruct r as [a|e].
  - destruct (F a) as [q Q]. exists q. intros cf pl w. unfold bnd. rewrite R. apply Q.
  - exists (Err e). intros cf pl w. unfold bnd. rewrite R. reflexivity.
Qed.
Lemma constantly_lift {V W A} (r : res A) : @constantly V W A (fun _ _ => lift r).
Proof. exists r. intros cf pl w. reflexivity. Qed.
Lemma constantly_ret {V W A} (a : A) : @constantly V W A (fun _ _ => ret a).
Proof. exists (Ok a). intros cf pl w. reflexivity. Qed.

Lemma constants oplib :
  (forall e, constant_e e = true -> constantly (fun cf pl => mean_e library oplib cf pl e)) /\
  (forall t, constant_t t = true -> constantly (fun cf pl => mean_t library oplib cf pl t)) /\
  (forall l, constant_l l = true -> constantly (fun cf pl => mean_l library oplib cf pl l)) /\
  (forall c : citem, True).
Proof.
  apply syn_ind; try discriminate; try (intros; exact Logic.I).
  - intros t IH H. exact (IH H).
  - intros s _. apply constantly_ret.
  - intros a b _. apply constantly_lift.
  - intros es IH H. change (forallb constant_l es = true) in H.
    change (constantly (fun cf pl => bnd ((fix elements (es : list element) : Run (list obj) :=
                 match es with
                 | [] => ret []
                 | x :: es' => v <== mean_l library oplib cf pl x ;; vs <== elements es' ;; ret (v :: vs)
                 end) es) (fun l => rt_seq library (rt_list library l)))).
    apply constantly_bnd2; [|intros l; apply constantly_lift].
    induction IH as [|x es Hx IH IHes]; [apply constantly_ret|]. cbn [forallb] in H. apply andb_true_iff in H. destruct H as [H K].
    apply constantly_bnd2; [exact (Hx H)|]. intros v. apply constantly_bnd2; [exact (IHes K)|]. intros vs. apply constantly_ret.
  - intros e IH H. exact (IH H).
  - intros e IH H. exact (IH H).
  - intros a b IHa IHb H. change (constant_e a && constant_e b = true) in H. apply andb_true_iff in H. destruct H as [H K].
    change (constantly (fun cf pl => bnd (mean_e library oplib cf pl a) (fun x => bnd (mean_e library oplib cf pl b) (fun y => rt_range library x y)))).
    apply constantly_bnd2; [exact (IHa H)|]. intros x. apply constantly_bnd2; [exact (IHb K)|]. intros y. apply constantly_lift.
Qed.

Theorem constant_means oplib lib fuel x t p w : constant_t t = true -> fixed x p = true ->
  mean_program library oplib lib fuel (SAssign x (ETerm t) :: used x t p) w = mean_program library oplib lib fuel (SAssign x (ETerm t) :: p) w.
Proof.
  intros N A. destruct (proj1 (proj2 (constants oplib)) t N) as [r R]. exact (used_means_for library oplib x t r R lib fuel p w A).
Qed.

(** ** Variables that nothing reads *)
Theorem unread_means {V W} (rt : runtime V W) oplib lib fuel x s p w : ~ In x (flat_map vars_s p) ->
  mean_program rt oplib lib fuel (SAssign x (ETerm (TNum s)) :: p) w = mean_program rt oplib lib fuel p w.
Proof.
  intros N. change (mean_with rt oplib lib fuel [] (SAssign x (ETerm (TNum s)) :: p) w = mean_with rt oplib lib fuel [] p w).
  rewrite with_assign. change (mean_with rt oplib lib fuel [(x, rt_int rt (decimal_value s))] p w = mean_with rt oplib lib fuel [] p w).
  apply starts_same. intros y I. cbn [variable_in]. destruct (String.eqb_spec y x) as [->|_]; [contradiction|reflexivity].
Qed.

(** ** Texts *)
Lemma defs_used x t :
  (forall s, defs_s (use_s x t s) = defs_s s) /\ (forall b, defs_b (use_b x t b) = defs_b b).
Proof.
  assert (B : forall l, Forall (fun s => defs_s (use_s x t s) = defs_s s) l -> flat_map defs_s (map (use_s x t) l) = flat_map defs_s l).
  { induction 1 as [|s l H F IH]; [reflexivity|]. cbn [map flat_map]. now rewrite H, IH. }
  apply stmt_ind2; try reflexivity.
  - intros h hs body H. exact (f_equal (cons (header_shape (h :: hs))) (B body H)).
  - intros y e body H. exact (B body H).
  - intros b bs els H K L. change (defs_b (use_b x t b) ++ flat_map defs_b (map (use_b x t) bs) ++
      match option_map (map (use_s x t)) els with None => [] | Some body => flat_map defs_s body end = defs_s (SIf b bs els)).
    rewrite H. cbn [defs_s]. f_equal. f_equal.
    + induction K as [|b1 bs H1 K IH]; [reflexivity|]. cbn [map flat_map]. now rewrite H1, IH.
    + destruct els as [body|]; [exact (B body L)|reflexivity].
  - intros c body H. exact (B body H).
Qed.
Lemma defs_of_used x t p : defs (used x t p) = defs p.
Proof. unfold used, defs. induction p as [|s p IH]; [reflexivity|]. cbn [map flat_map]. now rewrite (proj1 (defs_used x t)), IH. Qed.
