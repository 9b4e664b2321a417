(** The functions of the library ignore an argument beyond their parameters, except for
    the division of utils.py. *)
From Coq Require Import String List ZArith Bool Lia.
From Verif Require Import PyBase Num Val RVModel Obj AtModel CastModel LibModel Runtime RunModel ScopeSpec.
Import ListNotations.
Open Scope nat_scope.
Open Scope list_scope.

Section further.
  Variables (c : cfg) (s : sig) (o : obj).
  Let n := List.length (sg_names s).
  Let e : args := [(KPos n, o)].

  Definition before (k : key) : Prop := k <> KPos n.

  Lemma set_more : forall k x a, before k -> set_arg k x (a ++ e) = set_arg k x a ++ e.
  Proof.
    intros k x a K. unfold set_arg. rewrite map_app. f_equal. cbn [e map fst].
    destruct k as [i|m]; cbn [key_eqb]; [|reflexivity].
    destruct (Nat.eqb_spec i n) as [->|_]; [exfalso; now apply K|reflexivity].
  Qed.

  Lemma cast_more : forall todo a h, Forall (fun ko => before (fst ko)) todo ->
    cast_all c s todo (a ++ e) h
    = rmap (option_map (fun r => (fst r ++ e, snd r))) (cast_all c s todo a h).
  Proof.
    induction todo as [|[k x] todo IH]; intros a h F; [reflexivity|]. cbn [cast_all].
    pose proof (Forall_inv F) as K. apply Forall_inv_tail in F. cbn [fst] in K.
    destruct (annotation s k) as [t|]; [|exact (IH a h F)].
    destruct (cast1 c t x) as [[|y|r|]|err]; cbn [bind]; try reflexivity.
    - exact (IH a h F).
    - rewrite (set_more k y a K). exact (IH _ h F).
    - exact (IH a _ F).
  Qed.
  Lemma cast_last : forall todo a h, cast_all c s (todo ++ e) a h = cast_all c s todo a h.
  Proof.
    induction todo as [|[k x] todo IH]; intros a h.
    - cbn [app e cast_all]. unfold annotation. cbn [fst].
      rewrite (proj2 (nth_error_None (sg_names s) n) (Nat.le_refl n)). reflexivity.
    - cbn [app cast_all]. destruct (annotation s k) as [t|]; [|exact (IH a h)].
      destruct (cast1 c t x) as [[|y|r|]|err]; cbn [bind]; try reflexivity; apply IH.
  Qed.
  Lemma hard_keys : forall todo a h r, Forall (fun ko => before (fst ko)) todo -> Forall before (map fst h) ->
    cast_all c s todo a h = Ok (Some r) -> Forall before (map fst (snd r)).
  Proof.
    induction todo as [|[k x] todo IH]; intros a h r F H E; [injection E as <-; exact H|]. cbn [cast_all] in E.
    pose proof (Forall_inv F) as K. apply Forall_inv_tail in F. cbn [fst] in K.
    destruct (annotation s k) as [t|]; [|exact (IH a h r F H E)].
    destruct (cast1 c t x) as [[|y|z|]|err]; cbn [bind] in E; try discriminate.
    - exact (IH a h r F H E).
    - exact (IH _ h r F H E).
    - refine (IH a _ r F _ E). rewrite map_app. apply Forall_app. split; [exact H|]. constructor; [exact K|constructor].
  Qed.

  Lemma fill_more : forall ks vs a, Forall before ks -> fill (a ++ e) ks vs = fill a ks vs ++ e.
  Proof.
    unfold fill. induction ks as [|k ks IH]; intros vs a F; [reflexivity|]. destruct vs as [|v vs]; [reflexivity|].
    cbn [combine fold_left fst snd]. rewrite (set_more k v a (Forall_inv F)). exact (IH vs _ (Forall_inv_tail F)).
  Qed.

  Definition plan_more (p : plan) : plan :=
    match p with
    | PAbort => PAbort
    | PDirect a => PDirect (a ++ e)
    | PProduct l => PProduct (map (fun aw => (fst aw ++ e, snd aw)) l)
    end.
  Lemma make_more : forall a, Forall (fun ko => before (fst ko)) a ->
    make_plan c s (a ++ e) = rmap plan_more (make_plan c s a).
  Proof.
    intros a F. unfold make_plan. rewrite cast_last, (cast_more a a [] F).
    destruct (cast_all c s a a []) as [[[a' h]|]|err] eqn:E; cbn [rmap option_map bind fst snd]; try reflexivity.
    destruct h as [|x h]; [reflexivity|].
    pose proof (hard_keys a a [] _ F (Forall_nil _) E) as H. cbn [snd] in H.
    destruct (mapM hard_values (map snd (x :: h))) as [ls|err]; cbn [bind rmap plan_more]; [|reflexivity].
    do 2 f_equal. rewrite map_map. apply map_ext. intros vw. cbn [fst snd]. now rewrite (fill_more _ _ _ H).
  Qed.

  Theorem casting_more : forall f a, (forall a, f (a ++ e) = f a) -> Forall (fun ko => before (fst ko)) a ->
    casting c s f (a ++ e) = casting c s f a.
  Proof.
    intros f a Hf F. unfold casting, casting_in. rewrite (make_more a F).
    destruct (make_plan c s a) as [[|a'|l]|err]; cbn [rmap bind plan_more]; try reflexivity; [apply Hf|].
    rewrite map_map. cbn [snd]. 
    match goal with |- bind ?x _ = bind ?y _ => assert (E : x = y) end.
    { induction l as [|aw l IH]; [reflexivity|]. cbn [map mapF fst]. rewrite Hf, IH. reflexivity. }
    rewrite E. reflexivity.
  Qed.
End further.

Lemma param_more : forall i m n o a, i <> n -> param i m (a ++ [(KPos n, o)]) = param i m a.
Proof.
  intros i m n o a N. induction a as [|[k x] a IH].
  - cbn. destruct (Nat.eqb_spec n i); [congruence|reflexivity].
  - cbn [app param]. destruct (key_eqb k (KPos i) || key_eqb k (KName m)); [reflexivity|exact IH].
Qed.
Lemma need_more : forall i m n o a, i <> n -> need i m (a ++ [(KPos n, o)]) = need i m a.
Proof. intros i m n o a N. unfold need. now rewrite (param_more i m n o a N). Qed.
Lemma key_more : forall m n o a, lookup_key (KName m) (a ++ [(KPos n, o)]) = lookup_key (KName m) a.
Proof.
  intros m n o a. induction a as [|[k x] a IH]; [reflexivity|].
  cbn [app lookup_key]. destruct (key_eqb (KName m) k); [reflexivity|exact IH].
Qed.

Lemma positional_more : forall l i o, positional_from i (l ++ [o]) = positional_from i l ++ [(KPos (i + List.length l), o)].
Proof.
  induction l as [|x l IH]; intros i o; cbn [app positional_from List.length].
  - now rewrite Nat.add_0_r.
  - rewrite IH. now rewrite Nat.add_succ_r.
Qed.
Lemma positional_before : forall l i s, i + List.length l = List.length (sg_names s) ->
  Forall (fun ko => before s (fst ko)) (positional_from i l).
Proof.
  induction l as [|x l IH]; intros i s E; [constructor|]. cbn [positional_from List.length] in *. constructor.
  - intros [= ->]. lia.
  - apply IH. lia.
Qed.
Lemma called_more : forall c s f l o, (forall a, f (a ++ [(KPos (List.length (sg_names s)), o)]) = f a) ->
  List.length l = List.length (sg_names s) ->
  casting c s f (positional (l ++ [o])) = casting c s f (positional l).
Proof.
  intros c s f l o H E. unfold positional. rewrite positional_more. cbn [Nat.add]. rewrite E.
  apply casting_more; [exact H|]. apply positional_before. exact E.
Qed.

Lemma with_same : forall (A : Type) (f g : cfg -> res A) w, (forall c, f c = g c) -> with_cfg f w = with_cfg g w.
Proof.
  intros A f g w H. unfold with_cfg, bnd. destruct (cfg_now w) as [[[c|err] w']|]; try reflexivity. now rewrite H.
Qed.

Ltac ignores := apply called_more; [intros a; cbn [sg_names sig_of map fst List.length]|assumption].

Theorem library_lenient : lenient library.
Proof.
  intros f l w N E. cbn [rt_lib rt_none library]. unfold run_lib. apply with_same. intros c.
  destruct f; cbn [lib_arity] in E; try congruence; ignores.
  - unfold absolute_body. rewrite !need_more by discriminate. reflexivity.
  - unfold contains_body. rewrite !need_more by discriminate. reflexivity.
  - unfold count_in_body. rewrite !need_more by discriminate. reflexivity.
  - unfold explode_body. rewrite !need_more, key_more by discriminate. reflexivity.
  - unfold highest_of_body. rewrite !need_more by discriminate. reflexivity.
  - unfold lowest_of_body. rewrite !need_more by discriminate. reflexivity.
  - unfold middle_of_body. rewrite !need_more by discriminate. reflexivity.
  - unfold pick_body. rewrite !need_more by discriminate. reflexivity.
  - unfold pick_body. rewrite !need_more by discriminate. reflexivity.
  - unfold maximum_body. rewrite !need_more by discriminate. reflexivity.
  - unfold reverse_body. rewrite !need_more by discriminate. reflexivity.
  - unfold sort_body. rewrite !need_more by discriminate. reflexivity.
Qed.
