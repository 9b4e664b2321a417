(** Which type a decorated function expects of an argument: proofs. *)
From Coq Require Import String List Bool.
From Verif Require Import PyBase Num Val Obj CastModel ExpectSpec.
Import ListNotations.

Lemma lookup_in n (e : ann) l : NoDup (map fst l) -> (lookup n l = Some e <-> In (n, e) l).
Proof.
  induction l as [|[m a] l IH]; cbn [lookup map fst]; intros N; [split; [discriminate|intros []]|].
  inversion N as [|? ? N1 N2]; subst. destruct (String.eqb_spec m n) as [->|D].
  - split; [intros [= ->]; now left|]. intros [E|I]; [now injection E as ->|]. destruct N1. change n with (fst (n, e)). now apply in_map.
  - rewrite (IH N2). split; [now right|]. intros [E|I]; [injection E as <- <-; contradiction|exact I].
Qed.
Theorem expected s k e : NoDup (map fst (sg_anns s)) -> (annotation s k = Some e <-> expects s k e).
Proof.
  intros N. unfold annotation, expects. split.
  - intros H. assert (X : exists n, parameter_of s k n /\ match lookup n (sg_anns s) with Some AOther => None | a => a end = Some e).
    { destruct k as [i|n]; [destruct (nth_error (sg_names s) i) as [n|] eqn:E; [|discriminate]|]; exists n; (split; [now constructor|exact H]). }
    destruct X as (n & Pn & L). exists n. split; [exact Pn|].
    destruct (lookup n (sg_anns s)) as [a|] eqn:E; [|discriminate]. apply (lookup_in n a _ N) in E.
    destruct a; try discriminate; injection L as <-; tauto.
  - intros (n & Pn & I & T). apply (lookup_in n e _ N) in I.
    destruct Pn as [i n E|n]; [rewrite E|]; rewrite I; destruct T as [->|[->| ->]]; reflexivity.
Qed.
Lemma cast_none c s a h : forall todo, Forall (fun ko => annotation s (fst ko) = None) todo -> cast_all c s todo a h = Ok (Some (a, h)).
Proof. induction 1 as [|[k o] todo E _ IH]; [reflexivity|]. cbn [cast_all]. cbn [fst] in E. now rewrite E. Qed.
Theorem unexpected c s f a : NoDup (map fst (sg_anns s)) -> (forall k o e, In (k, o) a -> ~ expects s k e) -> casting c s f a = f a.
Proof.
  intros N H. unfold casting, casting_in, make_plan. rewrite cast_none; [reflexivity|]. apply Forall_forall. intros [k o] I. cbn [fst].
  destruct (annotation s k) as [e|] eqn:E; [|reflexivity]. apply (expected s k e N) in E. destruct (H k o e I E).
Qed.
