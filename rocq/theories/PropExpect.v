(** C39: which arguments are cast. *)
From Coq Require Import String List ZArith.
From Verif Require Import PyBase Num Val RVModel Obj CastModel CastSpec PropCast ExpectSpec ExpectFacts.
Import ListNotations.

(** An argument is cast to the type that is written at its parameter; annotations that are
    none of the three types are not types. *)
Theorem C39_expected : forall s k e, NoDup (map fst (sg_anns s)) -> (annotation s k = Some e <-> expects s k e).
Proof. exact expected. Qed.
Print Assumptions C39_expected.

(** If no type is written at the parameters of the arguments, the function is called once,
    with the arguments as they are: also with dice, lists and blanks. *)
Theorem C39_unexpected : forall c s f a, NoDup (map fst (sg_anns s)) -> (forall k o e, In (k, o) a -> ~ expects s k e) ->
  casting c s f a = f a.
Proof. exact unexpected. Qed.
Print Assumptions C39_unexpected.

Definition foreign : sig := mkSig ["a"; "b"]%string [("a", AOther); ("c", AN)]%string.
Definition foreign_args : args := [(KPos 0, OIter [oint 1; oint 2]); (KPos 1, OBlank false); (KPos 2, ORV ex_d3); (KName "d", OStr "x")].
Example C39_foreign : forall c f, casting c foreign f foreign_args = f foreign_args.
Proof.
  intros c f. apply C39_unexpected; [repeat constructor; cbn; intuition discriminate|].
  intros k o e I (n & P & A & T). destruct A as [A|[A|[]]]; injection A as <- <-; [destruct T as [T|[T|T]]; discriminate|].
  repeat (destruct I as [I|I]; [injection I as <- <-; inversion P as [i m E|m]; subst; try discriminate E|]). destruct I.
Qed.
Example C39_some : expects foreign (KName "c") AN /\ ~ expects foreign (KPos 0) AOther.
Proof. split; [exists "c"%string; repeat split; [constructor|right; now left|now left]|]. intros (n & P & A & [T|[T|T]]); discriminate. Qed.
