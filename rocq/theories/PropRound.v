(** C12, continued: round with a number of digits, and the built-in functions on every
    kind of value. *)
From Coq Require Import String List ZArith QArith Qabs Bool Lia.
From Verif Require Import PyBase Num Val RVModel Obj Spec RVFacts RoundFacts FloatSpec RoundToModel RoundToSpec RoundToFacts.
Import ListNotations.
Open Scope Z_scope.

(** [round(x, n)] of a die is the law of its outcomes, each rounded to [n] decimals with
    ties to even; ints stay ints. *)
Theorem C12_round : forall c n x r, cfg_trunc c = false -> proper x -> (forall a, In (VN a) (map fst x) -> is_python a) ->
  rv_round c n x = Ok r -> image_law (rounded_to n) x (rv_dist r).
Proof. exact round_law. Qed.
Print Assumptions C12_round.

(** It succeeds on dice whose outcomes are ints or floats up to 2^1023. *)
Theorem C12_round_succeeds : forall c n x, cfg_trunc c = false -> nonneg x ->
  (forall v, In v (map fst x) -> exists a, v = VN a /\ (is_int a = true \/ (Qabs (numQ a) <= p2 1023)%Q)) -> exists r, rv_round c n x = Ok r.
Proof. exact round_ok. Qed.
Print Assumptions C12_round_succeeds.

(** abs, round, floor, ceil and trunc of a die do to its outcomes what they do to a
    number. *)
Theorem C12_functions : forall c f x r, cfg_trunc c = false -> proper (rv_dist x) -> unary c f (ORV x) = Ok r ->
  exists y, r = ORV y /\ image_law (fun a b => unary c f (OV (VN a)) = Ok (OV (VN b))) (rv_dist x) (rv_dist y).
Proof. exact unary_law. Qed.
Print Assumptions C12_functions.

(** A blank stays a blank; sequences, labels, texts, lists and None have none of these
    functions. *)
Theorem C12_other_values : forall c f,
  (forall b, unary c f (OBlank b) = Ok (OBlank b)) /\
  (forall o, match o with OV (VN _) | ORV _ | OBlank _ => False | _ => True end -> unary c f o = Err TypeErr).
Proof. intros c f. split; [reflexivity|]. intros [[a|s]|s|l|l|l|x|b|] H; try reflexivity; destruct H. Qed.
Print Assumptions C12_other_values.

(** 0.5, 1.5, 2.5 and 25 to no decimals and to tens; 2.675 to two decimals *)
Definition halves : dist := [(VN (NF 1 (-1)), 1); (VN (NF 3 (-1)), 2); (VN (NF 5 (-1)), 1); (vint 25, 3)].
Example C12_round_example :
  proper halves /\ (forall a, In (VN a) (map fst halves) -> is_python a) /\
  rmap rv_dist (rv_round default_cfg 0 halves) = Ok [(VN (NF 0 0), 1); (VN (NF 1 1), 3); (vint 25, 3)] /\
  rmap rv_dist (rv_round default_cfg (-1) halves) = Ok [(VN (NF 0 0), 4); (vint 20, 3)] /\
  round_to 2 (NF 3011782035156173 (-50)) = fround 267 100 OverflowErr /\
  round_to (-308) (NF (2 ^ 53 - 1) 971) = Err OverflowErr.
Proof.
  split; [split; [repeat constructor; discriminate|reflexivity]|]. split.
  { intros a I. cbn in I. destruct I as [I|[I|[I|[I|[]]]]]; injection I as <-; [right|right|right|left; reflexivity].
    - exists 1, (-1). repeat split; lia.
    - exists 3, (-1). repeat split; lia.
    - exists 5, (-1). repeat split; lia. }
  split; [vm_compute; reflexivity|]. split; [vm_compute; reflexivity|]. split; vm_compute; reflexivity.
Qed.
