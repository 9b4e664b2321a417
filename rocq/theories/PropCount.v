(** Property C112: [count VALUES in n d x] of the library follows the binomial law, if no
    value is listed twice.  [occurs a vs]: the outcome [a] is one of the values;
    [exactly n p j]: the binomial chance (ChanceSpec.v). *)
From Coq Require Import String List ZArith QArith Bool Lia.
From Verif Require Import PyBase Num Val RVModel Obj RollModel RollSpec CastModel LibModel Spec SeqSpec LibSpec RVFacts UnaryFacts ChanceSpec CountFacts.
Import ListNotations.
Open Scope Z_scope.

Theorem C112_count : forall c calls n x r vs,
  Forall int_call calls -> int_vals (rv_dist x) -> 2 <= n ->
  roll_after c calls (oint n) (Some (ORV x)) = Ok (ORV r) ->
  cfg_trunc c = false -> wf (rv_dist x) -> 0 < total (rv_dist x) -> total (rv_dist x) ^ n <= SUM_LIMIT ->
  numbers vs -> ForallOrdPairs (fun a b => ~ (vq a == vq b)%Q) vs ->
  exists q, count_in c (positional [OSeq vs; ORV r]) = Ok (ORV q) /\
    forall j, (Pr (rv_dist q) (vint (Z.of_nat j)) ==
      if Nat.leb j (Z.to_nat n) then exactly (Z.to_nat n) (PrP (fun a => occurs a vs) (rv_dist x)) j else 0)%Q.
Proof. exact count_binomial. Qed.
Print Assumptions C112_count.

(** A value listed twice is counted twice: [count {2, 2} in 2d3] can be 4. *)
Definition three : rv := rv_of [(vint 1, 1); (vint 2, 1); (vint 3, 1)].

Theorem C112_repeated : exists r q,
  roll_after default_cfg [] (oint 2) (Some (ORV three)) = Ok (ORV r) /\
  count_in default_cfg (positional [OSeq [vint 2; vint 2]; ORV r]) = Ok (ORV q) /\
  (Pr (rv_dist q) (vint 4) == 1 # 9)%Q.
Proof.
  eexists. eexists. split; [vm_compute; reflexivity|]. split; [vm_compute; reflexivity|]. reflexivity.
Qed.
Print Assumptions C112_repeated.

(** ** Non-vacuity: [count {1, 3} in 3d3] *)
Example C112_example : exists r q,
  roll_after default_cfg [] (oint 3) (Some (ORV three)) = Ok (ORV r) /\
  count_in default_cfg (positional [OSeq [vint 1; vint 3]; ORV r]) = Ok (ORV q) /\
  int_vals (rv_dist three) /\ wf (rv_dist three) /\ 0 < total (rv_dist three) /\ total (rv_dist three) ^ 3 <= SUM_LIMIT /\
  numbers [vint 1; vint 3] /\ distinct [vint 1; vint 3] /\
  (PrP (fun a => occurs a [vint 1; vint 3]) (rv_dist three) == 2 # 3)%Q /\
  (Pr (rv_dist q) (vint 2) == 12 # 27)%Q /\ (exactly 3 (2 # 3) 2 == 12 # 27)%Q.
Proof.
  eexists. eexists. split; [vm_compute; reflexivity|]. split; [vm_compute; reflexivity|].
  split; [repeat constructor|]. split; [split; [discriminate|]; split; repeat constructor; discriminate|].
  split; [reflexivity|]. split; [discriminate|]. split; [repeat constructor|].
  split; [repeat constructor; intro H; discriminate H|].
  split; [reflexivity|]. split; reflexivity.
Qed.
