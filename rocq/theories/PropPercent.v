(** The percentages of a report together. *)
From Coq Require Import String Ascii List ZArith QArith Qabs Bool Lia.
From Verif Require Import PyBase Num Val Sorting RVModel OutModel UtilModel Obj RollModel PrintModel Spec PrintSpec PercentSpec
  RVFacts RoundFacts StdFacts OutFacts PrintFacts FloatSpec FloatFacts PercentFacts.
Import ListNotations.
Open Scope string_scope.
Open Scope list_scope.
Open Scope Z_scope.

(** ** C86.  The percentages in the lines of a report add up to 100, except for the
    rounding: at most half a hundredth for every line. *)
Theorem C86_hundred : forall c show ftext square w0 x named width head, proper (rv_dist x) -> 0 <= width <= 2 ^ 53 ->
  summary c ftext square (rv_dist x) = Ok head ->
  exists lines ns,
    report c show ftext square w0 (ORV x) named true (Some width) (NI 0) = Ok (heading named ++ head ++ lines_text lines width)%string /\
    length lines = length (rv_dist x) /\ Forall2 shows_percent ns lines /\
    (Qabs (inject_Z (sum_of ns) / 100 - 100) <= ((1 # 200) + p2 (-44)) * inject_Z (Z.of_nat (length (rv_dist x))))%Q.
Proof. exact percents_add. Qed.
Print Assumptions C86_hundred.

(** They need not add up to 100: a die with three faces. *)
Definition d3 : list (pval * Z) := [(vint 1, 1); (vint 2, 1); (vint 3, 1)].
Theorem C86_hundred_refuted : exists lines,
  report default_cfg (fun _ => "") float_str exact_square 180 (ORV (rv_of d3)) None true (Some 7) (NI 0) =
    Ok ("2.0 ± 0.82" ++ lines_text lines 7)%string /\ proper d3 /\
  Forall2 shows_percent [3333; 3333; 3333] lines /\ sum_of [3333; 3333; 3333] = 9999.
Proof.
  exists ["1: 33.33  ██"; "2: 33.33  ██"; "3: 33.33  ██"]. split; [vm_compute; reflexivity|].
  split; [split; [repeat constructor; discriminate|vm_compute; reflexivity]|]. split; [|reflexivity].
  assert (D : two_decimals 3333 "33.33") by (exists "33", "33", 33, 33; repeat split; discriminate).
  repeat constructor; [exists "1"|exists "2"|exists "3"]; exists 0%nat, "33.33", 2%nat; (split; [reflexivity|exact D]).
Qed.
Print Assumptions C86_hundred_refuted.
