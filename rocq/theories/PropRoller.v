(** C64: roller. *)
From Coq Require Import List ZArith QArith Qabs Bool Lia.
From Verif Require Import PyBase Num Val RVModel Obj RollerModel Spec RollerFacts.
Import ListNotations.
Open Scope Z_scope.

(** [ks i]: the i-th random number is [ks i / 2^53].  Every outcome drawn is
    possible, whatever the random numbers are. *)
Theorem C64_only_possible : forall c x count ks,
  nonneg (rv_dist x) -> 0 < total (rv_dist x) <= 2 ^ 1022 -> (forall i, 0 <= ks i < 2 ^ 53) ->
  exists l, roller c (ORV x) count ks = Ok l /\ length l = match count with None => 1%nat | Some n => Z.to_nat n end /\
    forall i v, nth_error l i = Some v -> draw (rv_dist x) (ks i) = Ok v /\ exists w, In (v, w) (rv_dist x) /\ 0 < w.
Proof. exact roller_possible. Qed.
Print Assumptions C64_only_possible.

(** The random numbers that draw the outcome [v] of weight [w] are an interval; its
    length is [w / total] of all random numbers, up to five random numbers, and it
    is empty when [w] is 0.  The intervals of all outcomes cover all random numbers. *)
Theorem C64_frequencies : forall d : dist, nonneg d -> 0 < total d <= 2 ^ 1022 ->
  exists N : nat -> Z, N O = 0 /\ N (length d) = 2 ^ 53 /\
    forall i v w, nth_error d i = Some (v, w) ->
      N i <= N (S i) /\ (w = 0 -> N (S i) = N i) /\
      (Qabs (inject_Z (N (S i) - N i) / inject_Z (2 ^ 53) - inject_Z w / inject_Z (total d)) <= 5 / inject_Z (2 ^ 53))%Q /\
      (forall k, N i <= k < N (S i) -> draw d k = Ok v).
Proof. exact draw_intervals. Qed.
Print Assumptions C64_frequencies.

(** A die without possible outcomes raises. *)
Theorem C64_impossible : forall d k, nonneg d -> total d = 0 -> draw d k = Err (match d with [] => IndexErr | _ => ValueErr end).
Proof. exact draw_zero. Qed.
Print Assumptions C64_impossible.

Definition ex_die : rv := rv_of [(vint 1, 0); (vint 2, 3); (vint 5, 1); (vint 9, 0)].
Example C64_example : nonneg (rv_dist ex_die) /\ 0 < total (rv_dist ex_die) <= 2 ^ 1022 /\
  roller default_cfg (ORV ex_die) (Some 4) (fun i => nth i [0; 3 * 2 ^ 51 - 1; 3 * 2 ^ 51; 2 ^ 53 - 1] 0) = Ok [vint 2; vint 2; vint 5; vint 5].
Proof. split; [repeat constructor; cbn; lia|]. split; [split; [reflexivity|]; discriminate|]. vm_compute. reflexivity. Qed.
