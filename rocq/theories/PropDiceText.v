(** The text of dice. *)
From Coq Require Import Ascii String List ZArith QArith Bool Lia.
From Verif Require Import PyBase Num Val RVModel UtilModel Obj RollModel RollSpec Spec NameModel RVFacts RollFacts RollObjFacts NameFacts
  NumSpec NumTextFacts DiceTextSpec DiceTextFacts.
Import ListNotations.
Open Scope string_scope.
Open Scope list_scope.
Open Scope Z_scope.

(** ** C104.  After any history of rolls of integer dice and of other variables made, an
    object whose text reads as dice notation, [ndm], has the law of [n] dice with the sides
    1 to [m] (up to the size where weights are rescaled, C13), *)
Theorem C104_true : forall c es q a b, cfg_trunc c = false -> possible c es empty_heap ->
  let h := later c es empty_heap in
  (q < hlen h)%nat -> dice_text (rv_str (name_at h q)) a b -> b ^ Z.abs a <= SUM_LIMIT ->
  forall k, (Pr (rv_dist (rv_at h q)) (vint k) == Pr (dice_total a (int_die b)) (vint k))%Q.
Proof. exact texts_true. Qed.
Print Assumptions C104_true.

(** so that rolling its text gives the same dice. *)
Theorem C104_again : forall c es q a b calls, cfg_trunc c = false -> possible c es empty_heap -> Forall int_call calls ->
  let h := later c es empty_heap in
  (q < hlen h)%nat -> dice_text (rv_str (name_at h q)) a b -> b ^ Z.abs a <= SUM_LIMIT ->
  exists r, roll_after c calls (OStr (rv_str (name_at h q))) None = Ok (ORV r) /\
    forall k, (Pr (rv_dist r) (vint k) == Pr (rv_dist (rv_at h q)) (vint k))%Q.
Proof. exact texts_roll. Qed.
Print Assumptions C104_again.

(** The text of a roll, in any state of the program: of [k] dice, or of as many as the
    numbers of a sequence add up to ([count_is]), with an integer number of sides; with
    sides from a sequence; of a random number of dice; and of [k] dice given as an object,
    which is shown as its sides if it is a single plain die. *)
Theorem C104_roll : forall c n d h r h', hok h -> valid h n d -> hroll c n d h = (Ok r, h') ->
  (forall k m, count_is n k -> d = HDInt m -> rv_str (name_at h' r) = roll_text k m) /\
  (forall k v l, count_is n k -> d = HDSeq (v :: l) -> rv_str (name_at h' r) = other_text k) /\
  (forall q, n = HCRef q -> (forall x, d <> HDRef x) -> d <> HDSeq [] -> rv_str (name_at h' r) = "d{0..0}"%string) /\
  (forall k q m, n = HCInt k -> d = HDRef q -> name_at h q = (1, RInt m) -> rv_str (name_at h' r) = roll_text k m) /\
  (forall k q, n = HCInt k -> d = HDRef q -> (forall m, name_at h q <> (1, RInt m)) -> rv_str (name_at h' r) = other_text k).
Proof. exact roll_texts_are. Qed.
Print Assumptions C104_roll.

(** Not every text is true or can be rolled: a random number of six-sided dice, one or
    two, is called d{0..0}; and a single negated die is called -d6, which is not dice
    notation. *)
Theorem C104_refuted :
  let h := later default_cfg [Rolls (HCInt 1) (HDInt 2); Rolls (HCRef 0%nat) (HDInt 6); Rolls (HCInt (-1)) (HDInt 6)] empty_heap in
  possible default_cfg [Rolls (HCInt 1) (HDInt 2); Rolls (HCRef 0%nat) (HDInt 6); Rolls (HCInt (-1)) (HDInt 6)] empty_heap /\
  (exists q, (q < hlen h)%nat /\ rv_str (name_at h q) = "d{0..0}" /\ (Pr (rv_dist (rv_at h q)) (vint 0) == 0)%Q) /\
  (exists q, (q < hlen h)%nat /\ rv_str (name_at h q) = "-d6" /\ forall c M, fst (roll c (OStr "-d6") None M) = Err ValueErr).
Proof.
  split; [vm_compute; repeat split; auto|]. split.
  - exists 3%nat. split; [vm_compute; lia|]. split; vm_compute; reflexivity.
  - exists 5%nat. split; [vm_compute; lia|]. split; [vm_compute; reflexivity|]. reflexivity.
Qed.
Print Assumptions C104_refuted.

(** X = roll(2, 6); Y = roll({1, 1}, 6), the same object; Z = roll(3, roll(1, 4)); a
    variable made otherwise; roll(2, -6). *)
Definition some_history : list event :=
  [Rolls (HCInt 2) (HDInt 6); Rolls (HCSeq 2) (HDInt 6); Rolls (HCInt 1) (HDInt 4); Rolls (HCInt 3) (HDRef 3%nat);
   Makes (rv_of [(vint 5, 1)]); Rolls (HCInt 2) (HDInt (-6))].
Example C104_example : let h := later default_cfg some_history empty_heap in
  possible default_cfg some_history empty_heap /\ hlen h = 8%nat /\
  map (fun q => rv_str (name_at h q)) (seq 0 8) = ["d{?}"; "2d6"; "d{?}"; "d4"; "3d4"; "d{?}"; "d{?}"; "-2d6"] /\
  dice_text "-2d6" (-2) 6 /\ 6 ^ Z.abs (-2) <= SUM_LIMIT.
Proof.
  split; [vm_compute; repeat split; auto; repeat constructor|]. split; [vm_compute; reflexivity|].
  split; [vm_compute; reflexivity|]. split; [apply parse_dice; vm_compute; reflexivity|vm_compute; discriminate].
Qed.
