(** Properties C21-C29: rolling dice. *)
From Coq Require Import String List ZArith QArith Qabs Bool Permutation Sorted Lia.
From Verif Require Import PyBase Num Val Sorting RVModel UtilModel Obj RollModel RollSpec Spec NameModel RVFacts RollFacts RollObjFacts NameFacts NumSpec NumTextFacts.
Import ListNotations.
Open Scope string_scope.
Open Scope list_scope.
Open Scope Z_scope.

Definition die2 : rv := rv_of [(vint 1, 1); (vint 2, 1)].

(** ** C21.  [roll_after c calls n d]: the result of [roll(n, d)] after the calls
    [calls], under settings [c].  [dice_total n d]: law of the sum of the entries of the
    ordered n-tuples of faces (negated for n < 0). *)
Theorem C21_roll_exact : forall c calls n x,
  Forall int_call calls -> cfg_trunc c = false ->
  proper (rv_dist x) -> int_vals (rv_dist x) -> total (rv_dist x) ^ Z.abs n <= SUM_LIMIT ->
  exists r, roll_after c calls (oint n) (Some (ORV x)) = Ok (ORV r) /\
    (forall v, (Pr (rv_dist r) v == Pr (dice_total n (rv_dist x)) v)%Q) /\
    (cfg_skip0 c = false -> forall v, listed v (rv_dist r) = listed v (dice_total n (rv_dist x))).
Proof. exact roll_exact. Qed.
Print Assumptions C21_roll_exact.

(** beyond the rescaling threshold *)
Theorem C21_roll_close : forall c calls n x lo hi,
  Forall int_call calls -> cfg_trunc c = false ->
  proper (rv_dist x) -> int_vals (rv_dist x) -> total (rv_dist x) <= SUM_LIMIT ->
  Forall (fun e => lo <= toZ (fst e) <= hi) (rv_dist x) -> Z.abs n * (hi - lo) + 1 <= 10 ^ 10 ->
  exists r, roll_after c calls (oint n) (Some (ORV x)) = Ok (ORV r) /\
    proper (rv_dist r) /\ int_vals (rv_dist r) /\ total (rv_dist r) <= SUM_LIMIT /\
    forall k, (Qabs (Pr (rv_dist r) (vint k) - Pr (dice_total n (rv_dist x)) (vint k)) <=
               inject_Z (Z.abs n) * (1 # 1000000000))%Q.
Proof. exact roll_close. Qed.
Print Assumptions C21_roll_close.

Theorem C21_roll_zero : forall c calls x,
  Forall int_call calls -> cfg_trunc c = false -> int_vals (rv_dist x) ->
  roll_after c calls (oint 0) (Some (ORV x)) = Ok (ORV (rv_of [(vint 0, 1)])).
Proof. exact roll_zero. Qed.
Print Assumptions C21_roll_zero.

Theorem C21_roll_negative : forall c calls n x,
  Forall int_call calls -> int_vals (rv_dist x) -> 0 < n ->
  roll_after c calls (oint (- n)) (Some (ORV x)) =
  match roll_after c calls (oint n) (Some (ORV x)) with
  | Ok (ORV r) => rmap ORV (rv_neg c (rv_dist r))
  | o => o
  end.
Proof. exact roll_negative. Qed.
Print Assumptions C21_roll_negative.

Example C21_example :
  proper (rv_dist die2) /\ int_vals (rv_dist die2) /\ total (rv_dist die2) ^ 3 <= SUM_LIMIT /\
  rmap (fun o => match o with ORV r => rv_dist r | _ => [] end)
    (roll_after default_cfg [(oint 2, Some (ORV die2))] (oint 3) (Some (ORV die2)))
  = Ok [(vint 3, 1); (vint 4, 3); (vint 5, 3); (vint 6, 1)].
Proof. repeat split; repeat constructor; discriminate. Qed.

Example C21_example_large : 1000 * (6 - 1) + 1 <= 10 ^ 10 /\ ~ 6 ^ 1000 <= SUM_LIMIT.
Proof. split; [discriminate|]. vm_compute. auto. Qed.

(** ** C22 *)
Theorem C22_integer_die : forall c n m M,
  cfg_trunc c = false -> roll c n (Some (oint m)) M = roll c n (Some (ORV (rv_of (int_die m)))) M.
Proof. exact roll_int_die. Qed.
Print Assumptions C22_integer_die.

Theorem C22_single : forall c m M, roll c (oint m) None M = roll c (oint 1) (Some (oint m)) M.
Proof. exact roll_single. Qed.
Print Assumptions C22_single.

Theorem C22_mirror : forall c calls n m r r',
  Forall int_call calls -> cfg_trunc c = false -> 0 < m -> m ^ Z.abs n <= SUM_LIMIT ->
  roll_after c calls (oint n) (Some (oint m)) = Ok (ORV r) ->
  roll_after c calls (oint n) (Some (oint (- m))) = Ok (ORV r') ->
  forall k, (Pr (rv_dist r') (vint k) == Pr (rv_dist r) (vint (- k)))%Q.
Proof. exact roll_mirror. Qed.
Print Assumptions C22_mirror.

Example C22_example :
  int_die 3 = [(vint 1, 1); (vint 2, 1); (vint 3, 1)] /\
  int_die (-3) = [(vint (-3), 1); (vint (-2), 1); (vint (-1), 1)] /\ int_die 0 = [(vint 0, 1)] /\
  (exists r, roll_after default_cfg [] (oint 2) (Some (oint 2)) = Ok (ORV r)) /\
  (exists r, roll_after default_cfg [] (oint 2) (Some (oint (-2))) = Ok (ORV r) /\
             rv_dist r = [(vint (-4), 1); (vint (-3), 2); (vint (-2), 1)]).
Proof. repeat split; try reflexivity; eexists; [reflexivity|split; reflexivity]. Qed.

(** ** C23 *)
Theorem C23_sequence_count : forall c zs d M,
  roll c (OIter (map oint zs)) (Some d) M = roll c (oint (sumZ zs)) (Some d) M /\
  roll c (OSeq (map vint zs)) (Some d) M = roll c (oint (sumZ zs)) (Some d) M.
Proof. exact roll_list_count. Qed.
Print Assumptions C23_sequence_count.

Theorem C23_sequence_die : forall c l,
  cfg_trunc c = false -> l <> [] ->
  exists x, (forall n M, roll c n (Some (OSeq l)) M = roll c n (Some (ORV x)) M) /\
    forall v, (Pr (rv_dist x) v ==
               inject_Z (Z.of_nat (length (filter (veqb v) l))) / inject_Z (Z.of_nat (length l)))%Q.
Proof. exact seq_die. Qed.
Print Assumptions C23_sequence_die.

Theorem C23_list_die : forall c n zs M,
  roll c n (Some (OIter (map oint zs))) M = roll c n (Some (OSeq (map vint zs))) M.
Proof. exact roll_list_die. Qed.
Print Assumptions C23_list_die.

Theorem C23_empty_die : forall c n M, roll c (oint n) (Some (OSeq [])) M = (Ok (OBlank false), M).
Proof. exact roll_empty_die. Qed.
Print Assumptions C23_empty_die.

Example C23_example :
  fst (roll default_cfg (OIter [oint 1]) (Some (OIter [oint 1; oint 1; oint 5])) [])
  = Ok (ORV (rv_of [(vint 1, 2); (vint 5, 1)])).
Proof. reflexivity. Qed.

(** ** C24 *)
Theorem C24_random_count : forall c calls (N x : rv),
  Forall int_call calls -> cfg_trunc c = false ->
  proper (rv_dist x) -> int_vals (rv_dist x) -> proper (rv_dist N) -> int_vals (rv_dist N) ->
  total (rv_dist x) ^ sumZ (map (fun v => Z.abs (toZ v)) (vals (rv_dist N))) * total (rv_dist N) <= SUM_LIMIT ->
  exists r, roll_after c calls (ORV N) (Some (ORV x)) = Ok (ORV r) /\
    forall v, (Pr (rv_dist r) v == average (fun n => Pr (dice_total (toZ n) (rv_dist x)) v) (rv_dist N))%Q.
Proof. exact roll_random_count. Qed.
Print Assumptions C24_random_count.

Example C24_example :
  total (rv_dist die2) ^ sumZ (map (fun v => Z.abs (toZ v)) (vals (rv_dist die2))) * total (rv_dist die2) <= SUM_LIMIT /\
  rmap (fun o => match o with ORV r => rv_dist r | _ => [] end)
    (roll_after default_cfg [] (ORV die2) (Some (ORV die2)))
  = Ok [(vint 1, 2); (vint 2, 3); (vint 3, 2); (vint 4, 1)].
Proof. split; [discriminate|reflexivity]. Qed.

(** ** C25.  [int_call]: the die of the call has only integer faces. *)
Theorem C25_history_invisible : forall c calls n d,
  Forall int_call calls -> int_call (n, d) -> roll_after c calls n d = roll_after c [] n d.
Proof. exact history_invisible. Qed.
Print Assumptions C25_history_invisible.

Example C25_example :
  int_call (oint 4, Some (ORV die2)) /\ int_call (OStr "3d6", None) /\
  after default_cfg [(oint 4, Some (ORV die2))] <> [].
Proof. repeat split. discriminate. Qed.

(** ** C26.  roll(2, [1.0, 2.0]) makes the later roll(2, 2) return floats, which
    cannot be used as a number of dice. *)
Theorem C26_float_history_refuted : exists calls n d r r',
  roll_after default_cfg [] n d = Ok (ORV r) /\ roll_after default_cfg calls n d = Ok (ORV r') /\
  int_vals (rv_dist r) /\ ~ int_vals (rv_dist r') /\
  (exists s, roll_after default_cfg [(n, d)] (ORV r) (Some (oint 6)) = Ok (ORV s)) /\
  roll_after default_cfg calls (ORV r') (Some (oint 6)) = Err AssertErr.
Proof.
  exists [(oint 2, Some (OSeq [VN (NF 1 0); VN (NF 1 1)]))], (oint 2), (Some (oint 2)).
  eexists; eexists. split; [vm_compute; reflexivity|]. split; [vm_compute; reflexivity|]. split; [|split; [|split]].
  - repeat constructor.
  - intro H. inversion H. discriminate.
  - eexists. vm_compute. reflexivity.
  - vm_compute. reflexivity.
Qed.
Print Assumptions C26_float_history_refuted.

(** A roll made before "RV_TRUNC" is switched on is replayed after. *)
Theorem C26_settings_history_refuted : exists c c' n d r r',
  fst (roll c' n d []) = Ok (ORV r) /\ fst (roll c' n d (after c [(n, d)])) = Ok (ORV r') /\
  ~ same_law (rv_dist r) (rv_dist r').
Proof.
  exists default_cfg, (mkCfg true false true 2 10 180), (oint 2), (Some (ORV (rv_of [(VN (NF 1 (-2)), 1); (VN (NF 5 (-2)), 1)]))).
  eexists; eexists. split; [vm_compute; reflexivity|]. split; [vm_compute; reflexivity|].
  intro H. specialize (H (vint 0)). vm_compute in H. discriminate.
Qed.
Print Assumptions C26_settings_history_refuted.

(** ** C27.  [rv_roll]: what [len] returns. *)
Theorem C27_roll_length : forall c calls n x r,
  Forall int_call calls -> int_vals (rv_dist x) ->
  roll_after c calls (oint n) (Some (ORV x)) = Ok (ORV r) ->
  rv_roll r = (if n =? 1 then rv_roll x else if 2 <=? n then n else 1) /\
  (n = 1 -> r = x) /\ (2 <= n -> rv_src r = Some (rv_dist x)).
Proof. exact roll_length. Qed.
Print Assumptions C27_roll_length.

Theorem C27_random_count_length : forall c calls N x r,
  Forall int_call calls -> int_vals (rv_dist x) ->
  roll_after c calls (ORV N) (Some (ORV x)) = Ok (ORV r) -> rv_roll r = 1 /\ rv_src r = Some (rv_dist x).
Proof. exact roll_count_length. Qed.
Print Assumptions C27_random_count_length.

Theorem C27_arithmetic_length : forall c op x y r, rv_op c op x y = Ok r -> rv_roll r = 1 /\ rv_src r = None.
Proof. exact (fun c op => rv_conv_length c (vop op)). Qed.
Print Assumptions C27_arithmetic_length.

Theorem C27_map_length : forall c f x r, rv_map c f x = Ok r -> rv_roll r = 1 /\ rv_src r = None.
Proof. exact rv_map_length. Qed.
Print Assumptions C27_map_length.

Example C27_example : exists r,
  roll_after default_cfg [] (oint 3) (Some (ORV die2)) = Ok (ORV r) /\ rv_roll r = 3.
Proof. eexists. split; [vm_compute; reflexivity|reflexivity]. Qed.

(** ** C28.  [str_of_Z]: decimal notation. *)
Theorem C28_dice_notation : forall c n m M,
  roll c (OStr (str_of_Z n ++ "d" ++ str_of_Z m)) None M = roll c (oint n) (Some (oint m)) M /\
  roll c (OStr ("d" ++ str_of_Z m)) None M = roll c (oint 1) (Some (oint m)) M.
Proof. exact roll_notation. Qed.
Print Assumptions C28_dice_notation.

Example C28_example :
  (str_of_Z (-12) ++ "d" ++ str_of_Z 6)%string = "-12d6" /\
  fst (roll default_cfg (OStr "2d2") None []) = fst (roll default_cfg (oint 2) (Some (oint 2)) []).
Proof. split; reflexivity. Qed.

(** The texts that are dice, and no others: [dice_text] says that a text is [ndm] or
    [dm] with numbers as Python's int takes them. *)
Theorem C28_texts : forall c s M,
  (forall n m, dice_text s n m -> roll c (OStr s) None M = roll c (oint n) (Some (oint m)) M) /\
  ((forall n m, ~ dice_text s n m) -> roll c (OStr s) None M = (Err ValueErr, M)).
Proof. exact roll_texts. Qed.
Print Assumptions C28_texts.

Example C28_texts_example : dice_text " +1_0d6 " 10 6 /\ (forall n m, ~ dice_text "1__0d6" n m) /\
  (forall n m, ~ dice_text "2d6d8" n m) /\ (forall n m, ~ dice_text "2x6" n m).
Proof.
  split; [apply parse_dice; vm_compute; reflexivity|].
  repeat split; intros n m H; apply parse_dice in H; vm_compute in H; discriminate.
Qed.

(** ** C29.  A heap of RV objects, named as str() shows them.  No sequence of
    rolls changes the distribution, length or source die of an object ... *)
Theorem C29_values_unchanged : forall calls h,
  hok h -> hvalid calls h ->
  forall q, (q < length (h_objs h))%nat -> ho_rv (deref (hrun calls h) q) = ho_rv (deref h q).
Proof. exact (fun calls h O V => proj2 (proj2 (hrun_values calls h O V))). Qed.
Print Assumptions C29_values_unchanged.

(** ... a roll returns what the model without identity says, and only the die
    given and the objects in the table of known rolls are renamed ... *)
Theorem C29_roll_on_heap : forall c n d h, hok h -> valid h n d ->
  match hroll c n d h, roll_core c (count_of h n) (die_of h d) (memo_of h) with
  | (Ok r, h'), (Ok x, m) =>
      rv_at h' r = x /\ memo_of h' = m /\ hok h' /\ (hlen h <= hlen h')%nat /\ (r < hlen h')%nat /\
      (forall q, (q < hlen h)%nat -> rv_at h' q = rv_at h q) /\
      (forall q, (q < hlen h)%nat -> name_at h' q = name_at h q \/ d = HDRef q \/ in_table h' q)
  | (Err e, h'), (Err e', m) =>
      e = e' /\ memo_of h' = m /\ hok h' /\ (hlen h <= hlen h')%nat /\
      (forall q, (q < hlen h)%nat -> rv_at h' q = rv_at h q) /\
      (forall q, (q < hlen h)%nat -> name_at h' q = name_at h q \/ d = HDRef q \/ in_table h' q)
  | _, _ => False
  end.
Proof. exact hroll_sim. Qed.
Print Assumptions C29_roll_on_heap.

Theorem C29_roll_name : forall c n m h r h',
  hok h -> hroll c (HCInt n) (HDInt m) h = (Ok r, h') -> name_at h' r = (n, RInt m).
Proof. exact hroll_name. Qed.
Print Assumptions C29_roll_name.

(** ... but names do change: X = roll(2,6) prints as 2d6 until roll(1, X), and
    A = roll(2,6) until roll(2, {1..6}). *)
Theorem C29_name_changes_refuted : exists h h1 h2 r1 r2 X,
  hroll default_cfg (HCInt 2) (HDInt 6) empty_heap = (Ok X, h) /\ rv_str (name_at h X) = "2d6" /\
  hroll default_cfg (HCInt 1) (HDRef X) h = (Ok r1, h1) /\ rv_str (name_at h1 X) = "d{?}" /\
  hroll default_cfg (HCInt 2) (HDSeq (map vint [1; 2; 3; 4; 5; 6])) h = (Ok r2, h2) /\ rv_str (name_at h2 X) = "2d{?}".
Proof.
  do 6 eexists. split; [vm_compute; reflexivity|]. split; [vm_compute; reflexivity|].
  split; [vm_compute; reflexivity|]. split; [vm_compute; reflexivity|].
  split; vm_compute; reflexivity.
Qed.
Print Assumptions C29_name_changes_refuted.

Example C29_example : hok empty_heap /\ hvalid [(default_cfg, HCInt 2, HDInt 6); (default_cfg, HCInt 3, HDRef 0%nat)] empty_heap /\
  hlen (hrun [(default_cfg, HCInt 2, HDInt 6); (default_cfg, HCInt 3, HDRef 0%nat)] empty_heap) = 3%nat.
Proof. split; [constructor|]. split; [vm_compute; repeat split; auto|vm_compute; reflexivity]. Qed.
