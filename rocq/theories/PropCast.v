(** C37-C43: decorated functions. *)
From Coq Require Import String List ZArith QArith Qabs Bool Sorted.
From Verif Require Import PyBase Num Val RVModel Obj RollModel RollSpec CastModel Spec RVFacts MixFacts CastSpec DepthFacts CastFacts.
Import ListNotations.
Open Scope Z_scope.

(** ** C37.  [receives s a K]: what each argument becomes, the dice as weighted
    lists of values; [scenarios K]: all complete argument lists, dice
    independent; [outcomes f sc]: the laws of the scenarios with a result;
    [mixture v cs] is (sum_i w_i P_i(v)) / (sum_i w_i). *)
Theorem C37_law_of_total_probability : forall c s f a,
  cfg_trunc c = false -> NoDup (map fst a) -> dice_nonneg s a ->
  Forall (fun ko => exists r, received (annotation s (fst ko)) (snd ko) r) a ->
  exists K, Forall2 (receives s) a K /\
    (existsb is_random K = true -> (forall a' w, In (a', w) (scenarios K) -> exists o, f a' = Ok o /\ usable o) ->
     let cs := outcomes f (scenarios K) in
     (cs = [] -> casting c s f a = Ok (OBlank false)) /\
     (0 < wtotal cs -> denominators cs * wtotal cs <= SUM_LIMIT ->
        exists q, casting c s f a = Ok (ORV q) /\ rv_roll q = 1 /\ rv_src q = None /\ canon (rv_dist q) /\ proper (rv_dist q) /\
          forall v, (Pr (rv_dist q) v == mixture v cs)%Q) /\
     (forall q, 0 < wtotal cs -> Z.of_nat (length (mix_list cs)) <= 10 ^ 10 -> casting c s f a = Ok (ORV q) ->
        forall v, (Qabs (Pr (rv_dist q) v - mixture v cs) <= 1 # 1000000000)%Q) /\
     (0 < wtotal cs -> denominators cs * wtotal cs < 2 ^ 1024 - 2 ^ 970 -> exists q, casting c s f a = Ok (ORV q))).
Proof. exact casting_law. Qed.
Print Assumptions C37_law_of_total_probability.

Theorem C37_one_die : forall c s f x g,
  cfg_trunc c = false -> annotation s (KPos 0) = Some AN ->
  proper (rv_dist x) -> total (rv_dist x) <= SUM_LIMIT ->
  (forall v, In v (vals (rv_dist x)) -> f (positional [OV v]) = Ok (OV (g v))) ->
  exists q, casting c s f (positional [ORV x]) = Ok (ORV q) /\ canon (rv_dist q) /\ proper (rv_dist q) /\
    same_law (rv_dist q) (image g (rv_dist x)).
Proof. exact casting_one_die. Qed.
Print Assumptions C37_one_die.

Theorem C37_two_independent_dice : forall c s f x y g,
  cfg_trunc c = false -> annotation s (KPos 0) = Some AN -> annotation s (KPos 1) = Some AN ->
  proper (rv_dist x) -> proper (rv_dist y) -> total (rv_dist x) * total (rv_dist y) <= SUM_LIMIT ->
  (forall u v, In u (vals (rv_dist x)) -> In v (vals (rv_dist y)) -> f (positional [OV u; OV v]) = Ok (OV (g u v))) ->
  exists q, casting c s f (positional [ORV x; ORV y]) = Ok (ORV q) /\ canon (rv_dist q) /\ proper (rv_dist q) /\
    same_law (rv_dist q) (image (fun uv => g (fst uv) (snd uv)) (indep (rv_dist x) (rv_dist y))).
Proof. exact casting_two_dice. Qed.
Print Assumptions C37_two_independent_dice.

(** [casting] is what a decorated function does, called within the depth limit:
    here is any function whose body calls no other. *)
Theorem C37_decorated_call : forall c P i g a w n,
  (forall a', fd_body (P i) a' = match g a' with Ok o => Ret o | Err e => Raise e end) -> w_depth w < w_max w ->
  exists w', call_fn (S n) c P i a w =
    Some (match casting c (fd_sig (P i)) g a with Ok ONone => Ok (OBlank false) | r => r end, w').
Proof. exact call_simple. Qed.
Print Assumptions C37_decorated_call.

(** A function of a number and a die that returns a die, a number or a blank. *)
Definition ex_sig : sig := mkSig ["n"; "k"; "z"]%string [("n", AN); ("k", AN); ("z", AD)]%string.
Definition ex_d3 : rv := rv_of [(vint 1, 1); (vint 2, 1); (vint 3, 1)].
Definition ex_coin : rv := rv_of [(vint 0, 1); (vint 1, 2)].
Definition ex_fun (a : args) : res obj :=
  match a with
  | [(_, OV n); (_, OV k); (_, z)] =>
      if veqb n (vint 1) then Ok z else if veqb k (vint 0) then Ok ONone else Ok (OV n)
  | _ => Err TypeErr
  end.
Definition ex_args : args := [(KPos 0, ORV ex_d3); (KName "k", ORV ex_coin); (KName "z", OSeq [vint 5; vint 7])].
Definition ex_known : list (key * (obj + list (obj * Z))) :=
  [(KPos 0, inr (image OV (rv_dist ex_d3))); (KName "k", inr (image OV (rv_dist ex_coin)));
   (KName "z", inl (ORV (rv_of [(vint 5, 1); (vint 7, 1)])))].

Example C37_example :
  NoDup (map fst ex_args) /\ dice_nonneg ex_sig ex_args /\ Forall2 (receives ex_sig) ex_args ex_known /\
  (forall a' w, In (a', w) (scenarios ex_known) -> exists o, ex_fun a' = Ok o /\ usable o) /\
  (let cs := outcomes ex_fun (scenarios ex_known) in
   0 < wtotal cs /\ denominators cs * wtotal cs <= SUM_LIMIT /\ (mixture (vint 5) cs == 3 # 14)%Q) /\
  (r <- casting default_cfg ex_sig ex_fun ex_args ;; match r with ORV q => Ok (rv_dist q) | _ => Err TypeErr end)
  = Ok [(vint 2, 4); (vint 3, 4); (vint 5, 3); (vint 7, 3)].
Proof.
  assert (C : fair_die [vint 5; vint 7] (rv_of [(vint 5, 1); (vint 7, 1)])).
  { split; [reflexivity|]. split; [reflexivity|]. split; [|split; [intros _ v; reflexivity|discriminate]].
    split; [|left; reflexivity]. split; [discriminate|]. split; repeat constructor; discriminate. }
  split; [|split; [|split; [|split; [|split]]]].
  - repeat constructor; cbn; intuition discriminate.
  - repeat constructor; discriminate.
  - constructor; [|constructor; [|constructor; [|constructor]]]; (split; [reflexivity|]).
    + apply received_random, enumerated_N.
    + apply received_random, enumerated_N.
    + apply received_value, passed_D_seq, C.
  - intros a' w I. cbn in I.
    repeat (destruct I as [I|I]; [injection I as <- _; eexists; split; [reflexivity|try exact Logic.I]; repeat constructor; discriminate|]).
    destruct I.
  - vm_compute. repeat split; discriminate.
  - vm_compute. reflexivity.
Qed.

(** ** C38.  [sorted_rolls n d L]: each non-increasing n-tuple of faces of [d]
    once, with the weight of the n-tuples that sort to it.  The first theorem
    says which calls are made, the second gives the law of the result. *)
Theorem C38_one_call_per_sorted_roll : forall c calls n d r s,
  Forall int_call calls -> int_vals (rv_dist d) -> 2 <= n ->
  roll_after c calls (oint n) (Some (ORV d)) = Ok (ORV r) ->
  cfg_trunc c = false -> annotation s (KPos 0) = Some AS -> wf (rv_dist d) ->
  exists L, sorted_rolls (Z.to_nat n) (rv_dist d) L /\
    forall f, casting c s f (positional [ORV r]) =
      (os <- mapM (fun tw => o <- f (positional [OSeq (fst tw)]) ;; single o) L ;; merge c os (map snd L)).
Proof. exact casting_roll_calls. Qed.
Print Assumptions C38_one_call_per_sorted_roll.

Theorem C38_law : forall c calls n d r s f g,
  Forall int_call calls -> int_vals (rv_dist d) -> 2 <= n ->
  roll_after c calls (oint n) (Some (ORV d)) = Ok (ORV r) ->
  cfg_trunc c = false -> annotation s (KPos 0) = Some AS -> wf (rv_dist d) -> 0 < total (rv_dist d) ->
  total (rv_dist d) ^ n <= SUM_LIMIT ->
  (forall t, length t = Z.to_nat n -> Forall (fun a => In a (vals (rv_dist d))) t ->
     StronglySorted (fun a b => vleb b a = true) t -> f (positional [OSeq t]) = Ok (OV (g t))) ->
  exists q, casting c s f (positional [ORV r]) = Ok (ORV q) /\ canon (rv_dist q) /\ proper (rv_dist q) /\
    same_law (rv_dist q) (image (fun t => g (descending t)) (tuples (Z.to_nat n) (rv_dist d))).
Proof. exact casting_roll_seq. Qed.
Print Assumptions C38_law.

(** the die that counts the largest face shown by 2d3 with odd weights *)
Definition ex_head (a : args) : res obj := match a with [(_, OSeq (v :: _))] => Ok (OV v) | _ => Err TypeErr end.
Example C38_example :
  let d := rv_of [(vint 1, 1); (vint 2, 3); (vint 5, 2)] in
  int_vals (rv_dist d) /\ wf (rv_dist d) /\
  (o <- roll_after default_cfg [] (oint 2) (Some (ORV d)) ;;
   r <- casting default_cfg (mkSig ["s"%string] [("s"%string, AS)]) ex_head (positional [o]) ;;
   match r with ORV q => Ok (rv_dist q) | _ => Err TypeErr end) = Ok [(vint 1, 1); (vint 2, 15); (vint 5, 20)] /\
  image (fun t => nth 0 (descending t) (vint 0)) (tuples 2 (rv_dist d))
  = [(vint 1, 1); (vint 2, 3); (vint 5, 2); (vint 2, 3); (vint 2, 9); (vint 5, 6); (vint 5, 2); (vint 5, 6); (vint 5, 4)].
Proof.
  split; [repeat constructor|]. split; [|split; vm_compute; reflexivity].
  split; [discriminate|]. split; repeat constructor; discriminate.
Qed.

(** ** C39.  [passed] is the table; no argument needs enumeration, so the
    function is called exactly once and its result returned as it is. *)
Theorem C39_casting_table : forall c s f a,
  cfg_trunc c = false -> NoDup (map fst a) ->
  Forall (fun ko => exists o', passed (annotation s (fst ko)) (snd ko) o') a ->
  exists a', Forall2 (fun ko ko' => fst ko' = fst ko /\ passed (annotation s (fst ko)) (snd ko) (snd ko')) a a' /\
    casting c s f a = f a'.
Proof. exact casting_table. Qed.
Print Assumptions C39_casting_table.

Example C39_example :
  let s := mkSig ["a"; "b"; "c"; "d"; "e"]%string [("a", AN); ("b", AS); ("c", AD); ("e", AOther)]%string in
  let f := fun a : args => Ok (OIter (map snd a)) in
  casting default_cfg s f (positional [OSeq [vint 2; vint 3]; oint 4; oint 6; OSeq [vint 1]; OSeq [vint 1]; OSeq [vint 9]])
  = Ok (OIter [oint 5; OSeq [vint 4]; ORV (rv_of [(vint 6, 1)]); OSeq [vint 1]; OSeq [vint 1]; OSeq [vint 9]]) /\
  casting default_cfg s f (positional [OIter [OIter [oint 2]; oint 3]; OIter [oint 4]; OIter [oint 6; oint 6; oint 2]])
  = Ok (OIter [oint 5; OSeq [vint 4]; ORV (rv_of [(vint 2, 1); (vint 6, 2)])]) /\
  passed (Some AN) (OIter [OIter [oint 2]; oint 3]) (oint 5).
Proof.
  split; [vm_compute; reflexivity|]. split; [vm_compute; reflexivity|].
  apply (passed_iterable AN _ (OSeq [vint 2; vint 3])); [reflexivity|]. apply (passed_N_seq [vint 2; vint 3]). repeat constructor.
Qed.

(** ** C40.  Whatever the function is, hence without calling it. *)
Theorem C40_blank_aborts : forall c s f a,
  cfg_trunc c = false -> NoDup (map fst a) ->
  Forall (fun ko => (exists r, received (annotation s (fst ko)) (snd ko) r) \/ exists b, snd ko = OBlank b) a ->
  (exists k b e, In (k, OBlank b) a /\ annotation s k = Some e /\ (e = AN \/ e = AS)) ->
  casting c s f a = Ok (OBlank true).
Proof. exact casting_blank. Qed.
Print Assumptions C40_blank_aborts.

Example C40_example :
  let s := mkSig ["a"; "b"; "c"]%string [("a", AD); ("b", AS); ("c", AN)]%string in
  casting default_cfg s (fun _ => Err ValueErr) (positional [OBlank false; OBlank false; ORV ex_d3]) = Ok (OBlank true) /\
  casting default_cfg s (fun a => Ok (OIter (map snd a))) (positional [OBlank false; oint 1; oint 2])
  = Ok (OIter [OBlank false; OSeq [vint 1]; oint 2]).
Proof. split; vm_compute; reflexivity. Qed.

(** ** C41.  [quiet]: the code does not change the limiter's settings.  [exec n c
    P script]: run [script] with the decorated functions [P]; [n] bounds the
    nesting and [None] means it was not enough.  [w_peak]: the largest number of
    bodies that ran at the same time. *)
Theorem C41_depth_bounded : forall n c P script w r w',
  quiet_program P -> quiet script -> w_active w = 0 -> w_peak w = 0 -> 0 <= w_depth w -> 0 <= w_max w ->
  exec n c P script w = Some (r, w') -> w_peak w' <= w_max w.
Proof. exact depth_bounded. Qed.
Print Assumptions C41_depth_bounded.

Theorem C41_beyond_is_blank : forall n c P f a w,
  w_max w <= w_depth w -> call_fn (S n) c P f a w = Some (Ok (OBlank false), warn w).
Proof. exact call_beyond. Qed.
Print Assumptions C41_beyond_is_blank.

Theorem C41_terminates : forall n c P script w,
  quiet_program P -> quiet script -> w_active w = 0 -> 0 <= w_depth w <= w_max w ->
  w_max w - w_depth w < Z.of_nat n ->
  exists r w', exec n c P script w = Some (r, w').
Proof. exact depth_terminates. Qed.
Print Assumptions C41_terminates.

Theorem C41_result_does_not_depend_on_fuel : forall c P script n m w x,
  (n <= m)%nat -> exec n c P script w = Some x -> exec m c P script w = Some x.
Proof. exact exec_fuel. Qed.
Print Assumptions C41_result_does_not_depend_on_fuel.

Theorem C41_warning_printed_once : forall n c P script w r w',
  quiet_program P -> quiet script -> w_active w <= w_depth w ->
  exec n c P script w = Some (r, w') -> w_printed w' - w_printed w <= 1 /\ (w_warned w = true -> w_printed w' = w_printed w).
Proof. exact warned_once. Qed.
Print Assumptions C41_warning_printed_once.

(** f(n) calls f(n) for each face and returns the largest nesting reached. *)
Definition ex_rec : program := fun _ =>
  mkF (mkSig ["n"%string] [("n"%string, AN)])
      (fun a => Call 0 (positional [ORV ex_coin])
         (fun r => match r with
                   | Ok (OBlank _) => Ret (oint 1)
                   | Ok _ => Ret (oint 2)
                   | Err e => Raise e
                   end)).
Example C41_example :
  quiet_program ex_rec /\
  (exists w', exec 4 default_cfg ex_rec (Call 0 (positional [ORV ex_coin]) (fun r => match r with Ok o => Ret o | Err e => Raise e end)) (fresh 3)
     = Some (Ok (ORV (rv_of [(vint 2, 1)])), w') /\ w_peak w' = 3 /\ w_depth w' = 0 /\ w_printed w' = 1).
Proof.
  split.
  - intros f a. constructor. intros [[]|]; constructor.
  - eexists. split; [vm_compute; reflexivity|]. repeat split.
Qed.

(** Resetting the settings inside a body removes the bound. *)
Theorem C41_reset_inside_refuted : exists P script n c w r w',
  w_active w = 0 /\ w_peak w = 0 /\ w_depth w = 0 /\ w_max w = 10 /\
  exec n c P script w = Some (r, w') /\ 10 < w_peak w'.
Proof. exact reset_unbounded. Qed.
Print Assumptions C41_reset_inside_refuted.

(** ** C42.  [w_failed]: the number of decorated calls that raised. *)
Theorem C42_depth_restored : forall n c P script w r w',
  quiet_program P -> quiet script -> w_active w <= w_depth w ->
  exec n c P script w = Some (r, w') ->
  w_depth w' = w_depth w + (w_failed w' - w_failed w) /\ w_failed w <= w_failed w' /\
  (w_failed w' = w_failed w -> w_depth w' = w_depth w).
Proof. exact depth_restored. Qed.
Print Assumptions C42_depth_restored.

Example C42_example :
  exists w', exec 4 default_cfg ex_rec (Call 0 (positional [ORV ex_coin]) (fun r => match r with Ok o => Ret o | Err e => Raise e end)) (fresh 3)
     = Some (Ok (ORV (rv_of [(vint 2, 1)])), w') /\ w_failed w' = 0 /\ w_depth w' = 0.
Proof. eexists. split; [vm_compute; reflexivity|]. repeat split. Qed.

(** ** C43.  Each failed call uses up one level for ever: after as many failures
    as there are levels, every call returns blank. *)
Theorem C43_failures_poison_refuted : forall n c P fs g b w x,
  quiet_program P -> Forall (raises c P) fs -> w_active w <= w_depth w ->
  w_max w - w_depth w <= Z.of_nat (length fs) ->
  exec (S n) c P (catching fs (Call g b (fun r => match r with Ok o => Ret o | Err e => Raise e end))) w = Some x ->
  fst x = Ok (OBlank false).
Proof. exact poisoned. Qed.
Print Assumptions C43_failures_poison_refuted.

(** [ex_fail]: function 0 raises; function 1 returns 7, but not after ten failures. *)
Theorem C43_ten_failures_refuted :
  quiet_program ex_fail /\ raises default_cfg ex_fail (0%nat, []) /\
  (forall n, (n < 10)%nat -> exists w', exec 1 default_cfg ex_fail (catching (repeat (0%nat, []) n) ex_seven) (fresh 10) = Some (Ok (oint 7), w')) /\
  (forall n, (10 <= n)%nat -> exists w', exec 1 default_cfg ex_fail (catching (repeat (0%nat, []) n) ex_seven) (fresh 10) = Some (Ok (OBlank false), w')).
Proof. exact ten_failures. Qed.
Print Assumptions C43_ten_failures_refuted.
