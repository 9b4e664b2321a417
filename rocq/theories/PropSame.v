(** C101, C102: changes to a program that make no difference. *)
From Coq Require Import String Ascii Bool List ZArith Permutation.
From Verif Require Import PyBase Num Val Obj LexModel ParseModel SynSpec NameSpec ResolveModel PyTrans PyProgLaws Runtime MeanSpec RunSpec RunModel
  PipeModel MainModel MainSpec SameSpec SameFacts SameText PropRun PropPipe.
Import ListNotations.
Open Scope string_scope.
Open Scope list_scope.

(** * C101.  Variables may have any names, as long as different ones stay different. *)

(** What a program does is the same, whatever the library does. *)
Theorem C101_meaning : forall (V W : Type) (rt : runtime V W) oplib lib fuel name p w, (forall x y, name x = name y -> x = y) ->
  mean_program rt oplib lib fuel (renamed name p) w = mean_program rt oplib lib fuel p w.
Proof. intros V W. exact renamed_means. Qed.
Print Assumptions C101_meaning.

(** Two texts, one of a program, the other of the same with other names: the same tables are
    printed and the same exceptions raised, in a new process and after any other texts. *)
Theorem C101_printed : forall show ftext square fl n name src src' p fl1 fl2, fl_check fl = true -> fl_prefix fl = false ->
  (forall x y, name x = name y -> x = y) -> says fl src p fl1 -> says fl src' (renamed name p) fl2 ->
  (forall r, prints show ftext square fl n src r <-> prints show ftext square fl n src' r) /\
  (forall w r w', turn show ftext square fl n src w r w' <-> turn show ftext square fl n src' w r w').
Proof.
  intros show ftext square fl n name src src' p fl1 fl2 C P I S S'.
  assert (E : fl2 = fl1).
  { apply (settled_same fl p (renamed name p) fl1 fl2); [|exact (sy_settled _ _ _ _ S)|exact (sy_settled _ _ _ _ S')].
    unfold takes_helper. rewrite defs_of_renamed. reflexivity. }
  subst fl2. apply (same_texts show ftext square fl n C P src src' p _ fl1 S S'). intros w. now apply renamed_means.
Qed.
Print Assumptions C101_printed.

(** * C102.  Functions that nothing calls, and the order of definitions. *)

Theorem C102_unused : forall (V W : Type) (rt : runtime V W) oplib lib fuel dead p w,
  (forall s, In s (calls (without dead p)) -> dead s = false) ->
  mean_program rt oplib lib fuel (without dead p) w = mean_program rt oplib lib fuel p w.
Proof. intros V W. exact without_means. Qed.
Print Assumptions C102_unused.

(** ... as long as both are compiled with the same options (C70). *)
Theorem C102_unused_printed : forall show ftext square fl n dead src src' p fl', fl_check fl = true -> fl_prefix fl = false ->
  (forall s, In s (calls (without dead p)) -> dead s = false) -> says fl src p fl' -> says fl src' (without dead p) fl' ->
  (forall r, prints show ftext square fl n src r <-> prints show ftext square fl n src' r) /\
  (forall w r w', turn show ftext square fl n src w r w' <-> turn show ftext square fl n src' w r w').
Proof.
  intros show ftext square fl n dead src src' p fl' C P A S S'.
  apply (same_texts show ftext square fl n C P src src' p _ fl' S S'). intros w. now apply without_means.
Qed.
Print Assumptions C102_unused_printed.

(** Definitions of different functions at the start of a program, in any order. *)
Theorem C102_order : forall (V W : Type) (rt : runtime V W) oplib lib fuel ds ds' p w,
  Forall is_definition ds -> Permutation ds ds' -> NoDup (map shape_of ds) ->
  mean_program rt oplib lib fuel (ds' ++ p) w = mean_program rt oplib lib fuel (ds ++ p) w.
Proof. intros V W. exact reordered_means. Qed.
Print Assumptions C102_order.

Theorem C102_order_printed : forall show ftext square fl n ds ds' p src src' fl1 fl2, fl_check fl = true -> fl_prefix fl = false ->
  Forall is_definition ds -> Permutation ds ds' -> NoDup (map shape_of ds) ->
  says fl src (ds ++ p) fl1 -> says fl src' (ds' ++ p) fl2 ->
  (forall r, prints show ftext square fl n src r <-> prints show ftext square fl n src' r) /\
  (forall w r w', turn show ftext square fl n src w r w' <-> turn show ftext square fl n src' w r w').
Proof.
  intros show ftext square fl n ds ds' p src src' fl1 fl2 C P D Pm N S S'.
  assert (E : fl2 = fl1).
  { apply (settled_same fl (ds ++ p) (ds' ++ p) fl1 fl2); [|exact (sy_settled _ _ _ _ S)|exact (sy_settled _ _ _ _ S')].
    now apply defs_of_reordered. }
  subst fl2. apply (same_texts show ftext square fl n C P src src' _ _ fl1 S S'). intros w. now apply reordered_means.
Qed.
Print Assumptions C102_order_printed.

(** ** Programs *)

Definition one_source : string :=
  "X: 2 function: twice N:n { result: N * X } function: spare N { result: [twice N] } output [twice 3] named ""is [X]""".
Definition other_source : string :=
  "QX: 2 function: twice QN:n { result: QN * QX } function: spare QN { result: [twice QN] } output [twice 3] named ""is [QX]""".
Definition short_source : string :=
  "X: 2 function: twice N:n { result: N * X } output [twice 3] named ""is [X]""".
Definition one_program : program :=
  [ SAssign "X" (ETerm (TNum "2"));
    SFunction (HWord (WName "twice")) [HTyped "N" (SynSpec.PName "n")] [SResult (EBin OMul (ETerm (TVar "N")) (ETerm (TVar "X")))];
    SFunction (HWord (WName "spare")) [HParam "N"] [SResult (ETerm (TCall [CWord (WName "twice"); CArg (ETerm (TVar "N"))]))];
    SNamed (ETerm (TCall [CWord (WName "twice"); CArg (ETerm (TNum "3"))])) (PAny "is ") [PVar "X"] ].

Lemma names_apart : forall x y, String "Q"%char x = String "Q"%char y -> x = y.
Proof. intros x y E. now injection E. Qed.

Ltac said := constructor; [vm_compute; reflexivity|vm_compute; reflexivity| | |vm_compute; reflexivity|vm_compute; reflexivity|vm_compute; reflexivity];
  [left; split; [|reflexivity]; intros (h & I & J); vm_compute in I, J; intuition (subst; discriminate)
  |split; [vm_compute; reflexivity|split; [vm_compute; repeat constructor|]]; intros c I; vm_compute in I; left; vm_compute; intuition].
Lemma one_says : says default_flags one_source one_program default_flags.
Proof. said. Qed.
Lemma other_says : says default_flags other_source (renamed (String "Q"%char) one_program) default_flags.
Proof. said. Qed.
Definition spare (s : shape) : bool := match s with [Some "spare"; None] => true | _ => false end.
Lemma short_says : says default_flags short_source (without spare one_program) default_flags.
Proof. said. Qed.

(** C101 and C102 apply to these texts. *)
Example C101_example : forall show ftext square n r,
  prints show ftext square default_flags n one_source r <-> prints show ftext square default_flags n other_source r.
Proof.
  intros show ftext square n. exact (proj1 (C101_printed show ftext square default_flags n (String "Q"%char) one_source other_source one_program
    default_flags default_flags eq_refl eq_refl names_apart one_says other_says)).
Qed.
Example C102_example : forall show ftext square n r,
  prints show ftext square default_flags n one_source r <-> prints show ftext square default_flags n short_source r.
Proof.
  intros show ftext square n. refine (proj1 (C102_unused_printed show ftext square default_flags n spare one_source short_source one_program
    default_flags eq_refl eq_refl _ one_says short_says)).
  intros s I. vm_compute in I. intuition (subst; reflexivity).
Qed.

(** ... and the first of them prints something. *)
Definition what_of (p : program) : option (res unit * list (obj * option obj)) :=
  match mean_program library (fl_oplib default_flags) true 5 p fresh_world with None => None | Some (r, w) => Some (r, rw_outputs w) end.
Example C101_sample : what_of one_program = Some (Ok Datatypes.tt, [(oint 6, Some (OStr "is 2"))]) /\
  what_of (renamed (String "Q"%char) one_program) = what_of one_program.
Proof. split; vm_compute; reflexivity. Qed.

(** Two variables with one name are another matter, *)
Example C101_one_name : let p := [SAssign "X" (ETerm (TNum "1")); SAssign "Y" (ETerm (TNum "2")); SOutput (ETerm (TVar "X"))] in
  what_of p = Some (Ok Datatypes.tt, [(oint 1, None)]) /\
  what_of (renamed (fun _ => "X") p) = Some (Ok Datatypes.tt, [(oint 2, None)]).
Proof. split; vm_compute; reflexivity. Qed.

(** and so are two definitions of one function: the last counts. *)
Definition defines (f z : string) : stmt := SFunction (HWord (WName f)) [] [SResult (ETerm (TNum z))].
Definition shows (f : string) : stmt := SOutput (ETerm (TCall [CWord (WName f)])).
Example C102_one_function :
  what_of ([defines "f" "1"; defines "f" "2"] ++ [shows "f"]) = Some (Ok Datatypes.tt, [(oint 2, None)]) /\
  what_of ([defines "f" "2"; defines "f" "1"] ++ [shows "f"]) = Some (Ok Datatypes.tt, [(oint 1, None)]).
Proof. split; vm_compute; reflexivity. Qed.

Definition fg_source : string := "function: f { result: [g] } function: g { result: 1 } output [f]".
Definition gf_source : string := "function: g { result: 1 } function: f { result: [g] } output [f]".
Definition f_then : list stmt := [SFunction (HWord (WName "f")) [] [SResult (ETerm (TCall [CWord (WName "g")]))]; defines "g" "1"].
Definition g_then : list stmt := [defines "g" "1"; SFunction (HWord (WName "f")) [] [SResult (ETerm (TCall [CWord (WName "g")]))]].
Example C102_order_example : forall show ftext square n r,
  prints show ftext square default_flags n fg_source r <-> prints show ftext square default_flags n gf_source r.
Proof.
  intros show ftext square n. refine (proj1 (C102_order_printed show ftext square default_flags n f_then g_then [shows "f"] fg_source gf_source
    default_flags default_flags eq_refl eq_refl _ _ _ _ _)).
  - repeat constructor; eexists; reflexivity.
  - apply perm_swap.
  - repeat constructor; vm_compute; intuition discriminate.
  - said.
  - said.
Qed.
