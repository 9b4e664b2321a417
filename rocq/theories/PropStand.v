(** C108: a variable with one value can be replaced by its value. *)
From Coq Require Import String Ascii Bool List ZArith.
From Verif Require Import PyBase Num Val Obj LexModel ParseModel SynSpec NameSpec ResolveModel PyTrans PyProgLaws Runtime MeanSpec RunSpec RunModel
  PipeModel MainModel MainSpec SameText StandSpec StandFacts StandText PropRun PropPipe PropSame.
Import ListNotations.
Open Scope string_scope.
Open Scope list_scope.

(** [x: 5] at the start of a program that never gives [x] another value: [5] may stand
    where [x] is read, in the program and in its functions, whatever the library does. *)
Theorem C108_meaning : forall (V W : Type) (rt : runtime V W) oplib lib fuel x t p w,
  is_numeral t = true -> fixed x p = true ->
  mean_program rt oplib lib fuel (SAssign x (ETerm t) :: used x t p) w = mean_program rt oplib lib fuel (SAssign x (ETerm t) :: p) w.
Proof. exact @numeral_means. Qed.
Print Assumptions C108_meaning.

(** The same with sequences and ranges. *)
Theorem C108_sequences : forall oplib lib fuel x t p w, constant_t t = true -> fixed x p = true ->
  mean_program library oplib lib fuel (SAssign x (ETerm t) :: used x t p) w = mean_program library oplib lib fuel (SAssign x (ETerm t) :: p) w.
Proof. exact constant_means. Qed.
Print Assumptions C108_sequences.

(** An assignment of a number to a variable that occurs nowhere else can be left out, *)
Theorem C108_unread : forall (V W : Type) (rt : runtime V W) oplib lib fuel x s p w, ~ In x (flat_map vars_s p) ->
  mean_program rt oplib lib fuel (SAssign x (ETerm (TNum s)) :: p) w = mean_program rt oplib lib fuel p w.
Proof. exact @unread_means. Qed.
Print Assumptions C108_unread.

(** so a variable that occurs in no string can be left out altogether. *)
Theorem C108_replaced : forall (V W : Type) (rt : runtime V W) oplib lib fuel x s p w,
  fixed x p = true -> ~ In x (flat_map vars_s (used x (TNum s) p)) ->
  mean_program rt oplib lib fuel (used x (TNum s) p) w = mean_program rt oplib lib fuel (SAssign x (ETerm (TNum s)) :: p) w.
Proof.
  intros V W rt oplib lib fuel x s p w F N. rewrite <- (unread_means rt oplib lib fuel x s _ w N). now apply numeral_means.
Qed.
Print Assumptions C108_replaced.

(** Two texts, one with the variable and one with its value, print the same tables. *)
Theorem C108_printed : forall show ftext square fl n x t p src src' fl1 fl2, fl_check fl = true -> fl_prefix fl = false ->
  constant_t t = true -> fixed x p = true ->
  says fl src (SAssign x (ETerm t) :: p) fl1 -> says fl src' (SAssign x (ETerm t) :: used x t p) fl2 ->
  (forall r, prints show ftext square fl n src r <-> prints show ftext square fl n src' r) /\
  (forall w r w', turn show ftext square fl n src w r w' <-> turn show ftext square fl n src' w r w').
Proof.
  intros show ftext square fl n x t p src src' fl1 fl2 C P N A S S'.
  assert (E : fl2 = fl1).
  { apply (settled_same fl _ _ fl1 fl2) with (2 := sy_settled _ _ _ _ S) (3 := sy_settled _ _ _ _ S').
    unfold takes_helper. change (defs (SAssign x (ETerm t) :: used x t p)) with (defs (used x t p)). rewrite defs_of_used. reflexivity. }
  subst fl2. apply (same_texts show ftext square fl n C P src src' _ _ fl1 S S'). intros w. now apply constant_means.
Qed.
Print Assumptions C108_printed.

(** ** Programs *)
Definition with_variable : string := "S: {1..3, 5} function: hits N:s { result: N = S } output [hits 2d6] + #S named ""of [S]""".
Definition with_value : string :=
  "S: {1..3, 5} function: hits N:s { result: N = {1..3, 5} } output [hits 2d6] + #{1..3, 5} named ""of [S]""".
Definition the_sequence : term := TSeq [LRange (ETerm (TNum "1")) (ETerm (TNum "3")); LOne (ETerm (TNum "5"))].
Definition hits_part : program :=
  [ SFunction (HWord (WName "hits")) [HTyped "N" (SynSpec.PName "s")] [SResult (EBin SynSpec.OEq (ETerm (TVar "N")) (ETerm (TVar "S")))];
    SNamed (EBin SynSpec.OAdd (ETerm (TCall [CWord (WName "hits"); CArg (EDice (TNum "2") (TNum "6"))])) (ETerm (THash (TVar "S")))) (PAny "of ") [PVar "S"] ].
Lemma with_variable_says : says default_flags with_variable (SAssign "S" (ETerm the_sequence) :: hits_part) default_flags.
Proof. said. Qed.
Lemma with_value_says : says default_flags with_value (SAssign "S" (ETerm the_sequence) :: used "S" the_sequence hits_part) default_flags.
Proof. said. Qed.
Example C108_example : forall show ftext square n r,
  prints show ftext square default_flags n with_variable r <-> prints show ftext square default_flags n with_value r.
Proof.
  intros show ftext square n. exact (proj1 (C108_printed show ftext square default_flags n "S" the_sequence hits_part with_variable with_value
    default_flags default_flags eq_refl eq_refl eq_refl eq_refl with_variable_says with_value_says)).
Qed.
(** ... and it outputs a die under the name "of {?}". *)
Example C108_sample :
  match what_of (SAssign "S" (ETerm the_sequence) :: hits_part) with
  | Some (Ok _, [(ORV _, Some (OStr name))]) => name = "of {?}"
  | _ => False
  end /\ what_of (SAssign "S" (ETerm the_sequence) :: used "S" the_sequence hits_part) = what_of (SAssign "S" (ETerm the_sequence) :: hits_part).
Proof. split; vm_compute; reflexivity. Qed.

(** [replaced]: here a loop and a function read the variable. *)
Definition loops_part : program :=
  [ SFunction (HWord (WName "add")) [HParam "N"] [SResult (EBin SynSpec.OAdd (ETerm (TVar "N")) (ETerm (TVar "X")))];
    SLoop "Y" (ETerm (TSeq [LRange (ETerm (TNum "1")) (ETerm (TVar "X"))])) [SOutput (ETerm (TCall [CWord (WName "add"); CArg (ETerm (TVar "Y"))]))] ].
Example C108_replaced_example :
  fixed "X" loops_part = true /\ ~ In "X" (flat_map vars_s (used "X" (TNum "2") loops_part)) /\
  what_of (SAssign "X" (ETerm (TNum "2")) :: loops_part) = Some (Ok Datatypes.tt, [(oint 3, None); (oint 4, None)]) /\
  what_of (used "X" (TNum "2") loops_part) = Some (Ok Datatypes.tt, [(oint 3, None); (oint 4, None)]).
Proof. split; [reflexivity|]. split; [vm_compute; intuition discriminate|]. split; vm_compute; reflexivity. Qed.

(** A variable that is a parameter somewhere is another matter. *)
Example C108_parameter :
  let p := [ SFunction (HWord (WName "f")) [HParam "X"] [SResult (ETerm (TVar "X"))]; SOutput (ETerm (TCall [CWord (WName "f"); CArg (ETerm (TNum "7"))])) ] in
  fixed "X" p = false /\
  what_of (SAssign "X" (ETerm (TNum "5")) :: p) = Some (Ok Datatypes.tt, [(oint 7, None)]) /\
  what_of (SAssign "X" (ETerm (TNum "5")) :: used "X" (TNum "5") p) = Some (Ok Datatypes.tt, [(oint 5, None)]).
Proof. repeat split; vm_compute; reflexivity. Qed.

(** Dice are no constants: what a die is depends on the settings where it is written. *)
Example C108_dice :
  let t := TGroup (EDie (TSeq [LOne (ETerm (TDec "1" "5"))])) in
  let p := [ SSet (PAny "RV_TRUNC") [] (ETerm (TStr (PAny "True") [])); SOutput (ETerm (TVar "X")) ] in
  fixed "X" p = true /\
  what_of (SAssign "X" (ETerm t) :: p) <> what_of (SAssign "X" (ETerm t) :: used "X" t p).
Proof. split; [reflexivity|]. vm_compute. discriminate. Qed.
