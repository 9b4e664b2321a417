(** C103: other ways to write the same. *)
From Coq Require Import String Ascii Bool List ZArith Permutation.
From Verif Require Import PyBase Num Val Obj LexModel ParseModel SynSpec NameSpec ResolveModel PyTrans PyProgLaws Runtime MeanSpec RunSpec RunModel
  PipeModel MainModel MainSpec WriteSpec WriteFacts SameText PropSame.
Import ListNotations.
Open Scope string_scope.
Open Scope list_scope.

(** Programs that differ in parentheses, loops that are written out, branches that are
    decided, or statements that are not reached, anywhere, do the same. *)
Theorem C103_meaning : forall oplib lib fuel p p' w, alike p p' ->
  mean_program library oplib lib fuel p' w = mean_program library oplib lib fuel p w.
Proof. exact alike_means. Qed.
Print Assumptions C103_meaning.

(** Their texts print the same tables and raise the same exceptions, in a new process and
    after any other texts. *)
Theorem C103_printed : forall show ftext square fl n src src' p p' fl', fl_check fl = true -> fl_prefix fl = false ->
  alike p p' -> says fl src p fl' -> says fl src' p' fl' ->
  (forall r, prints show ftext square fl n src r <-> prints show ftext square fl n src' r) /\
  (forall w r w', turn show ftext square fl n src w r w' <-> turn show ftext square fl n src' w r w').
Proof.
  intros show ftext square fl n src src' p p' fl' C P A S S'.
  apply (same_texts show ftext square fl n C P src src' p p' fl' S S'). intros w. now apply alike_means.
Qed.
Print Assumptions C103_printed.

(** Parentheses, for any library. *)
Theorem C103_parentheses : forall (V W : Type) (rt : runtime V W) oplib callf e e' pl w, same_tree e e' ->
  mean_e rt oplib callf pl e w = mean_e rt oplib callf pl e' w.
Proof. intros V W. exact same_tree_means. Qed.
Print Assumptions C103_parentheses.

(** ** Programs *)

Definition long_source : string :=
  "function: f N:n { if N { result: ((2) * (N + 1)) output 5 } else if 0 { } else { result: 7 } } loop X over {1, 4..5} { output [f X] named ""[X]"" }".
Definition flat_source : string :=
  "function: f N:n { if N { result: 2 * (N + 1) } else { result: 7 } } X: 1 output [f X] named ""[X]"" X: 4 output [f X] named ""[X]"" X: 5 output [f X] named ""[X]""".
Definition doubled (a b : expr -> expr) : expr := a (EBin OMul (b (ETerm (TNum "2"))) (ETerm (TGroup (EBin OAdd (ETerm (TVar "N")) (ETerm (TNum "1")))))).
Definition group (e : expr) : expr := ETerm (TGroup e).
Definition f_of_x : stmt := SNamed (ETerm (TCall [CWord (WName "f"); CArg (ETerm (TVar "X"))])) (PVar "X") [].
Definition head_f (body : list stmt) : stmt := SFunction (HWord (WName "f")) [HTyped "N" (SynSpec.PName "n")] body.
Definition long_program : program :=
  [ head_f [SIf (Branch (ETerm (TVar "N")) [SResult (doubled group group); SOutput (ETerm (TNum "5"))])
              [Branch (ETerm (TNum "0")) []] (Some [SResult (ETerm (TNum "7"))])];
    SLoop "X" (ETerm (TSeq [LOne (number "1"); LRange (number "4") (number "5")])) [f_of_x] ].
Definition flat_program : program :=
  [ head_f [SIf (Branch (ETerm (TVar "N")) [SResult (doubled (fun e => e) (fun e => e))]) [] (Some [SResult (ETerm (TNum "7"))])];
    SAssign "X" (number "1"); f_of_x; SAssign "X" (number "4"); f_of_x; SAssign "X" (number "5"); f_of_x ].

Lemma long_alike : alike long_program flat_program.
Proof.
  apply (alike_app [_] [_] [_] [_; _; _; _; _; _]).
  - apply alike_function.
    eapply alike_trans; [apply alike_else_if|].
    eapply alike_trans.
    + apply alike_else. apply alike_if_else. reflexivity.
    + apply alike_then. eapply alike_trans; [apply alike_result|]. apply alike_result_of. reflexivity.
  - apply (alike_unroll "X" _ ["1"; "4"; "5"] [f_of_x]).
    apply entries_one. apply (entries_range "4" "5" ["4"; "5"] [] []); [|constructor].
    apply counts_on; [discriminate|reflexivity|]. apply counts_on; [discriminate|reflexivity|]. apply counts_end. reflexivity.
Qed.
Lemma long_says : says default_flags long_source long_program default_flags.
Proof. said. Qed.
Lemma flat_says : says default_flags flat_source flat_program default_flags.
Proof. said. Qed.

Example C103_example : forall show ftext square n r,
  prints show ftext square default_flags n long_source r <-> prints show ftext square default_flags n flat_source r.
Proof.
  intros show ftext square n. exact (proj1 (C103_printed show ftext square default_flags n long_source flat_source long_program flat_program
    default_flags eq_refl eq_refl long_alike long_says flat_says)).
Qed.
Example C103_sample :
  what_of long_program = Some (Ok Datatypes.tt, [(oint 4, Some (OStr "1")); (oint 10, Some (OStr "4")); (oint 12, Some (OStr "5"))]) /\
  what_of flat_program = what_of long_program.
Proof. split; vm_compute; reflexivity. Qed.

(** A loop over a text, and the same letter by letter. *)
Definition letters_loop : program := [SLoop "X" (quoted "ab") [SNamed (number "1") (PVar "X") [PAny "!"]]].
Definition letters_flat : program :=
  [ SAssign "X" (quoted "a"); SNamed (number "1") (PVar "X") [PAny "!"]; SAssign "X" (quoted "b"); SNamed (number "1") (PVar "X") [PAny "!"] ].
Example C103_letters : alike letters_loop letters_flat /\
  says default_flags "loop X over ""ab"" { output 1 named ""[X]!"" }" letters_loop default_flags /\
  what_of letters_loop = Some (Ok Datatypes.tt, [(oint 1, Some (OStr "a!")); (oint 1, Some (OStr "b!"))]).
Proof. split; [exact (alike_letters "X" "ab" _)|]. split; [said|vm_compute; reflexivity]. Qed.
