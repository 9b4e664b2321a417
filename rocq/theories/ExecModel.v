(** Model of parse_and_exec.py 43-74 and 131-139: the names a generated program
    finds, and running it. *)
From Coq Require Import String List.
From Verif Require Import PyBase LexModel ParseModel SynSpec PySpec Runtime PySem.
Import ListNotations.
Open Scope string_scope.
Open Scope list_scope.

(** Lines 60-73: rv_lib_dict.  The modules and classes are not used by generated
    programs ([GOther]); the other values are those imported in lines 48-59.
    Line 136: [output] records its arguments. *)
Definition get_lib : list (string * glob) :=
  [ ("math", GOther); ("itertools", GOther); ("random", GOther); ("functools", GOther);
    ("RV", GOther); ("Seq", GOther); ("get_seq", GSeq); ("anydice_casting", GCasting); ("roll", GRoll);
    ("myrange", GRange); ("settings_set", GSet); ("output", GOutput);
    ("T_N", GKind KN); ("T_S", GKind KS); ("T_D", GKind KD);
    ("absolute_X", GLib LAbsolute); ("X_contains_X", GLib LContains); ("count_X_in_X", GLib LCount);
    ("explode_X", GLib LExplode); ("highest_X_of_X", GLib LHighest);
    ("lowest_X_of_X", GLib LLowest); ("middle_X_of_X", GLib LMiddle); ("highest_of_X_and_X", GLib LHighestOf);
    ("lowest_of_X_and_X", GLib LLowestOf);
    ("maximum_of_X", GLib LMaximum); ("reverse_X", GLib LReverse); ("sort_X", GLib LSort);
    ("myMatmul", GMy MyAt); ("myLen", GMy MyLen); ("myInvert", GMy MyNot); ("myAnd", GMy MyAnd);
    ("myOr", GMy MyOr); ("true_div_X_X", GLib LDiv) ].

Section exec.
  Context {V W : Type} (rt : runtime V W).

  Definition lib_env : @env V := map (fun xg => (fst xg, PyLib (snd xg))) get_lib.

  (** Lines 131-139, for the program that the text is read as; no [global_vars]. *)
  Definition unsafe_exec (fuel : nat) (p : list pstmt) : M W unit := run_module rt fuel lib_env p.
End exec.
