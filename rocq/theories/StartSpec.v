(** Programs that start with variables: parse_and_exec.py 131-139, [global_vars]. *)
From Coq Require Import String Ascii Bool List Arith.
From Verif Require Import PyBase LexModel LexSpec ParseModel SynSpec NameSpec ResolveModel PyTrans PySpec Runtime PySem ExecModel MeanSpec RunSpec.
Import ListNotations.
Open Scope string_scope.
Open Scope list_scope.
Open Scope run_scope.

(** ** Execution *)

(** parse_and_exec.py 131-139: unsafe_exec with [global_vars], values under names.  They
    come last in the dictionary of line 134, so they are found before the library.  (A
    dictionary has every key once; in this list the first counts.) *)
Definition unsafe_exec_with {V W : Type} (rt : runtime V W) (fuel : nat) (gs : list (string * V)) (p : list pstmt) : M W unit :=
  run_module rt fuel (map (fun g => (fst g, PyObj (snd g))) gs ++ lib_env) p.

(** ** Meaning *)

(** The program starts with these variables. *)
Definition mean_with {V W : Type} (rt : runtime V W) (oplib lib : bool) (fuel : nat) (gs : list (string * V)) (p : program) : M W unit :=
  r <== mean_block rt oplib (call_defined rt oplib fuel) p
          (mkPlace gs (if lib then library_functions else []) None) ;;
  ret Datatypes.tt.

(** ** Conditions *)

(** A name of a variable: letters A to Z and underscores, and not that of a Python object
    that generated programs find. *)
Definition variable_name (x : string) : bool :=
  negb (String.eqb x "")
  && forallb (fun c => existsb (Ascii.eqb c) (list_ascii_of_string "ABCDEFGHIJKLMNOPQRSTUVWXYZ_")) (list_ascii_of_string x)
  && negb (mem x taken_variables).
(** No function gives one of these variables a value, unless it is a parameter. *)
Definition leaves_alone (names : list string) (p : program) : bool :=
  forallb (self_contained names) (flat_map functions_s p).
