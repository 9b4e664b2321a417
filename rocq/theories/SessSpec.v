(** Programs that are executed one after another in one process. *)
From Coq Require Import String Ascii Bool List ZArith.
From Verif Require Import PyBase Num Val Obj RollModel RollerModel RVModel UtilModel SettingsModel LexModel ParseModel SynSpec Runtime MeanSpec ScopeSpec RunModel IdealSpec.
Import ListNotations.
Open Scope string_scope.
Open Scope list_scope.
Open Scope run_scope.

(** Whatever a program does to a state is found by the next one.  A failure ends one
    program, not the others.  [new]: what happens to the state before each. *)
Fixpoint in_turn {W O : Type} (new : W -> W) (shown : W -> O) (runs : list (M W unit)) (w : W) : option (list (res unit * O) * W) :=
  match runs with
  | [] => Some ([], w)
  | run :: runs' =>
      match run (new w) with
      | None => None
      | Some (r, w1) =>
          match in_turn new shown runs' w1 with
          | None => None
          | Some (l, w2) => Some ((r, shown w1) :: l, w2)
          end
      end
  end.

(** parse_and_exec.py 131-139: lines 133 and 136, every execution has its own list of
    outputs; settings.py 16 and roller.py 81 stay. *)
Definition next_run (w : world) : world := mkWorld (rw_settings w) (rw_memo w) [] (rw_printed w).
Definition executions : list (Run unit) -> world -> option (list (res unit * list (obj * option obj)) * world) :=
  in_turn next_run rw_outputs.

(** The same in the exact meaning. *)
Definition ideal_next (w : iworld) : iworld := mkIworld (iw_depth w) (iw_limit w) (iw_explode w) (iw_highest w) [].

(** A program, with or without the copies of C89, the operators of utils.py and the
    library. *)
Record job : Type := mkJob { j_copies : bool; j_oplib : bool; j_lib : bool; j_program : program }.
Definition run_job {V W : Type} (rt : runtime V W) (n : nat) (j : job) : M W unit :=
  (if j_copies j then mean_over else mean_program) rt (j_oplib j) (j_lib j) n (j_program j).

(** ** Conditions *)

(** A statement that sets something, here or in a function that it defines. *)
Fixpoint sets_something (s : stmt) : bool :=
  match s with
  | SSet _ _ _ => true
  | SFunction _ _ body | SLoop _ _ body => existsb sets_something body
  | SIf b bs els =>
      sets_something_b b || existsb sets_something_b bs
      || match els with None => false | Some body => existsb sets_something body end
  | SOutput _ | SNamed _ _ _ | SResult _ | SAssign _ _ => false
  end
with sets_something_b (b : branch) : bool := match b with Branch _ body => existsb sets_something body end.
Definition sets_nothing (p : program) : bool := negb (existsb sets_something p).

(** The settings that no program can set (settings.py 9-10). *)
Definition internal (n : string) : bool := String.eqb n "INTERNAL_CURR_DEPTH" || String.eqb n "INTERNAL_CURR_DEPTH_WARNING_PRINTED".

(** ** Values that a program starts with *)

(** Values of the exact meaning, and objects of the library that users can give. *)
Inductive starts_as : ival -> obj -> Prop :=
| sa_num z : starts_as (INum z) (OV (VN (NI z)))
| sa_text s : starts_as (IText s) (OStr s)
| sa_seq l : starts_as (ISeq l) (OSeq (map (fun z => VN (NI z)) l))
| sa_blank b : starts_as (IBlank b) (OBlank b)
| sa_roll n m v o : ideal_roll (INum n) (Some (INum m)) = Ok v ->
    fst (roll default_cfg (OV (VN (NI n))) (Some (OV (VN (NI m)))) []) = Ok o -> starts_as v o.
