(** Which type a decorated function expects of an argument. *)
From Coq Require Import String List.
From Verif Require Import PyBase Obj CastModel.
Import ListNotations.

(** The parameter that an argument is for: by position or by name. *)
Inductive parameter_of (s : sig) : key -> string -> Prop :=
| by_position i n : nth_error (sg_names s) i = Some n -> parameter_of s (KPos i) n
| by_name n : parameter_of s (KName n) n.

(** One of the three types is written at the parameter. *)
Definition expects (s : sig) (k : key) (e : ann) : Prop :=
  exists n, parameter_of s k n /\ In (n, e) (sg_anns s) /\ (e = AN \/ e = AS \/ e = AD).
