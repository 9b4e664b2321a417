(** Texts: their order and their characters as labels. *)
From Coq Require Import Ascii String List ZArith NArith Bool.
From Verif Require Import PyBase Num Val Obj.
Import ListNotations.
Open Scope string_scope.

(** [s] stands before [t] in a dictionary. *)
Inductive before : string -> string -> Prop :=
| before_end a t : before "" (String a t)
| before_here a b s t : (N_of_ascii a < N_of_ascii b)%N -> before (String a s) (String b t)
| before_later a s t : before s t -> before (String a s) (String a t).

(** what a comparison of two texts asks *)
Definition text_holds (o : binop) (s t : string) : Prop :=
  match o with
  | OEq => s = t
  | ONe => s <> t
  | OLt => before s t
  | OLe => before s t \/ s = t
  | OGt => before t s
  | OGe => before t s \/ s = t
  | _ => False
  end.

(** a character as a label *)
Definition label (a : ascii) : pval := VS (s_str (String a "")).
Definition labels (s : string) : list pval := map label (list_ascii_of_string s).
