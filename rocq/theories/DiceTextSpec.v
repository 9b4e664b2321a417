(** The text of dice, and what may happen to a heap of dice. *)
From Coq Require Import Ascii String List ZArith Bool.
From Verif Require Import PyBase Num Val RVModel UtilModel Obj RollModel Spec NameModel RVFacts NameFacts.
Import ListNotations.
Open Scope Z_scope.

(** [n] dice: nothing for one or none *)
Definition times_text (n : Z) : string := if 1 <? Z.abs n then str_of_Z (Z.abs n) else EmptyString.

(** [n] dice with the sides 1 to [m], as in 2d6, d20 or -3d4; nothing but zeros if
    there are no dice or no sides *)
Definition roll_text (n m : Z) : string :=
  if n * m =? 0 then (times_text n ++ "d{0..0}")%string
  else ((if (n * m <? 0)%Z then "-" else "") ++ times_text n ++ "d" ++ str_of_Z (Z.abs m))%string.

(** [n] dice with other sides *)
Definition other_text (n : Z) : string := if n =? 0 then "d{0..0}"%string else (times_text n ++ "d{?}")%string.

(** Histories: a roll of integer dice, or a random variable made in any other way. *)
Inductive event : Type := Rolls (n : hcount) (d : hdie) | Makes (x : rv).
Definition happens (c : cfg) (h : heap) (e : event) : heap :=
  match e with Rolls n d => snd (hroll c n d h) | Makes x => snd (alloc x h) end.
Definition later (c : cfg) (es : list event) (h : heap) : heap := fold_left (happens c) es h.

(** the arguments exist, and the dice have integer sides *)
Definition may_happen (h : heap) (e : event) : Prop :=
  match e with
  | Makes _ => True
  | Rolls n d =>
      valid h n d /\
      match d with
      | HDInt _ => True
      | HDSeq l => Forall (fun v => v_is_int v = true) l
      | HDRef r => int_vals (rv_dist (rv_at h r))
      end
  end.
Fixpoint possible (c : cfg) (es : list event) (h : heap) : Prop :=
  match es with [] => True | e :: es' => may_happen h e /\ possible c es' (happens c h e) end.
