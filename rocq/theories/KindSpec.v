(** The kinds of values a program can output. *)
From Coq Require Import String List ZArith Bool.
From Verif Require Import PyBase Num Val RVModel Obj.

(** Numbers and labels, text, sequences of either kind, dice and blanks; not None and no
    other thing of Python. *)
Inductive dice_value : obj -> Prop :=
| a_number n : dice_value (OV (VN n))
| a_label s : dice_value (OV (VS s))
| a_text s : dice_value (OStr s)
| a_sequence l : dice_value (OSeq l)
| a_label_sequence l : dice_value (OSSeq l)
| a_die x : dice_value (ORV x)
| a_blank b : dice_value (OBlank b).

(** What was output, and under which name: none, or a text. *)
Definition good_output (o : obj * option obj) : Prop :=
  dice_value (fst o) /\ (snd o = None \/ exists s, snd o = Some (OStr s)).
