(** Numbers as they are written. *)
From Coq Require Import String Ascii List ZArith QArith Bool.
From Verif Require Import PrintSpec.
Import ListNotations.
Open Scope Z_scope.

(** the digits after a decimal point *)
Fixpoint fraction (s : string) : option Q :=
  match s with
  | EmptyString => Some 0%Q
  | String c r => match dec_digit c, fraction r with Some d, Some q => Some ((inject_Z d + q) / 10)%Q | _, _ => None end
  end.

(** Digits with single underscores between them, as in 1_000. *)
Inductive grouped : list ascii -> Z -> Prop :=
| gr_one a d : dec_digit a = Some d -> grouped [a] d
| gr_more l z a d : grouped l z -> dec_digit a = Some d -> grouped (l ++ [a]) (10 * z + d)
| gr_under l z a d : grouped l z -> dec_digit a = Some d -> grouped (l ++ ["_"%char; a]) (10 * z + d).

(** tab, newline, vertical tab, form feed, return, the four separators, space *)
Definition blank (a : ascii) : Prop := In (nat_of_ascii a) [9; 10; 11; 12; 13; 28; 29; 30; 31; 32]%nat.

(** A whole number with a sign and blanks around it, as Python's [int] takes it. *)
Definition int_text (l : list ascii) (z : Z) : Prop :=
  exists before sign digits after n, l = before ++ sign ++ digits ++ after /\ Forall blank before /\ Forall blank after /\
    grouped digits n /\ ((sign = [] \/ sign = ["+"%char]) /\ z = n \/ sign = ["-"%char] /\ z = - n).

(** [ndm] or [dm] *)
Definition dice_text (s : string) (n m : Z) : Prop :=
  exists a b, list_ascii_of_string s = a ++ "d"%char :: b /\ (a = [] /\ n = 1 \/ int_text a n) /\ int_text b m.
