(** Model of altcast.py: the notation [n * D * m] for rolls, and of the text of
    labels (string_rvs.py, randvar.py). *)
From Coq Require Import String Ascii List ZArith Bool.
From Verif Require Import PyBase Num Val RVModel UtilModel Obj RollModel PrintModel.
Import ListNotations.
Open Scope string_scope.
Open Scope list_scope.
Open Scope Z_scope.

(** ** altcast.py *)

(** what stands to the left of the last [*]: [D] itself, a D_WITH_LEFT (lines 11-16),
    or an ordinary object *)
Inductive left_of : Type :=
| LD
| LWith (n : obj)
| LObj (o : obj).

(** [n * D].
    - Numbers, lists, texts, None and labels do not know D: line 8.
    - Seq.__mul__ (seq.py 85-86) multiplies the sum by D.
    - RV.__mul__ (randvar.py 276-277, 201-209) makes an RV whose outcomes are the
      D_WITH_LEFT of the outcomes.  Its constructor converts them to int (lines 29-30,
      with RV_TRUNC) or sorts them (line 52): neither is possible for two or more.
      An RV with one such outcome is not modelled.
    - BlankRV.__mul__ (blackrv.py 53-54) is the BlankRV. *)
Definition times_D (c : cfg) (n : obj) : res left_of :=
  match n with
  | OSeq _ | OSSeq _ => s <- meta_sum n ;; Ok (LWith (OV s))
  | ORV x =>
      if cfg_trunc c then Err TypeErr
      else match rv_dist x with _ :: _ :: _ => Err TypeErr | _ => Err Unmodelled end
  | OBlank b => Ok (LObj (OBlank b))
  | _ => Ok (LWith n)
  end.

(** [l * m]: lines 5-6 and 15-16 *)
Definition times_die (c : cfg) (l : left_of) (m : obj) : ST obj :=
  match l with
  | LD => roll c m None
  | LWith n => roll c n (Some m)
  | LObj (OBlank b) => sret (OBlank b)        (* blackrv.py 53-54 *)
  | LObj _ => slift (Err Unmodelled)
  end.

(** [D * m] and [n * D * m], which is [(n * D) * m] *)
Definition D_mul (c : cfg) (m : obj) : ST obj := times_die c LD m.
Definition D_mul_mul (c : cfg) (n m : obj) : ST obj := l <~ slift (times_D c n) ;; times_die c l m.

(** ** The text of labels *)

(** one or more digits, and what follows *)
Fixpoint skip_digits (s : string) : string :=
  match s with String a r => if is_digit a then skip_digits r else s | EmptyString => s end.
Definition digits1 (s : string) : option string :=
  match s with String a r => if is_digit a then Some (skip_digits r) else None | EmptyString => None end.
(** [$]: the end, or before a line feed that ends the text *)
Definition at_end (s : string) : bool := match s with EmptyString | String "010" EmptyString => true | _ => false end.
(** string_rvs.py 31-33: the pattern ^-?\d+(\.\d+)?$.  Simplification: [\d] matches
    ASCII digits only. *)
Definition drop_minus (s : string) : string :=
  match s with String a r => if Ascii.eqb a "-" then r else s | EmptyString => s end.
Definition numeral (s : string) : bool :=
  match digits1 (drop_minus s) with
  | None => false
  | Some r =>
      at_end r ||
      match r with
      | String a r => Ascii.eqb a "." && match digits1 r with Some r => at_end r | None => false end
      | EmptyString => false
      end
  end.

Section Labels.
  Variable ftext : bool -> num -> string.

  (** string_rvs.py 46-61: the pairs in the order of their keys *)
  Definition pair_text (kv : string * num) : string :=
    if neqb (snd kv) (NI 1) then fst kv else num_text ftext (mant (snd kv) <? 0) (snd kv) ++ "*" ++ fst kv.
  Fixpoint last_coeff (acc : string) (s : sval) : string :=
    match s with
    | [] => acc
    | (k, v) :: s' => last_coeff (if String.eqb k CONST_COEF then " + " ++ num_text ftext (mant v <? 0) v else acc) s'
    end.
  Definition label_repr (s : sval) : string :=
    let l := s_sorted s in
    String.concat " + " (map pair_text (filter (fun kv => negb (String.eqb (fst kv) CONST_COEF)) l)) ++ last_coeff "" l.

  (** randvar.py 149-152: f'"{v}"' for a label that looks like a number *)
  Definition label_text (s : sval) : string :=
    match s_sorted s with
    | [(k, _)] => if numeral k then String """" (label_repr s ++ String """" "") else label_repr s
    | _ => label_repr s
    end.
End Labels.
