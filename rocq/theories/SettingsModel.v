(** Model of settings.py. *)
From Coq Require Import String Ascii List ZArith Bool.
From Verif Require Import PyBase Num Val RVModel.
Import ListNotations.
Open Scope Z_scope.

(** Values a setting may be given: truth values, ints, texts and any other object.
    All that settings.py asks of another object is whether it is callable and what
    [text == object] gives (dice raise; the blank of blackrv.py with
    [_special_null] equals everything). *)
Inductive value : Type :=
| SBool (b : bool)
| SInt (z : Z)
| SText (s : string)
| SObj (callable : bool) (equals : string -> res bool).

(** [text == v] as tested by [v in (...)], line 21 *)
Definition text_eq (t : string) (v : value) : res bool :=
  match v with
  | SText s => Ok (String.eqb t s)
  | SObj _ f => f t
  | _ => Ok false
  end.
Fixpoint value_in (v : value) (l : list string) : res bool :=
  match l with
  | [] => Ok false
  | t :: l' => b <- text_eq t v ;; if b : bool then Ok true else value_in v l'
  end.

(** [isinstance(v, int) and v > 0]; True is an int *)
Definition positive_int (v : value) : bool :=
  match v with SInt z => 0 <? z | SBool b => b | _ => false end.
Definition is_callable (v : value) : bool := match v with SObj b _ => b | _ => false end.

(** [s.lower()] on ASCII text *)
Definition lower_char (a : ascii) : ascii :=
  let n := nat_of_ascii a in if Nat.leb 65 n && Nat.leb n 90 then ascii_of_nat (n + 32) else a.
Fixpoint lower (s : string) : string :=
  match s with EmptyString => EmptyString | String a s' => String (lower_char a) (lower s') end.

(** lines 26-30: the flag a value stands for *)
Definition read_flag (v : value) : res bool :=
  match v with
  | SText s => assert_ (String.eqb (lower s) "true" || String.eqb (lower s) "false") (Ok (String.eqb (lower s) "true"))
  | SBool b => Ok b
  | _ => Err AssertErr
  end.

(** the dict; all names it ever contains are there from the start *)
Definition settings : Type := list (string * value).
(** lines 4-15; print is an object that equals no text *)
Definition print_fn : value := SObj true (fun _ => Ok false).
Definition defaults : settings :=
  [("RV_TRUNC", SBool false); ("RV_IGNORE_ZERO_PROBS", SBool false); ("DEFAULT_OUTPUT_WIDTH", SInt 180);
   ("DEFAULT_PRINT_FN", print_fn); ("INTERNAL_CURR_DEPTH", SInt 0); ("INTERNAL_CURR_DEPTH_WARNING_PRINTED", SBool false);
   ("position order", SText "highest first"); ("explode depth", SInt 2); ("maximum function depth", SInt 10)]%string.

Fixpoint get (n : string) (s : settings) : option value :=
  match s with
  | [] => None
  | (m, v) :: s' => if String.eqb m n then Some v else get n s'
  end.
(** [SETTINGS[name] = value] *)
Fixpoint put (n : string) (v : value) (s : settings) : settings :=
  match s with
  | [] => [(n, v)]
  | (m, w) :: s' => if String.eqb m n then (m, v) :: s' else (m, w) :: put n v s'
  end.

(** lines 19-36: the value that is stored *)
Definition checked (n : string) (v : value) : res value :=
  if String.eqb n "position order" then b <- value_in v ["highest first"; "lowest first"]%string ;; assert_ b (Ok v)
  else if String.eqb n "explode depth" then assert_ (positive_int v) (Ok v)
  else if String.eqb n "maximum function depth" then assert_ (positive_int v) (Ok v)
  else if String.eqb n "RV_TRUNC" || String.eqb n "RV_IGNORE_ZERO_PROBS" then b <- read_flag v ;; Ok (SBool b)
  else if String.eqb n "DEFAULT_OUTPUT_WIDTH" then assert_ (positive_int v) (Ok v)
  else if String.eqb n "DEFAULT_PRINT_FN" then assert_ (is_callable v) (Ok v)
  else Err AssertErr.

(** lines 19-37: the answer and the settings afterwards *)
Definition settings_set (n : string) (v : value) (s : settings) : res unit * settings :=
  match checked n v with
  | Ok v' => (Ok tt, put n v' s)
  | Err e => (Err e, s)
  end.

(** lines 40-42 *)
Definition settings_reset (s : settings) : settings := defaults.

(** What a program does to the settings; the depth limiter (decorators.py 146-155)
    writes the two internal entries. *)
Inductive change : Type :=
| Set_ (n : string) (v : value)
| Reset_
| Depth (z : Z)
| Warned.
Definition apply (x : change) (s : settings) : settings :=
  match x with
  | Set_ n v => snd (settings_set n v s)
  | Reset_ => settings_reset s
  | Depth z => put "INTERNAL_CURR_DEPTH" (SInt z) s
  | Warned => put "INTERNAL_CURR_DEPTH_WARNING_PRINTED" (SBool true) s
  end.
Definition history (l : list change) : settings := fold_left (fun s x => apply x s) l defaults.

(** ** What the readers of the settings see *)
Definition as_num (v : option value) : option Z :=
  match v with Some (SInt z) => Some z | Some (SBool b) => Some (if b then 1 else 0) | _ => None end.
(** [if SETTINGS[...]] on a stored flag, randvar.py 29, 31 *)
Definition as_flag (v : option value) : option bool := match v with Some (SBool b) => Some b | _ => None end.
(** the settings of the other models; [None] when an entry could not be used *)
Definition cfg_of (s : settings) : option cfg :=
  match as_flag (get "RV_TRUNC" s), as_flag (get "RV_IGNORE_ZERO_PROBS" s), get "position order" s,
        as_num (get "explode depth" s), as_num (get "maximum function depth" s), as_num (get "DEFAULT_OUTPUT_WIDTH" s) with
  | Some t, Some z, Some o, Some e, Some m, Some w =>
      match text_eq "highest first" o with      (* randvar.py 251 *)
      | Ok h => Some (mkCfg t z h e m w)
      | Err _ => None
      end
  | _, _, _, _, _, _ => None
  end.
