(** Model of the number-to-text helpers and of utils.py. *)
From Coq Require Import String Ascii List ZArith Bool.
From Verif Require Import PyBase.
Import ListNotations.
Open Scope Z_scope.

(** ** Decimal notation of Python integers *)

(** the decimal digits of [n >= 0], most significant first; [fuel] bounds the
    number of digits *)
Fixpoint digits_aux (fuel : nat) (n : Z) (acc : list Z) : list Z :=
  match fuel with
  | O => acc
  | S f => if n <? 10 then n :: acc else digits_aux f (n / 10) (n mod 10 :: acc)
  end.
Definition digits (n : Z) : list Z := digits_aux (S (Z.to_nat (Z.log2 n))) n [].

Definition digit_char (d : Z) : ascii := ascii_of_nat (48 + Z.to_nat d).
Definition string_of_chars (l : list ascii) : string := string_of_list_ascii l.

(** [str(z)] *)
Definition str_of_Z (z : Z) : string :=
  if z <? 0 then String "-" (string_of_chars (map digit_char (digits (- z))))
  else string_of_chars (map digit_char (digits z)).

(** [int(s)] on an ASCII string: surrounding white space, an optional sign, then
    decimal digits with single underscores between them.  [None] is ValueError.
    (Non-ASCII digits and spaces are not modelled.) *)
Definition is_digit (a : ascii) : bool := let n := nat_of_ascii a in (Nat.leb 48 n) && (Nat.leb n 57).
Definition digit_val (a : ascii) : Z := Z.of_nat (nat_of_ascii a) - 48.
Definition is_space (a : ascii) : bool :=
  let n := nat_of_ascii a in
  Nat.eqb n 32 || ((Nat.leb 9 n) && (Nat.leb n 13)) || ((Nat.leb 28 n) && (Nat.leb n 31)).
Fixpoint drop_spaces (l : list ascii) : list ascii :=
  match l with
  | [] => []
  | a :: l' => if is_space a then drop_spaces l' else l
  end.
Definition strip (l : list ascii) : list ascii := rev (drop_spaces (rev (drop_spaces l))).

(** [acc] is the value so far; [prev] tells that the last character was a digit *)
Fixpoint read_digits (acc : Z) (prev : bool) (l : list ascii) : option Z :=
  match l with
  | [] => if prev then Some acc else None
  | a :: l' =>
      if is_digit a then read_digits (10 * acc + digit_val a) true l'
      else if Ascii.eqb a "_" && prev then read_digits acc false l'
      else None
  end.
Definition read_unsigned (l : list ascii) : option Z := read_digits 0 false l.
Definition py_int (s : string) : option Z :=
  match strip (list_ascii_of_string s) with
  | [] => None
  | a :: l =>
      if Ascii.eqb a "-" then option_map Z.opp (read_unsigned l)
      else if Ascii.eqb a "+" then read_unsigned l
      else read_unsigned (a :: l)
  end.

(** ** utils.py 26-29: factorial with its memo table (a dict from int to int) *)
Definition fmemo : Type := list (Z * Z).
Fixpoint fm_get (m : fmemo) (n : Z) : option Z :=
  match m with
  | [] => None
  | (k, v) :: m' => if k =? n then Some v else fm_get m' n
  end.
(** The recursion descends from [n] to the first memoised number or to 1; [fuel]
    is [n] (at least one call). *)
Fixpoint factorial_aux (fuel : nat) (n : Z) (m : fmemo) : Z * fmemo :=
  match fm_get m n with
  | Some v => (v, m)
  | None =>
      if 1 <? n then
        match fuel with
        | O => (0, m)   (* unreachable: fuel >= n - 1 *)
        | S f => let (r, m') := factorial_aux f (n - 1) m in (n * r, (n, n * r) :: m')
        end
      else (1, (n, 1) :: m)
  end.
Definition factorial (n : Z) (m : fmemo) : Z * fmemo := factorial_aux (Z.to_nat n) n m.
