(** What a printed report should say. *)
From Coq Require Import String Ascii List ZArith QArith Qabs Bool.
From Verif Require Import PyBase Num Val UtilModel RoundFacts Spec.
Import ListNotations.
Open Scope Z_scope.

(** the mean squared distance from the mean *)
Definition variance (l : list (pval * Z)) : Q :=
  average (fun v => (inject_Z (toZ v) - expectation l) * (inject_Z (toZ v) - expectation l))%Q l.

(** the mean square *)
Definition mean_square (l : list (pval * Z)) : Q :=
  average (fun v => inject_Z (toZ v) * inject_Z (toZ v))%Q l.

(** a squaring of floats with an error of at most a unit in the last place *)
Definition good_square (square : num -> res num) : Prop :=
  forall y, is_int y = false -> (Qabs (numQ y) <= p2 500)%Q -> (numQ y == 0 \/ p2 (-500) <= Qabs (numQ y))%Q ->
  exists q, square y = Ok q /\ is_int q = false /\ is_double (numQ q) /\
    (Qabs (numQ q - numQ y * numQ y) <= numQ y * numQ y * p2 (-52))%Q.

(** [r] is the double nearest to a multiple of 0.01 that is nearest to [x] *)
Definition to_hundredths (x r : Q) : Prop :=
  exists n : Z, (Qabs (inject_Z n / 100 - x) <= 1 # 200)%Q /\ nearest_double (inject_Z n / 100) r /\ ties_to_even (inject_Z n / 100) r.

(** ** Texts *)

Definition dec_digit (c : ascii) : option Z :=
  let n := Z.of_nat (nat_of_ascii c) in if (48 <=? n) && (n <=? 57) then Some (n - 48) else None.

(** the number that a string of digits denotes *)
Fixpoint decimal (acc : Z) (s : string) : option Z :=
  match s with
  | EmptyString => Some acc
  | String c r => match dec_digit c with Some d => decimal (10 * acc + d) r | None => None end
  end.

(** digits, a point and two digits: [n] hundredths *)
Definition two_decimals (n : Z) (s : string) : Prop :=
  exists a b i j, s = (a ++ "." ++ b)%string /\ a <> EmptyString /\ String.length b = 2%nat /\
    decimal 0 a = Some i /\ decimal 0 b = Some j /\ n = 100 * i + j.

(** [n] times the string [s] *)
Fixpoint copies (s : string) (n : nat) : string :=
  match n with O => EmptyString | S k => (s ++ copies s k)%string end.

(** One line of a report: the outcome, written [v], right-aligned to width [w], its
    probability [P] in percent with two decimals, right-aligned to width 5, and a
    bar whose length is the share [P] of [blocks]. *)
Definition row (w blocks : Z) (P : Q) (v line : string) : Prop :=
  exists gap gap' pct n k,
    line = (copies " " gap ++ v ++ ": " ++ copies " " gap' ++ pct ++ "  " ++ copies "█" k)%string /\
    Z.of_nat (gap + String.length v) = w /\
    (gap' + String.length pct = 5 \/ (gap' = 0 /\ 5 < String.length pct))%nat /\
    two_decimals n pct /\ (Qabs (inject_Z n / 100 - 100 * P) <= (1 # 200) + p2 (-44))%Q /\
    Z.of_nat k <= blocks /\ (Qabs (inject_Z (Z.of_nat k) - P * inject_Z blocks) <= (1 # 2) + inject_Z blocks * p2 (-50))%Q.

(** the lines of a report, each on a new line, then a rule *)
Definition newline : string := String "010" "".
Definition lines_text (lines : list string) (width : Z) : string :=
  (fold_right (fun l t => newline ++ l ++ t) (newline ++ copies "-" (Z.to_nat (width + 8))) lines)%string.

(** the name given to a report, before anything else *)
Definition heading (named : option string) : string :=
  match named with Some n => (n ++ " ")%string | None => EmptyString end.

(** the longest of some texts *)
Definition longest (ts : list string) : Z := fold_right (fun t m => Z.max (Z.of_nat (String.length t)) m) 0 ts.

(** the lines for the outcomes [es] of [x], in order; [text] is how outcomes are written *)
Definition report_rows (text : pval -> string) (x es : list (pval * Z)) (width : Z) (lines : list string) : Prop :=
  let w := longest (map (fun e => text (fst e)) es) in
  Forall2 (fun e line => row w (Z.max 0 (width - w)) (inject_Z (snd e) / inject_Z (total x)) (text (fst e)) line) es lines.

(** ** Texts that read as numbers: digits, perhaps with a sign before and decimals
    after; a line feed at the end does not count. *)
Definition digit_text (s : string) : Prop :=
  s <> ""%string /\ Forall (fun a => In a (list_ascii_of_string "0123456789")) (list_ascii_of_string s).
Inductive number_text : string -> Prop :=
| number_text_intro sign ds decimals feed :
    sign = ""%string \/ sign = "-"%string -> digit_text ds ->
    decimals = ""%string \/ (exists f, digit_text f /\ decimals = String "." f) ->
    feed = ""%string \/ feed = String "010" "" ->
    number_text (sign ++ ds ++ decimals ++ feed)%string.
