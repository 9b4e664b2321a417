(** Model of output.py, and of the standard deviation that it prints
    (randvar.py).  Texts are bytes: the characters outside ASCII are in UTF-8.
    Simplification: the width of a text is its number of bytes, which is its
    number of characters when labels are ASCII. *)
From Coq Require Import String Ascii List ZArith Bool.
From Verif Require Import PyBase Num Val RVModel OutModel UtilModel Obj.
Import ListNotations.
Open Scope string_scope.
Open Scope Z_scope.

(** ** Floats as Python rounds and writes them *)

(** [m * 2^e * 100] as the nearest integer, ties to even (the dtoa of CPython). *)
Definition hundredths (m e : Z) : Z :=
  let k := if e <? 0 then div_half_even (100 * Z.abs m) (2 ^ (- e)) else shl (100 * Z.abs m) e in
  Z.sgn m * k.

(** [round(x, 2)]: to decimal digits and back to the nearest double; an int stays
    an int. *)
Definition round2 (a : num) : res num :=
  match a with
  | NI z => Ok (NI z)
  | NF m e => fround (hundredths m e) 100 OverflowErr
  end.

(** [f"{x:.2f}"] for x >= 0 *)
Definition fixed2 (a : num) : string :=
  let k := match a with NI z => 100 * z | NF m e => hundredths m e end in
  str_of_Z (k / 100) ++ "." ++ str_of_Z (k mod 100 / 10) ++ str_of_Z (k mod 10).

(** [s * n] and [f"{s:>{n}}"] *)
Definition times (s : string) (n : Z) : string := String.concat "" (repeat s (Z.to_nat n)).
Definition pad_left (n : Z) (s : string) : string := times " " (n - Z.of_nat (String.length s)) ++ s.

(** [math.sqrt] of a float >= 0: the nearest double.  With 2^(2k) taken out and at
    least 108 bits left, a root that is no integer is rounded like any number
    between its integer neighbours. *)
Definition fsqrt (m e : Z) : res num :=
  let s := Z.max 0 (109 - Z.log2 m) in
  let s := if Z.even (e - s) then s else s + 1 in
  let n := shl m s in
  let k := (e - s) / 2 in
  let r := Z.sqrt n in
  if r * r =? n then fround_dy r k Unmodelled else fround_dy (2 * r + 1) (k - 1) Unmodelled.

Section Printing.
  Variable c : cfg.
  (** the text of labels, see OutModel.v *)
  Variable show : sval -> string.
  (** [str] of a float, given also whether its sign bit is set (-0.0) *)
  Variable ftext : bool -> num -> string.
  (** [x ** 2] for floats, by libm's pow *)
  Variable square : num -> res num.

  (** randvar.py 125-132.  [None] when the weights are all 0. *)
  Definition rv_std (x : dist) : res (option num) :=
    if sum_probs x =? 0 then Ok None
    else
      x2 <- rv_op_const c OPow x (vint 2) ;;
      ex2 <- rv_mean (rv_dist x2) ;;
      ex <- rv_mean x ;;
      match ex2, ex with
      | Some ex2, Some ex =>
          q <- match ex with NI z => Ok (NI (z ^ 2)) | NF _ _ => square ex end ;;
          var <- nsub ex2 q ;;
          if nleb (NI 0) var then v <- to_float var ;; s <- fsqrt (mant v) (expo v) ;; Ok (Some s)
          else Ok (Some (NI 0))
      | _, _ => Err AssertErr
      end.

  Definition num_text (negative : bool) (a : num) : string :=
    match a with NI z => str_of_Z z | NF _ _ => ftext negative a end.

  (** output.py 24, 26: a mean or standard deviation, rounded; [None] as it is *)
  Definition rounded_text (a : option num) : res string :=
    match a with
    | None => Ok "None"
    | Some a => r <- round2 a ;; Ok (num_text (mant a <? 0) r)
    end.

  (** output.py 22-29.  Any exception gives NaN; what is not modelled stays so. *)
  Definition summary (x : dist) : res string :=
    match (m <- rv_mean x ;; m <- rounded_text m ;; s <- rv_std x ;; s <- rounded_text s ;; Ok (m ++ " ± " ++ s)) with
    | Ok t => Ok t
    | Err Unmodelled => Err Unmodelled
    | Err _ => Ok "NaN ± NaN"
    end.

  (** output.py 33: [str(v)] of a reported outcome *)
  Definition shown_text (v : shown) : string :=
    match v with ShN n => num_text (mant n <? 0) n | ShS s => s end.

  (** [round(x)] of a float: an int *)
  Definition round_int (a : num) : Z :=
    match a with
    | NI z => z
    | NF m e => if e <? 0 then Z.sgn m * div_half_even (Z.abs m) (2 ^ (- e)) else shl m e
    end.

  (** output.py 36, one line *)
  Definition bar_line (w blocks : Z) (vp : shown * num) : res string :=
    pct <- nmul (NI 100) (snd vp) ;;
    b <- nmul (snd vp) (NI blocks) ;;
    Ok (pad_left w (shown_text (fst vp)) ++ ": " ++ pad_left 5 (fixed2 pct) ++ "  " ++ times "█" (round_int b)).

  Definition newline : string := String "010" "".

  (** output.py 32-37.  [max] of nothing is a ValueError. *)
  Definition pdf_text (x : dist) (width : Z) (cdf_cut : num) : res string :=
    cut <- ntruediv cdf_cut (NI 100) ;;
    vp <- get_vals_probs show x cut ;;
    match vp with
    | [] => Err ValueErr
    | _ =>
        let w := fold_right Z.max 0 (map (fun e => Z.of_nat (String.length (shown_text (fst e)))) vp) in
        let blocks := Z.max 0 (width - w) in
        ls <- mapM (bar_line w blocks) vp ;;
        Ok (String.concat "" (map (append newline) ls) ++ newline ++ times "-" (width + 8))
    end.

  Definition title (named : option string) : string :=
    match named with Some n => n ++ " " | None => "" end.

  (** output.py 18-37 *)
  Definition report_rv (x : dist) (named : option string) (show_pdf : bool) (width : Z) (cdf_cut : num) : res string :=
    s <- summary x ;;
    p <- (if show_pdf then pdf_text x width cdf_cut else Ok "") ;;
    Ok (title named ++ s ++ p).

  (** output.py 48-52 *)
  Definition report_blank (named : option string) (width : Z) : string :=
    title named ++ newline ++ times "-" (width + 8).

  (** output.py 8-16: the text for any object; [width] is blocks_width, or the
      setting DEFAULT_OUTPUT_WIDTH where it is None *)
  Definition report (default_width : Z) (o : obj) (named : option string) (show_pdf : bool)
      (width : option Z) (cdf_cut : num) : res string :=
    let w := match width with Some w => w | None => default_width end in
    match o with
    | OSeq [] | OSSeq [] | OBlank _ | ONone => Ok (report_blank named w)
    | _ => x <- get_rv c o ;; report_rv (rv_dist x) named show_pdf w cdf_cut
    end.

  (** output.py 38-45, 53-60: where the text goes *)
  Inductive delivered : Type :=
  | Returned (t : string)
  | Printed (by_default : bool) (t : string).   (* by the print function of the settings, or the one given *)
  Definition output (default_width : Z) (o : obj) (named : option string) (show_pdf : bool)
      (width : option Z) (print_ : bool) (print_fn : bool) (cdf_cut : num) : res delivered :=
    t <- report default_width o named show_pdf width cdf_cut ;;
    Ok (if print_ then Printed (negb print_fn) t else Returned t).
End Printing.
