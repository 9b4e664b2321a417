(** Python's regular expressions, as far as the code uses them: how the text of a
    pattern is read and what [pattern.match] finds (Python 3.9, library reference,
    module re).  The code writes its tokens and one test on labels as patterns
    (src/parser/myparser.py lines 40-113, src/string_rvs.py line 33).

    Simplifications: what the code does not use is refused (repetition counts in braces,
    look-around, flags inside of patterns, back references, letters as escapes other than
    d and n); an iteration of a repetition that reads nothing is not made. *)
From Coq Require Import String Ascii Bool List Arith.
Import ListNotations.
Open Scope string_scope.

(** ** Patterns *)

Inductive citem := CChar (c : ascii) | CRange (lo hi : ascii) | CDigit.

Inductive re :=
| REmpty
| RChar (c : ascii)                       (* a character that stands for itself *)
| RAny                                    (* . *)
| RIn (neg : bool) (l : list citem)       (* [...] and [^...] *)
| RBegin                                  (* ^ *)
| REnd                                    (* $ *)
| RCat (a b : re)
| RAlt (a b : re)                         (* a|b *)
| RStar (greedy : bool) (a : re)          (* a* and a*? *)
| RGroup (i : nat) (a : re).              (* (...), the groups counted from 1 *)

(** ** Matching *)

Definition newline_char : ascii := "010".

Definition in_item (c : ascii) (i : citem) : bool :=
  match i with
  | CChar x => Ascii.eqb c x
  | CRange lo hi => Nat.leb (nat_of_ascii lo) (nat_of_ascii c) && Nat.leb (nat_of_ascii c) (nat_of_ascii hi)
  | CDigit => Nat.leb 48 (nat_of_ascii c) && Nat.leb (nat_of_ascii c) 57
  end.
Definition in_class (neg : bool) (l : list citem) (c : ascii) : bool := xorb neg (existsb (in_item c) l).

(** Where a match stands: the position, the rest of the text, and the group that was
    closed last ([lastindex]). *)
Record spot := mkSpot { sp_pos : nat; sp_rest : string; sp_last : option nat }.

Definition one (p : ascii -> bool) (x : spot) : list spot :=
  match sp_rest x with
  | String c s => if p c then [mkSpot (S (sp_pos x)) s (sp_last x)] else []
  | EmptyString => []
  end.

Definition progress (x y : spot) : bool := Nat.ltb (String.length (sp_rest y)) (String.length (sp_rest x)).

(** All ways to match, in the order in which they are tried: the left alternative
    before the right one, a greedy repetition as often as possible first, a lazy one as
    seldom as possible. *)
Fixpoint loop (greedy : bool) (body : spot -> list spot) (n : nat) (x : spot) : list spot :=
  match n with
  | O => [x]
  | S n' =>
      let more := flat_map (loop greedy body n') (filter (progress x) (body x)) in
      if greedy then more ++ [x] else x :: more
  end.

Fixpoint ways (r : re) (x : spot) : list spot :=
  match r with
  | REmpty => [x]
  | RChar c => one (Ascii.eqb c) x
  | RAny => one (fun d => negb (Ascii.eqb d newline_char)) x
  | RIn neg l => one (in_class neg l) x
  | RBegin => if Nat.eqb (sp_pos x) 0 then [x] else []
  | REnd => match sp_rest x with
            | EmptyString => [x]
            | String c EmptyString => if Ascii.eqb c newline_char then [x] else []
            | _ => []
            end
  | RCat a b => flat_map (ways b) (ways a x)
  | RAlt a b => ways a x ++ ways b x
  | RStar greedy a => loop greedy (ways a) (String.length (sp_rest x)) x
  | RGroup i a => map (fun y => mkSpot (sp_pos y) (sp_rest y) (Some i)) (ways a x)
  end.

Fixpoint drop (n : nat) (s : string) : string :=
  match n, s with
  | S n', String _ s' => drop n' s'
  | _, _ => s
  end.
Fixpoint take (n : nat) (s : string) : string :=
  match n, s with
  | S n', String c s' => String c (take n' s')
  | _, _ => EmptyString
  end.

(** [pattern.match(text, pos)]: the end of the match, the matched text, [lastindex]. *)
Record rmatch := mkMatch { m_end : nat; m_group : string; m_last : option nat }.
Definition re_match (r : re) (text : string) (pos : nat) : option rmatch :=
  match ways r (mkSpot pos (drop pos text) None) with
  | [] => None
  | y :: _ => Some (mkMatch (sp_pos y) (take (sp_pos y - pos) (drop pos text)) (sp_last y))
  end.

(** ** Reading the text of a pattern *)

(** blanks outside of classes, which the flag VERBOSE drops together with what follows
    a number sign *)
Definition is_blank (c : ascii) : bool :=
  existsb (fun n => Nat.eqb (nat_of_ascii c) n) [9; 10; 11; 12; 13; 32].

Fixpoint skip_line (s : string) : string :=
  match s with
  | EmptyString => EmptyString
  | String c s' => if Ascii.eqb c newline_char then s' else skip_line s'
  end.

Definition is_letter_or_digit (c : ascii) : bool :=
  let n := nat_of_ascii c in
  (Nat.leb 48 n && Nat.leb n 57) || (Nat.leb 65 n && Nat.leb n 90) || (Nat.leb 97 n && Nat.leb n 122).

(** after a backslash *)
Definition escape (c : ascii) : option citem :=
  if Ascii.eqb c "d" then Some CDigit
  else if Ascii.eqb c "n" then Some (CChar newline_char)
  else if is_letter_or_digit c then None
  else Some (CChar c).

(** one member of a class *)
Definition class_char (s : string) : option (citem * string) :=
  match s with
  | EmptyString => None
  | String c s' =>
      if Ascii.eqb c "\" then
        match s' with
        | String d r => match escape d with Some i => Some (i, r) | None => None end
        | EmptyString => None
        end
      else Some (CChar c, s')
  end.

(** the members of a class up to its closing bracket; a closing bracket that comes first
    is a member *)
Fixpoint class_items (fuel : nat) (first : bool) (s : string) : option (list citem * string) :=
  match fuel with
  | O => None
  | S f =>
      match s with
      | EmptyString => None
      | String c s' =>
          if Ascii.eqb c "]" && negb first then Some ([], s')
          else match class_char s with
               | None => None
               | Some (i, r) =>
                   match r with
                   | String m (String e r') =>
                       if Ascii.eqb m "-" && negb (Ascii.eqb e "]") then
                         match i, class_char (String e r') with
                         | CChar lo, Some (CChar hi, r2) =>
                             match class_items f false r2 with
                             | Some (l, r3) => Some (CRange lo hi :: l, r3)
                             | None => None
                             end
                         | _, _ => None
                         end
                       else match class_items f false r with
                            | Some (l, r3) => Some (i :: l, r3)
                            | None => None
                            end
                   | _ => None
                   end
               end
      end
  end.

Fixpoint group_name (s : string) : option (string * string) :=
  match s with
  | EmptyString => None
  | String c s' =>
      if Ascii.eqb c ">" then Some (EmptyString, s')
      else match group_name s' with Some (n, r) => Some (String c n, r) | None => None end
  end.

(** what can be repeated *)
Definition repeatable (r : re) : bool :=
  match r with RBegin | REnd | RStar _ _ | REmpty => false | _ => true end.

Fixpoint cat (l : list re) : re :=
  match l with [] => REmpty | [r] => r | r :: l' => RCat r (cat l') end.

(** one alternative: [items] are the parts read so far, the last one first; [gi] is the
    number of the last group opened, [names] the named groups *)
Record reading := mkReading { r_re : re; r_groups : nat; r_names : list (string * nat); r_rest : string }.

Definition repeat_mark (c : ascii) : bool := Ascii.eqb c "*" || Ascii.eqb c "+" || Ascii.eqb c "?".

Definition repeated (c : ascii) (greedy : bool) (a : re) : re :=
  if Ascii.eqb c "*" then RStar greedy a
  else if Ascii.eqb c "+" then RCat a (RStar greedy a)
  else if greedy then RAlt a REmpty else RAlt REmpty a.

Fixpoint read_alt (verbose : bool) (fuel : nat) (gi : nat) (names : list (string * nat)) (s : string) : option reading :=
  match fuel with
  | O => None
  | S f =>
      match read_items verbose f [] false gi names s with
      | Some (mkReading a gi' names' (String c r)) =>
          if Ascii.eqb c "|" then
            match read_alt verbose f gi' names' r with
            | Some (mkReading b gi2 names2 r2) => Some (mkReading (RAlt a b) gi2 names2 r2)
            | None => None
            end
          else Some (mkReading a gi' names' (String c r))
      | x => x
      end
  end
(* [done]: the last item is a repetition and cannot be repeated again *)
with read_items (verbose : bool) (fuel : nat) (items : list re) (done : bool) (gi : nat) (names : list (string * nat)) (s : string)
    : option reading :=
  match fuel with
  | O => None
  | S f =>
      match s with
      | EmptyString => Some (mkReading (cat (rev items)) gi names EmptyString)
      | String c s' =>
          if Ascii.eqb c "|" || Ascii.eqb c ")" then Some (mkReading (cat (rev items)) gi names s)
          else if verbose && is_blank c then read_items verbose f items done gi names s'
          else if verbose && Ascii.eqb c "#" then read_items verbose f items done gi names (skip_line s')
          else if Ascii.eqb c "{" then None
          else if repeat_mark c then
            match items with
            | a :: items' =>
                if repeatable a && negb done then
                  match s' with
                  | String q s2 =>
                      if Ascii.eqb q "?" then read_items verbose f (repeated c false a :: items') true gi names s2
                      else read_items verbose f (repeated c true a :: items') true gi names s'
                  | EmptyString => read_items verbose f (repeated c true a :: items') true gi names s'
                  end
                else None
            | [] => None
            end
          else if Ascii.eqb c "." then read_items verbose f (RAny :: items) false gi names s'
          else if Ascii.eqb c "^" then read_items verbose f (RBegin :: items) false gi names s'
          else if Ascii.eqb c "$" then read_items verbose f (REnd :: items) false gi names s'
          else if Ascii.eqb c "\" then
            match s' with
            | String d s2 =>
                match escape d with
                | Some (CChar x) => read_items verbose f (RChar x :: items) false gi names s2
                | Some i => read_items verbose f (RIn false [i] :: items) false gi names s2
                | None => None
                end
            | EmptyString => None
            end
          else if Ascii.eqb c "[" then
            let '(neg, s2) := match s' with
                              | String n r => if Ascii.eqb n "^" then (true, r) else (false, s')
                              | EmptyString => (false, s')
                              end in
            match class_items f true s2 with
            | Some (l, r) => read_items verbose f (RIn neg l :: items) false gi names r
            | None => None
            end
          else if Ascii.eqb c "(" then
            let opened :=
              match s' with
              | String q r =>
                  if Ascii.eqb q "?" then
                    match r with
                    | String p (String l r2) =>
                        if Ascii.eqb p "P" && Ascii.eqb l "<" then
                          match group_name r2 with
                          | Some (n, r3) => Some (names ++ [(n, S gi)], r3)%list
                          | None => None
                          end
                        else None
                    | _ => None
                    end
                  else Some (names, s')
              | EmptyString => None
              end in
            match opened with
            | Some (names', r) =>
                match read_alt verbose f (S gi) names' r with
                | Some (mkReading a gi' names2 (String e r2)) =>
                    if Ascii.eqb e ")" then read_items verbose f (RGroup (S gi) a :: items) false gi' names2 r2 else None
                | _ => None
                end
            | None => None
            end
          else read_items verbose f (RChar c :: items) false gi names s'
      end
  end.

(** [re.compile]: the pattern and the numbers of its named groups ([groupindex]) *)
Definition re_compile (verbose : bool) (s : string) : option (re * list (string * nat)) :=
  match read_alt verbose (2 * String.length s + 2) 0 [] s with
  | Some (mkReading r _ names EmptyString) => Some (r, names)
  | _ => None
  end.
