(** What a report about a refused text should say, without the compiler. *)
From Coq Require Import String Ascii Bool List Arith Sorted.
From Verif Require Import PyBase LexModel LexSpec SynSpec ReportModel.
Import ListNotations.
Open Scope list_scope.

(** Line and column of a position of a text, both from 1, as an editor shows them. *)
Fixpoint walk (s : string) (n line col : nat) : nat * nat :=
  match n, s with
  | S n', String c s' => if Ascii.eqb c cNL then walk s' n' (S line) 1 else walk s' n' line (S col)
  | _, _ => (line, col)
  end.
Definition line_of (s : string) (n : nat) : nat := fst (walk s n 1 1).
Definition column_of (s : string) (n : nat) : nat := snd (walk s n 1 1).

(** The text has [v] at position [n]. *)
Definition found_at (s : string) (n : nat) (v : string) : Prop :=
  exists a b, s = (a ++ v ++ b)%string /\ String.length a = n.

(** Some program begins with these tokens. *)
Definition begins (a : list tok) : Prop := exists p rest, wf p = true /\ toks p = a ++ rest.

Definition a_program (a : list tok) : Prop := exists p, wf p = true /\ toks p = a.

(** The tokens at fault.  Reading goes on as long as what has been read begins a
    program; the token that ends this is at fault and is left out, and what follows is
    read as a new program.  The first such token is reported; a later one is reported if
    at least three tokens have been read since the one before. *)
Inductive faults {A : Set} : bool -> list (tok * A) -> list (tok * A) -> Prop :=
| faults_none first ts : begins (map fst ts) -> faults first ts []
| faults_some first a t b es :
    begins (map fst a) -> ~ begins (map fst a ++ [fst t]) -> faults false b es ->
    faults first (a ++ t :: b) ((if first || Nat.leb 3 (List.length a) then [t] else []) ++ es).

(** Newlines inside a comment, and newlines that break a string, are not counted. *)
Definition uncounted (p : piece) : nat :=
  match p with
  | Skipped (String c s) => if Ascii.eqb c cBACK then newlines (String c s) else 0
  | Illegal c => if Ascii.eqb c cNL then 1 else 0
  | _ => 0
  end.
Definition all_uncounted (ps : list piece) : nat := list_sum (map uncounted ps).

(** An entry for a character that can begin nothing: the character, where it stands, its
    column, and its line except for the newlines that are not counted. *)
Definition illegal_entry (src : string) (ps : list piece) (e : entry) : Prop :=
  exists a c b, ps = a ++ Illegal c :: b /\ e_value e = String c EmptyString /\
    e_pos e = String.length (whole_text a) /\ e_col e = column_of src (e_pos e) /\
    line_of src (e_pos e) = e_line e + all_uncounted a.

(** An entry for a string that is still open at the end of the text. *)
Definition open_entry (src : string) (ps : list piece) (e : entry) : Prop :=
  e_value e = "Non-closed string"%string /\ e_pos e = String.length src /\
  e_col e = column_of src (e_pos e) /\ line_of src (e_pos e) = e_line e + all_uncounted ps.

Definition in_order (l : list entry) : Prop := Sorted.StronglySorted (fun a b => e_pos a < e_pos b) l.

Definition no_comments (src : string) : Prop := ~ In cBACK (chars src).

(** The two shapes of C77. *)
Definition crash_shape (ts : list tok) : Prop :=
  (exists pre post, ts = pre ++ [kwt kFunction; colon; (tLBRACE, "{"%string)] ++ post) \/
  (exists pre cs post, ts = pre ++ (tLBRACKET, "["%string) :: toks_t (TCall cs) ++ post).
