(** Model of roller.py. *)
From Coq Require Import String Ascii List ZArith Bool.
From Verif Require Import PyBase Num Val RVModel UtilModel Obj.
Import ListNotations.
Open Scope Z_scope.

(** ** roller.py 81: _MEMOIZED_ROLLS, a dict from (n, d.vals, d.probs) to an RV.
    Two keys are the same dict key when the tuples are equal and hash alike. *)
Definition memo : Type := list ((Z * dist) * rv).
Definition key_same (k k' : Z * dist) : bool :=
  (fst k =? fst k') &&
  (list_eqb dict_same (vals (snd k)) (vals (snd k')) && list_eqb Z.eqb (probs (snd k)) (probs (snd k'))).
Fixpoint memo_get (m : memo) (k : Z * dist) : option rv :=
  match m with
  | [] => None
  | (k', r) :: m' => if key_same k' k then Some r else memo_get m' k
  end.

(** computations that read and extend the table; what was stored before an
    exception stays stored *)
Definition ST (A : Type) : Type := memo -> res A * memo.
Definition sret {A : Type} (a : A) : ST A := fun m => (Ok a, m).
Definition slift {A : Type} (r : res A) : ST A := fun m => (r, m).
Definition sbind {A B : Type} (x : ST A) (f : A -> ST B) : ST B :=
  fun m => match x m with (Ok a, m') => f a m' | (Err e, m') => (Err e, m') end.
Notation "x <~ e ;; f" := (sbind e (fun x => f))
  (at level 61, e at next level, right associativity) : py_scope.
Fixpoint smapM {A B : Type} (f : A -> ST B) (l : list A) : ST (list B) :=
  match l with
  | [] => sret []
  | x :: l' => y <~ f x ;; ys <~ smapM f l' ;; sret (y :: ys)
  end.

(** lines 91-92 and 98-99 around the computation of lines 93-97 *)
Definition memoised (k : Z * dist) (compute : ST rv) : ST rv :=
  fun m =>
    match memo_get m k with
    | Some r => (Ok r, m)
    | None =>
        match compute m with
        | (Ok r, m') => (Ok r, (k, r) :: m')
        | (Err e, m') => (Err e, m')
        end
    end.

(** lines 84-99 for n >= 1: [n // 2] and [n % 2] by the binary digits of n *)
Fixpoint roll_pos (c : cfg) (p : positive) (d : rv) : ST rv :=
  match p with
  | xH => sret d
  | xO q =>
      memoised (Zpos p, rv_dist d)
        (half <~ roll_pos c q d ;;
         full <~ slift (rv_op c OAdd (rv_dist half) (rv_dist half)) ;;
         sret (set_source full (Zpos p) (rv_dist d)))
  | xI q =>
      memoised (Zpos p, rv_dist d)
        (half <~ roll_pos c q d ;;
         full <~ slift (rv_op c OAdd (rv_dist half) (rv_dist half)) ;;
         full <~ slift (rv_op c OAdd (rv_dist full) (rv_dist d)) ;;
         sret (set_source full (Zpos p) (rv_dist d)))
  end.

(** lines 84-99: _roll_int_rv *)
Definition roll_int (c : cfg) (n : Z) (d : rv) : ST rv :=
  match n with
  | Z0 => slift (from_const c (vint 0))
  | Zpos p => roll_pos c p d
  | Zneg p => r <~ roll_pos c p d ;; slift (rv_neg c (rv_dist r))
  end.

(** lines 58-66: the die argument of _roll *)
Inductive die_arg : Type := DInt (z : Z) | DSeq (l : list pval) | DRV (x : rv).
Definition zrange (a b : Z) : list pval :=
  map (fun i => vint (a + Z.of_nat i)) (seq 0 (Z.to_nat (b - a))).
Definition to_die (c : cfg) (d : die_arg) : res rv :=
  match d with
  | DInt z =>
      if 0 <? z then from_seq c (zrange 1 (z + 1))
      else if z =? 0 then from_const c (vint 0)
      else from_seq c (zrange z 0)
  | DSeq l => from_seq c l
  | DRV x => Ok x
  end.

(** lines 68-78: the count argument of _roll, given the die as an RV.  The calls
    of roll inside have an int and an RV as arguments, for which roll is
    _roll_int_rv (the name given to the result is not part of this model, see
    NameModel.v). *)
Inductive count_arg : Type := CInt (n : Z) | CSeq (s : obj) | CRV (x : rv).
Definition int_of (v : pval) : option Z := match v with VN (NI z) => Some z | _ => None end.
Definition roll_count (c : cfg) (n : count_arg) (d : rv) : ST rv :=
  match n with
  | CInt n => roll_int c n d
  | CSeq s =>
      s <~ slift (meta_sum s) ;;
      match int_of s with
      | Some n => roll_int c n d
      | None => slift (Err AssertErr)
      end
  | CRV x =>
      match all_some (map int_of (vals (rv_dist x))) with
      | None => slift (Err AssertErr)
      | Some ns =>
          dies <~ smapM (fun n => roll_int c n d) ns ;;
          r <~ slift (from_rvs c (map MxRV dies) (probs (rv_dist x))) ;;
          match r with
          | Some r => sret (set_source r 1 (rv_dist d))
          | None => slift (Err Unmodelled)   (* no RV has an empty vals *)
          end
      end
  end.

(** lines 57-78: _roll *)
Definition roll_core (c : cfg) (n : count_arg) (d : die_arg) : ST rv :=
  d <~ slift (to_die c d) ;; roll_count c n d.

(** [s.split('d')] *)
Fixpoint split_d (l : list ascii) : list (list ascii) :=
  match l with
  | [] => [[]]
  | a :: l' =>
      match split_d l' with
      | w :: ws => if Ascii.eqb a "d" then [] :: w :: ws else (a :: w) :: ws
      | [] => [[a]]
      end
  end.

(** lines 102-107: _parse_from_str *)
Definition parse_roll (s : string) : res (Z * Z) :=
  match split_d (list_ascii_of_string s) with
  | [nm1; nm2] =>
      n <- (match nm1 with
            | [] => Ok 1
            | _ => match py_int (string_of_list_ascii nm1) with Some n => Ok n | None => Err ValueErr end
            end) ;;
      match py_int (string_of_list_ascii nm2) with
      | Some d => Ok (n, d)
      | None => Err ValueErr
      end
  | _ => Err ValueErr
  end.

(** ** lines 11-54: roll.  [d = None] is the missing argument.  A label or None
    as count or die, and a string die that is not converted, raise or are
    returned unchecked; they are not modelled. *)

(** lines 27-32 *)
Definition roll_args0 (n : obj) (d : option obj) : res (obj * option obj) :=
  match n, d with
  | OStr s, None => nd <- parse_roll s ;; Ok (oint (fst nd), Some (oint (snd nd)))
  | OStr s, Some _ => Err AssertErr
  | n, d => Ok (n, d)
  end.

(** lines 31-43 *)
Definition roll_args (n : obj) (d : option obj) : res (obj * obj) :=
  nd <- roll_args0 n d ;;
  let (n, d) := nd : obj * option obj in
  d <- (match d with
        | Some (OStr s) => rmap Some (get_seq [OIter [OStr s]])
        | d => Ok d
        end) ;;
  let (n, d) := match d with None => (oint 1, n) | Some d => (n, d) end in
  let n := match n with OV (VN (NF m e)) => oint (nceil (NF m e)) | n => n end in
  d <- (match d with OV (VN (NF m e)) => get_seq [d] | d => Ok d end) ;;
  d <- (match d with OIter l => get_seq l | d => Ok d end) ;;
  n <- (match n with OIter l => get_seq l | n => Ok n end) ;;
  Ok (n, d).

Definition as_count (o : obj) : option count_arg :=
  match o with
  | OV (VN (NI z)) => Some (CInt z)
  | OSeq l => Some (CSeq (OSeq l))
  | OSSeq l => Some (CSeq (OSSeq l))
  | ORV x => Some (CRV x)
  | _ => None
  end.
Definition as_die (o : obj) : option die_arg :=
  match o with
  | OV (VN (NI z)) => Some (DInt z)
  | OSeq l | OSSeq l => Some (DSeq l)
  | ORV x => Some (DRV x)
  | _ => None
  end.

(** lines 44-54 *)
Definition roll (c : cfg) (n : obj) (d : option obj) : ST obj :=
  nd <~ slift (roll_args n d) ;;
  let (n, d) := nd : obj * obj in
  match n, d with
  | _, OBlank _ => sret (OBlank false)
  | OBlank _, _ => sret (OBlank true)
  | _, OSeq [] | _, OSSeq [] => sret (OBlank false)
  | _, _ =>
      match as_count n, as_die d with
      | Some n, Some d => r <~ roll_core c n d ;; sret (ORV r)
      | _, _ => slift (Err Unmodelled)
      end
  end.
