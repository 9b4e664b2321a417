(** Model of the class StringVal of string_rvs.py, as an object with its two
    fields.  The other models keep only [data] (Val.v); LabelFacts.v shows that the
    operations agree. *)
From Coq Require Import String List ZArith Bool.
From Verif Require Import PyBase Num Sorting Val.
Import ListNotations.
Open Scope Z_scope.

(** lines 14-17: [keys] is a tuple, [data] a dict, in insertion order *)
Record label : Type := mkLabel { l_keys : list string; l_data : list (string * num) }.
(** [__init__]: the keys are sorted *)
Definition new_label (keys : list string) (pairs : list (string * num)) : label :=
  mkLabel (isort (leb_of String.compare) keys) pairs.
(** lines 19-29 *)
Definition from_const (n : num) : label := new_label [CONST_COEF] [(CONST_COEF, n)].
Definition from_str (s : string) : label := new_label [s] [(s, NI 1)].
Definition from_pairs (d : list (string * num)) : label := new_label (map fst d) d.

(** [d.get(k)], and [d[k] = v] *)
Fixpoint lookup (d : list (string * num)) (k : string) : option num :=
  match d with
  | [] => None
  | (k', v) :: d' => if String.eqb k' k then Some v else lookup d' k
  end.
Fixpoint store (d : list (string * num)) (k : string) (v : num) : list (string * num) :=
  match d with
  | [] => [(k, v)]
  | (k', v') :: d' => if String.eqb k' k then (k', v) :: d' else (k', v') :: store d' k v
  end.

(** lines 35-41: a label plus a label *)
Definition label_add (a b : label) : res label :=
  d <- foldM (fun d kv =>
         n <- nadd (match lookup d (fst kv) with Some v => v | None => NI 0 end) (snd kv) ;;
         Ok (store d (fst kv) n)) (l_data a) (l_data b) ;;
  Ok (from_pairs d).
(** lines 35-44: a label plus a number, a number plus a label *)
Definition label_add_num (a : label) (n : num) : res label := label_add a (from_const n).

(** [d1 == d2] of dicts: as many entries, and every entry of one is in the other *)
Definition dict_eq (d1 d2 : list (string * num)) : bool :=
  Nat.eqb (length d1) (length d2) &&
  forallb (fun kv => match lookup d2 (fst kv) with Some w => neqb (snd kv) w | None => false end) d1.
(** [t1 == t2] of tuples of text *)
Fixpoint texts_eq (a b : list string) : bool :=
  match a, b with
  | [], [] => true
  | x :: a', y :: b' => String.eqb x y && texts_eq a' b'
  | _, _ => false
  end.
(** lines 75-85 *)
Definition label_eq (a b : label) : bool := texts_eq (l_keys a) (l_keys b) && dict_eq (l_data a) (l_data b).
Definition label_ne (a b : label) : bool := negb (texts_eq (l_keys a) (l_keys b)) || negb (dict_eq (l_data a) (l_data b)).

(** op.lt, op.le, op.gt, op.ge, given how the operands compare *)
Inductive order_op : Type := Olt | Ole | Ogt | Oge.
Definition op_holds (o : order_op) (c : comparison) : bool :=
  match o, c with
  | Olt, Lt | Ole, Lt | Ole, Eq | Ogt, Gt | Oge, Gt | Oge, Eq => true
  | _, _ => false
  end.

(** lines 87-97: the loop, at index [i] of both tuples of keys; [fuel] bounds the
    number of rounds, and [None] stands for a loop that has not ended by then or a
    key without data *)
Fixpoint compare_from (fuel : nat) (o : order_op) (a b : label) (i : nat) : option bool :=
  match fuel with
  | O => None
  | S fuel' =>
      if Nat.leb (length (l_keys a)) i || Nat.leb (length (l_keys b)) i
      then Some (op_holds o (Nat.compare (length (l_keys a)) (length (l_keys b))))
      else
        match nth_error (l_keys a) i, nth_error (l_keys b) i with
        | Some k, Some k' =>
            if negb (String.eqb k k') then Some (op_holds o (String.compare k k'))
            else
              match lookup (l_data a) k, lookup (l_data b) k' with
              | Some v, Some v' =>
                  if negb (neqb v v') then Some (op_holds o (ncmp v v'))
                  else compare_from fuel' o a b (S i)
              | _, _ => None
              end
        | _, _ => None
        end
  end.
Definition label_compare (o : order_op) (a b : label) : option bool :=
  compare_from (S (length (l_keys a))) o a b 0.
(** lines 98-99: [operator(float('inf'), other)] for a number [other], which is finite
    here *)
Definition label_compare_num (o : order_op) (a : label) (n : num) : bool := op_holds o Gt.
(** [n < label] and so on: a number does not know labels, so Python asks the label
    the mirrored question *)
Definition mirror (o : order_op) : order_op := match o with Olt => Ogt | Ole => Oge | Ogt => Olt | Oge => Ole end.
Definition num_compare_label (o : order_op) (n : num) (a : label) : bool := label_compare_num (mirror o) a n.

(** lines 101-102: what is hashed *)
Definition hash_input (a : label) : list string * list string := (l_keys a, map fst (l_data a)).

(** The labels a program can make *)
Inductive made : label -> Prop :=
| made_str s : made (from_str s)
| made_const n : made (from_const n)
| made_add a b c : made a -> made b -> label_add a b = Ok c -> made c.
