(** Outcome values: numbers and labels ([string_rvs.StringVal]). *)
From Coq Require Import List ZArith Bool String.
From Verif Require Import PyBase Num Sorting.
Import ListNotations.
Open Scope Z_scope.

(** string_rvs.py 14-17: a StringVal is a dict from label to coefficient.
    [self.data] is an insertion-ordered association list; [self.keys] is the
    sorted list of its keys and is not stored separately (all constructors keep
    keys = sorted(data.keys())). *)
Definition sval : Type := list (string * num).

Inductive pval : Type :=
| VN (n : num)
| VS (s : sval).

Definition vint (z : Z) : pval := VN (NI z).

(** string_rvs.py 11: [_CONST_COEF]. *)
Definition CONST_COEF : string := "_UNIQUE_STRING".

(** string_rvs.py 19-25: from_const, from_str *)
Definition s_const (n : num) : sval := [(CONST_COEF, n)].
Definition s_str (s : string) : sval := [(s, NI 1)].

(** the pairs (key, data[key]) in the order of [self.keys] (line 16) *)
Definition key_leb (a b : string * num) : bool := leb_of String.compare (fst a) (fst b).
Definition s_sorted (s : sval) : sval := isort key_leb s.

(** lexicographic comparison of two lists, the shorter one is smaller *)
Fixpoint lexcmp {A : Type} (cmp : A -> A -> comparison) (l1 l2 : list A) : comparison :=
  match l1, l2 with
  | [], [] => Eq
  | [], _ :: _ => Lt
  | _ :: _, [] => Gt
  | x :: l1', y :: l2' =>
      match cmp x y with Eq => lexcmp cmp l1' l2' | c => c end
  end.

Definition pair_cmp (a b : string * num) : comparison :=
  match String.compare (fst a) (fst b) with
  | Eq => ncmp (snd a) (snd b)
  | c => c
  end.

(** string_rvs.py 87-99 (_compare_to): walk both sorted key lists; at the first
    differing key compare the keys, at the first differing coefficient compare
    the coefficients, at the end of either compare the lengths.  As the walk
    stops at the end of the shorter one, "compare the lengths" is Lt/Eq/Gt as in
    [lexcmp]. *)
Definition scmp (a b : sval) : comparison := lexcmp pair_cmp (s_sorted a) (s_sorted b).

(** Order on all values: a number compares with a label as with +inf (line 99;
    [num < label] is answered by the reflected [label > num]).  Python [==]
    (lines 75-85: same keys and same data) is [vcmp = Eq]; see
    [LabelFacts.s_eq_python] for the dict-equality form. *)
Definition vcmp (a b : pval) : comparison :=
  match a, b with
  | VN x, VN y => ncmp x y
  | VN _, VS _ => Lt
  | VS _, VN _ => Gt
  | VS x, VS y => scmp x y
  end.

Definition veqb (a b : pval) : bool := match vcmp a b with Eq => true | _ => false end.
Definition vltb (a b : pval) : bool := match vcmp a b with Lt => true | _ => false end.
Definition vleb (a b : pval) : bool := match vcmp a b with Gt => false | _ => true end.

(** string_rvs.py 35-41 (__add__): [newdict[key] = newdict.get(key, 0) + val]. *)
Fixpoint s_get (d : sval) (k : string) : num :=
  match d with
  | [] => NI 0
  | (k', v) :: d' => if String.eqb k' k then v else s_get d' k
  end.
Fixpoint s_set (d : sval) (k : string) (v : num) : sval :=
  match d with
  | [] => [(k, v)]
  | (k', v') :: d' => if String.eqb k' k then (k', v) :: d' else (k', v') :: s_set d' k v
  end.
Definition s_add (a b : sval) : res sval :=
  foldM (fun d kv => n <- nadd (s_get d (fst kv)) (snd kv) ;; Ok (s_set d (fst kv) n)) a b.

(** The operators of randvar.py 264-336. *)
Inductive binop : Type :=
| OAdd | OSub | OMul | OFloorDiv | OTrueDiv | OPow | OMod
| OEq | ONe | OLt | OLe | OGt | OGe
| OOr | OAnd.

(** Truth value: StringVal defines neither __bool__ nor __len__, so it is true. *)
Definition vtruth (v : pval) : bool := match v with VN n => ntruth n | VS _ => true end.

Definition b01 (b : bool) : pval := vint (if b then 1 else 0).

Definition num_op (f : num -> num -> res num) (a b : pval) : res pval :=
  match a, b with
  | VN x, VN y => rmap VN (f x y)
  | _, _ => Err TypeErr   (* StringVal defines no other arithmetic *)
  end.

(** [x op y] on outcome values.  Comparison and boolean operators are the
    lambdas of randvar.py 307-336, returning 1 or 0. *)
Definition vop (op : binop) (a b : pval) : res pval :=
  match op with
  | OAdd =>
      match a, b with
      | VN x, VN y => rmap VN (nadd x y)
      | VS x, VS y => rmap VS (s_add x y)
      | VS x, VN y => rmap VS (s_add x (s_const y))
      | VN x, VS y => rmap VS (s_add y (s_const x))     (* __radd__ *)
      end
  | OSub => num_op nsub a b
  | OMul => num_op nmul a b
  | OFloorDiv => num_op nfloordiv a b
  | OTrueDiv => num_op ntruediv a b
  | OPow => num_op npow a b
  | OMod => num_op nmod a b
  | OEq => Ok (b01 (veqb a b))
  | ONe => Ok (b01 (negb (veqb a b)))
  | OLt => Ok (b01 (vltb a b))
  | OLe => Ok (b01 (vleb a b))
  | OGt => Ok (b01 (vltb b a))
  | OGe => Ok (b01 (vleb b a))
  | OOr => Ok (b01 (vtruth a || vtruth b))
  | OAnd => Ok (b01 (vtruth a && vtruth b))
  end.

(** [int(v)]; a StringVal raises TypeError. *)
Definition vtrunc (v : pval) : res pval :=
  match v with VN n => Ok (vint (ntrunc n)) | VS _ => Err TypeErr end.

(** unary number functions applied to a value; StringVal raises TypeError *)
Definition vnum1 (f : num -> res num) (v : pval) : res pval :=
  match v with VN n => rmap VN (f n) | VS _ => Err TypeErr end.

Definition v_is_int (v : pval) : bool := match v with VN n => is_int n | VS _ => false end.

(** Whether two objects are the same dict/set key: [==] and the same hash.
    Numbers that compare equal hash alike.  string_rvs.py 101-102: the hash of a
    StringVal covers the keys in insertion order ([tuple(self.data)]), so equal
    labels with different insertion orders are different keys (hash collisions
    between different tuples are not modelled; [OpFacts.conv_any_dict] shows
    that the results do not depend on this). *)
Fixpoint str_list_eqb (a b : list string) : bool :=
  match a, b with
  | [], [] => true
  | x :: a', y :: b' => String.eqb x y && str_list_eqb a' b'
  | _, _ => false
  end.
Definition dict_same (a b : pval) : bool :=
  veqb a b &&
  match a, b with
  | VS x, VS y => str_list_eqb (map fst x) (map fst y)
  | _, _ => true
  end.
