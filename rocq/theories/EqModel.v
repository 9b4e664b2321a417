(** Model of the two functions that compare values as a whole, of hashing dice, and of
    finding dice in lists and dictionaries. *)
From Coq Require Import String List ZArith Bool.
From Verif Require Import PyBase Num Val RVModel Obj DispModel CastModel LibModel.
Import ListNotations.
Open Scope Z_scope.

(** ** randvar.py 391-399: dices_are_equal *)

(** [isinstance(d, BlankRV)] *)
Definition is_blank_rv (o : obj) : bool := match o with OBlank _ => true | _ => false end.

(** lines 395-398: numbers and iterables become the die of the list of that one
    value.  A label (StringVal) is neither. *)
Definition to_die (c : cfg) (o : obj) : res obj :=
  match o with
  | OV (VN _) | OStr _ | OSeq _ | OSSeq _ | OIter _ => rmap ORV (from_iter c [o])
  | OV (VS _) | ORV _ | OBlank _ | ONone => Ok o
  end.

(** the attributes [vals] and [probs] of line 399 *)
Definition dist_of (o : obj) : res dist := match o with ORV x => Ok (rv_dist x) | _ => Err AttrErr end.

Definition dices_are_equal (c : cfg) (a b : obj) : res bool :=
  if is_blank_rv a || is_blank_rv b then Ok (is_blank_rv a && is_blank_rv b)
  else
    a <- to_die c a ;; b <- to_die c b ;;
    x <- dist_of a ;; y <- dist_of b ;; Ok (dists_equal x y).

(** ** seq.py 159-166: seqs_are_equal *)

(** lines 162-165 *)
Definition to_seq (o : obj) : res obj :=
  match o with OSeq _ | OSSeq _ => Ok o | _ => mk_seq [o] end.

Definition seqs_are_equal (a b : obj) : res bool :=
  assert_ (negb (is_meta_rv a) && negb (is_meta_rv b))
    (a <- to_seq a ;; b <- to_seq b ;; Ok (list_eqb veqb (seq_entries a) (seq_entries b))).

(** ** Hashes and keys *)
Section Keys.
  (** [hash] of a number or label, and of a tuple with elements of given hashes *)
  Variable hash : pval -> Z.
  Variable hash_tuple : list Z -> Z.

  (** randvar.py 345-346 *)
  Definition rv_hash (x : dist) : Z :=
    hash_tuple [hash_tuple (map hash (vals x)); hash_tuple (map (fun p => hash (vint p)) (probs x))].

  (** Whether a list with the one element [y] contains [x]: the same object, or
      [y == x] is true (randvar.py 307-308, 338-339). *)
  Definition in_list (c : cfg) (same : bool) (x y : rv) : res bool :=
    if same then Ok true else e <- py_op c OEq (ORV y) (ORV x) ;; truth e.

  (** Whether a dictionary with the one key [y] has the key [x]: the same object, or
      the hashes agree and [y == x] is true. *)
  Definition has_key (c : cfg) (same : bool) (x y : rv) : res bool :=
    if same then Ok true
    else if rv_hash (rv_dist x) =? rv_hash (rv_dist y) then e <- py_op c OEq (ORV y) (ORV x) ;; truth e
    else Ok false.
End Keys.
