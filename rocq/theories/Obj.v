(** The objects a user passes around, and factory.py / utils.flatten. *)
From Coq Require Import Ascii String List ZArith Bool.
From Verif Require Import PyBase Num Val RVModel.
Import ListNotations.
Open Scope Z_scope.

(** Numbers and labels ([OV]; bool is the integer 0 or 1), text, sequences
    (seq.Seq), label sequences (string_rvs.StringSeq), any other iterable (list,
    tuple, range, ...), dice, blanks (with their [_special_null] flag), None.
    Sequences with [set_one_indexed(False)] are in BaseModel.v; iterators that can
    be consumed only once are not modelled. *)
Inductive obj : Type :=
| OV (v : pval)
| OStr (s : string)
| OSeq (l : list pval)
| OSSeq (l : list pval)
| OIter (l : list obj)
| ORV (x : rv)
| OBlank (special : bool)
| ONone.

Definition oint (z : Z) : obj := OV (vint z).

(** utils.py 10-20: flatten.  RV and BlankRV define no [__iter__]. *)
Fixpoint flat1 (o : obj) : list obj :=
  match o with
  | OIter l => flat_map flat1 l
  | OSeq l | OSSeq l => map OV l
  | o => [o]
  end.
Definition flatten (l : list obj) : list obj := flat_map flat1 l.

(** [isinstance(x, MetaRV)] *)
Definition is_meta_rv (o : obj) : bool := match o with ORV _ | OBlank _ => true | _ => false end.
(** [isinstance(x, Iterable)]; a str is one too *)
Definition is_iterable (o : obj) : bool :=
  match o with OIter _ | OSeq _ | OSSeq _ | OStr _ => true | _ => false end.
Definition is_meta_seq (o : obj) : bool := match o with OSeq _ | OSSeq _ => true | _ => false end.

(** the outcomes of the dice among the leaves *)
Definition rv_leaf_vals (o : obj) : list pval := match o with ORV x => vals (rv_dist x) | _ => [] end.

(** a leaf as an entry; [None] for the Python value None (and, to be total, for
    anything that is not a leaf).  A str becomes a label, string_rvs.py 109-111. *)
Definition leaf_val (o : obj) : option pval :=
  match o with OV v => Some v | OStr s => Some (VS (s_str s)) | _ => None end.

Definition is_number (v : pval) : bool := match v with VN _ => true | VS _ => false end.
Definition is_label_leaf (o : obj) : bool := match o with OV (VS _) | OStr _ => true | _ => false end.
Definition is_number_leaf (o : obj) : bool := match o with OV (VN _) => true | _ => false end.

Fixpoint all_some {A : Type} (l : list (option A)) : option (list A) :=
  match l with
  | [] => Some []
  | Some a :: l' => option_map (cons a) (all_some l')
  | None :: _ => None
  end.

(** factory.py 14-26: get_seq of its argument tuple.  The result is a Seq or a
    StringSeq; a StringSeq containing None is not modelled. *)
Definition get_seq (src : list obj) : res obj :=
  let flat := flatten src in
  let res_ := filter (fun o => negb (is_meta_rv o)) flat ++ map OV (flat_map rv_leaf_vals flat) in
  if existsb is_label_leaf res_ then
    match all_some (map leaf_val res_) with
    | Some l => Ok (OSSeq l)
    | None => Err Unmodelled
    end
  else
    assert_ (forallb is_number_leaf res_)
      (match all_some (map leaf_val res_) with
       | Some l => Ok (OSeq l)
       | None => Err AssertErr
       end).

(** seq.py 11-22: Seq of its argument tuple.  Labels are admitted only as
    outcomes of dice. *)
Definition mk_seq (src : list obj) : res obj :=
  let flat := flatten src in
  let flat_else := filter (fun o => negb (is_meta_rv o)) flat in
  assert_ (forallb is_number_leaf flat_else)
    (match all_some (map leaf_val flat_else) with
     | Some l => Ok (OSeq (l ++ flat_map rv_leaf_vals flat))
     | None => Err AssertErr
     end).

(** seq.py 24-27: the sum of a Seq *)
Definition seq_sum (l : list pval) : res pval := foldM (vop OAdd) (vint 0) l.

(** [x.sum()]; StringSeq.__init__ does not set [_sum] (string_rvs.py 105-112) *)
Definition meta_sum (o : obj) : res pval :=
  match o with
  | OSeq l => seq_sum l
  | OSSeq _ => Err AttrErr
  | _ => Err AttrErr
  end.

(** the entries of a sequence ([x._seq], also [tuple(x)]) *)
Definition seq_entries (o : obj) : list pval := match o with OSeq l | OSSeq l => l | _ => [] end.

(** randvar.py 83-88: RV.from_seq of an iterable that is not a Seq is
    [from_seq(get_seq( *s ))] *)
Definition from_iter (c : cfg) (l : list obj) : res rv :=
  s <- get_seq l ;; from_seq c (seq_entries s).

(** [tuple(s)] for a str: its characters.  Simplified: characters of 8 bits *)
Definition letters (s : string) : list obj :=
  map (fun a => OStr (String a EmptyString)) (list_ascii_of_string s).

(** factory.py 29-35: get_rv.  A str is iterable: it is spread into its
    characters; a label is not. *)
Definition get_rv (c : cfg) (o : obj) : res rv :=
  match o with
  | OV (VN n) => from_const c (VN n)
  | OV (VS _) => Err AssertErr
  | OSeq l | OSSeq l => from_seq c l
  | OIter l => from_iter c l
  | OStr s => from_iter c (letters s)
  | ORV x => Ok x
  | OBlank _ | ONone => Err AssertErr
  end.
