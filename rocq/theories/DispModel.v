(** Model of Python's operators on numbers, sequences, dice and blanks: seq.py,
    blackrv.py, the dispatch of randvar.py 198-223 and the wrappers of
    utils.py 33-60.

    [a op b] calls [a.__op__(b)]; if that is NotImplemented it calls
    [b.__rop__(a)] (for comparisons the mirrored one, [b > a] for [a < b]).
    Below [None] stands for NotImplemented.  Not modelled ([Unmodelled]): text %
    anything (formatting), two iterables other than sequences, number * iterable
    (repetition), a label + anything but a number or label. *)
From Coq Require Import String Ascii List ZArith Bool.
From Verif Require Import PyBase Num Val RVModel UtilModel Obj AtModel.
Import ListNotations.
Open Scope Z_scope.

Definition is_cmp (o : binop) : bool :=
  match o with OEq | ONe | OLt | OLe | OGt | OGe => true | _ => false end.
Definition is_bool (o : binop) : bool := match o with OOr | OAnd => true | _ => false end.
(** the mirrored comparison *)
Definition mirror (o : binop) : binop :=
  match o with OLt => OGt | OLe => OGe | OGt => OLt | OGe => OLe | o => o end.

Definition nimpl : res (option obj) := Ok None.
Definition done (r : res obj) : res (option obj) := rmap Some r.

(** numbers and labels.  [|] and [&] are bitwise on ints (True and False count as
    1 and 0) and not defined on others. *)
Definition value_op (o : binop) (v w : pval) : res obj :=
  match o with
  | OOr => match v, w with VN (NI x), VN (NI y) => Ok (oint (Z.lor x y)) | _, _ => Err TypeErr end
  | OAnd => match v, w with VN (NI x), VN (NI y) => Ok (oint (Z.land x y)) | _, _ => Err TypeErr end
  | _ => rmap OV (vop o v w)
  end.

(** seq.py 155: entries against entries, [None] is the fill value -inf *)
Definition icmp (x y : option pval) : comparison :=
  match x, y with
  | None, None => Eq
  | None, Some _ => Lt
  | Some _, None => Gt
  | Some a, Some b => vcmp a b
  end.
Definition cmp_holds (o : binop) (c : comparison) : bool :=
  match o, c with
  | OEq, Eq | OLe, Eq | OGe, Eq => true
  | ONe, Lt | ONe, Gt => true
  | OLt, Lt | OLe, Lt => true
  | OGt, Gt | OGe, Gt => true
  | _, _ => false
  end.
Fixpoint zip_longest (l1 l2 : list pval) : list (option pval * option pval) :=
  match l1, l2 with
  | [], [] => []
  | x :: l1', [] => (Some x, None) :: zip_longest l1' []
  | [], y :: l2' => (None, Some y) :: (fix go l2 := match l2 with [] => [] | y :: l2' => (None, Some y) :: go l2' end) l2'
  | x :: l1', y :: l2' => (Some x, Some y) :: zip_longest l1' l2'
  end.
Definition all_hold (o : binop) (l1 l2 : list pval) : bool :=
  forallb (fun xy => cmp_holds o (icmp (fst xy) (snd xy))) (zip_longest l1 l2).
(** lines 150-155 *)
Definition entrywise (o : binop) (l1 l2 : list pval) : bool :=
  match o with ONe => negb (all_hold OEq l1 l2) | _ => all_hold o l1 l2 end.

(** line 157; None equals nothing and has no order *)
Definition count_holds (o : binop) (l : list pval) (other : obj) : res obj :=
  match other with
  | OV x => Ok (oint (Z.of_nat (length (filter (fun v => cmp_holds o (vcmp v x)) l))))
  | _ =>
      match o with
      | OEq => Ok (oint 0)
      | ONe => Ok (oint (Z.of_nat (length l)))
      | _ => match l with [] => Ok (oint 0) | _ => Err TypeErr end
      end
  end.

(** seq.py 147-157: _compare_to; [self] is a Seq or StringSeq *)
Definition compare_to (disp : binop -> obj -> obj -> res obj) (o : binop) (self other : obj) : res obj :=
  match other with
  | ORV _ | OBlank _ => s <- meta_sum self ;; disp o (OV s) other
  | OSeq l | OSSeq l => Ok (OV (b01 (entrywise o (seq_entries self) l)))
  | OIter l => s <- mk_seq l ;; Ok (OV (b01 (entrywise o (seq_entries self) (seq_entries s))))
  | OStr t => s <- mk_seq (letters t) ;; Ok (OV (b01 (entrywise o (seq_entries self) (seq_entries s))))
  | OV _ | ONone => count_holds o (seq_entries self) other
  end.

(** lines 135-145: the two truth values *)
Definition truth2 (o : binop) (a b : bool) : obj :=
  OV (b01 (match o with OOr => a || b | _ => a && b end)).
Definition nonzero (v : pval) : bool := negb (veqb v (vint 0)).

(** [__op__] and [__rop__] of a Seq; a StringSeq fails in [sum] *)
Definition seq_fwd (disp : binop -> obj -> obj -> res obj) (o : binop) (self other : obj) : res (option obj) :=
  if is_cmp o then done (compare_to disp o self other)
  else
    s <- meta_sum self ;;
    match is_bool o, other with
    | true, OV (VN n) => Ok (Some (truth2 o (nonzero s) (nonzero (VN n))))
    | _, _ => done (disp o (OV s) other)
    end.
Definition seq_rev (disp : binop -> obj -> obj -> res obj) (o : binop) (self other : obj) : res (option obj) :=
  s <- meta_sum self ;;
  match is_bool o, other with
  | true, OV (VN n) => Ok (Some (truth2 o (nonzero s) (nonzero (VN n))))
  | _, _ => done (disp o other (OV s))
  end.

(** the operations of randvar.py 264-336 on an outcome and None, in this order or the
    other: arithmetic and order fail, None is equal to nothing and counts as false *)
Definition none_op (o : binop) (v : pval) : res pval :=
  match o with
  | OEq => Ok (vint 0)
  | ONe => Ok (vint 1)
  | OOr | OAnd => vop o v (vint 0)
  | _ => Err TypeErr
  end.
(** randvar.py 201-213: _convolve *)
Definition convolve (c : cfg) (o : binop) (x : rv) (other : obj) : res (option obj) :=
  match other with
  | OBlank _ => nimpl
  | ORV y => done (rmap ORV (rv_op c o (rv_dist x) (rv_dist y)))
  | OV v => done (rmap ORV (rv_op_const c o (rv_dist x) v))
  | OSeq _ | OSSeq _ => s <- meta_sum other ;; done (rmap ORV (rv_op_const c o (rv_dist x) s))
  | OIter l => q <- get_seq l ;; s <- meta_sum q ;; done (rmap ORV (rv_op_const c o (rv_dist x) s))
  | OStr t => q <- get_seq (letters t) ;; s <- meta_sum q ;; done (rmap ORV (rv_op_const c o (rv_dist x) s))
  | ONone => done (rmap ORV (rv_map c (none_op o) (rv_dist x)))
  end.
(** randvar.py 215-223: _rconvolve *)
Definition rconvolve (c : cfg) (o : binop) (x : rv) (other : obj) : res (option obj) :=
  match other with
  | OBlank _ => nimpl
  | ORV _ => Err AssertErr
  | OV v => done (rmap ORV (const_op_rv c o v (rv_dist x)))
  | OSeq _ | OSSeq _ => s <- meta_sum other ;; done (rmap ORV (const_op_rv c o s (rv_dist x)))
  | OIter l => q <- get_seq l ;; s <- meta_sum q ;; done (rmap ORV (const_op_rv c o s (rv_dist x)))
  | OStr t => q <- get_seq (letters t) ;; s <- meta_sum q ;; done (rmap ORV (const_op_rv c o s (rv_dist x)))
  | ONone => done (rmap ORV (rv_map c (none_op o) (rv_dist x)))
  end.

(** [-x]: randvar.py 351-352, blackrv.py 146-147 *)
Definition neg_obj (c : cfg) (o : obj) : res obj :=
  match o with
  | OV (VN n) => Ok (OV (VN (nneg n)))
  | ORV x => rmap ORV (rv_neg c (rv_dist x))
  | OBlank b => Ok (OBlank b)
  | _ => Err TypeErr
  end.

(** blackrv.py 31-133; [b] is _special_null *)
Definition blank_fwd (c : cfg) (o : binop) (b : bool) (other : obj) : res (option obj) :=
  let self := OBlank b in
  match o with
  | OAdd => Ok (Some (if b then self else other))
  | OSub =>
      if b then Ok (Some self)
      else
        match other with
        | OSeq _ | OSSeq _ => q <- get_seq (map OV (seq_entries other)) ;; s <- meta_sum q ;; done (neg_obj c (OV s))
        | OIter l => q <- get_seq l ;; s <- meta_sum q ;; done (neg_obj c (OV s))
        | OStr t => q <- get_seq (letters t) ;; s <- meta_sum q ;; done (neg_obj c (OV s))
        | _ => done (neg_obj c other)
        end
  | OMul | OFloorDiv | OTrueDiv | OPow | OMod => Ok (Some self)
  | OEq | ONe | OLt | OLe | OGt | OGe => Ok (Some (if b then oint 1 else self))
  | OOr => Ok (Some (if b then oint 1 else match other with OBlank _ => self | _ => other end))
  | OAnd => Ok (Some (if b then oint 1 else self))
  end.
Definition blank_rev (o : binop) (b : bool) (other : obj) : res (option obj) :=
  let self := OBlank b in
  match o with
  | OAdd | OSub => Ok (Some (if b then self else other))
  | OOr => Ok (Some (if b then oint 1 else match other with OBlank _ => self | _ => other end))
  | OAnd => Ok (Some (if b then oint 1 else self))
  | _ => Ok (Some self)
  end.

(** [str * int] of Python *)
Fixpoint repeated (n : nat) (s : string) : string :=
  match n with O => ""%string | S k => (s ++ repeated k s)%string end.
Definition text_times (k : obj) (s : string) : res (option obj) :=
  match k with OV (VN (NI k)) => Ok (Some (OStr (repeated (Z.to_nat k) s))) | _ => nimpl end.
(** [s op t] for two texts: concatenation and comparison.  [%] formats (not modelled); of
    the other operators Python has none. *)
Definition text_op (o : binop) (s t : string) : res (option obj) :=
  let when (b : bool) := Ok (Some (OV (b01 b))) in
  match o with
  | OAdd => Ok (Some (OStr (s ++ t)))
  | OEq => when (String.eqb s t)
  | ONe => when (negb (String.eqb s t))
  | OLt => when (String.ltb s t)
  | OLe => when (String.leb s t)
  | OGt => when (String.ltb t s)
  | OGe => when (String.leb t s)
  | OMod => Err Unmodelled
  | _ => nimpl
  end.

(** [a.__op__(b)] *)
Definition fwd (disp : binop -> obj -> obj -> res obj) (c : cfg) (o : binop) (a b : obj) : res (option obj) :=
  match a, b with
  | OStr s, OStr t => text_op o s t
  | OStr s, _ => match o with OMod => Err Unmodelled | OMul => text_times b s | _ => nimpl end
  | OV v, OV w => done (value_op o v w)
  | OV (VN _), OStr s => match o with OMul => text_times a s | _ => nimpl end
  | OV (VN _), OIter _ => match o with OMul => Err Unmodelled | _ => nimpl end
  | OV (VN _), _ => nimpl
  | OV (VS _), _ =>
      match o with
      | OEq => Ok (Some (oint 0))         (* string_rvs.py 75-79 *)
      | ONe => Ok (Some (oint 1))
      | OSub | OMul | OFloorDiv | OTrueDiv | OPow | OMod | OOr | OAnd => nimpl
      | _ => Err Unmodelled
      end
  | OSeq _, _ | OSSeq _, _ => seq_fwd disp o a b
  | ORV x, _ => convolve c o x b
  | OBlank s, _ => blank_fwd c o s b
  | OIter _, OIter _ => Err Unmodelled
  | OIter _, OV _ => match o with OMul => Err Unmodelled | _ => nimpl end
  | OIter _, _ => nimpl
  | ONone, _ => nimpl
  end.
(** [b.__rop__(a)] *)
Definition rev_op (disp : binop -> obj -> obj -> res obj) (c : cfg) (o : binop) (a b : obj) : res (option obj) :=
  if is_cmp o then fwd disp c (mirror o) b a
  else
    match b with
    | OSeq _ | OSSeq _ => seq_rev disp o b a
    | ORV x => rconvolve c o x a
    | OBlank s => blank_rev o s a
    | OV (VS _) => match o with OAdd => Err Unmodelled | _ => nimpl end
    | _ => nimpl
    end.

Definition other_first (o : binop) (a b : obj) : bool :=
  is_cmp o && match a, b with OSeq _, OSSeq _ => true | _, _ => false end.

(** StringSeq is a subclass of Seq, so its comparison is asked first.  When
    nobody answers, [==] and [!=] compare identities and the others raise. *)
Definition default (o : binop) (a b : obj) : res obj :=
  match o, a, b with
  | OEq, ONone, ONone => Ok (oint 1)
  | OEq, _, _ => Ok (oint 0)
  | ONe, ONone, ONone => Ok (oint 0)
  | ONe, _, _ => Ok (oint 1)
  | _, _, _ => Err TypeErr
  end.
Fixpoint dispatch (fuel : nat) (c : cfg) (o : binop) (a b : obj) : res obj :=
  match fuel with
  | O => Err Unmodelled
  | S n =>
      let first := if other_first o a b then rev_op else fwd in
      let second := if other_first o a b then fwd else rev_op in
      r <- first (dispatch n c) c o a b ;;
      match r with
      | Some v => Ok v
      | None =>
          r <- second (dispatch n c) c o a b ;;
          match r with Some v => Ok v | None => default o a b end
      end
  end.
(** [a op b]: a sequence replaces itself by its sum, so three levels are enough
    (DispFacts.dispatch_enough) *)
Definition py_op (c : cfg) (o : binop) (a b : obj) : res obj := dispatch 3 c o a b.

(** ** utils.py 51-60: myand, myor on ints are truth functions *)
Definition my_op (c : cfg) (o : binop) (a b : obj) : res obj :=
  match o, a, b with
  | OOr, OV (VN (NI x)), OV (VN (NI y)) => Ok (OV (b01 (negb (x =? 0) || negb (y =? 0))))
  | OAnd, OV (VN (NI x)), OV (VN (NI y)) => Ok (OV (b01 (negb (x =? 0) && negb (y =? 0))))
  | _, _, _ => py_op c o a b
  end.

(** utils.py 45-48: myinvert, with [~] of seq.py 44-45, randvar.py 354-355,
    blackrv.py 149-152 *)
Definition my_invert (c : cfg) (a : obj) : res obj :=
  match a with
  | OV (VN (NI x)) => Ok (OV (b01 (x =? 0)))
  | OSeq _ | OSSeq _ => s <- meta_sum a ;; Ok (OV (b01 (veqb s (vint 0))))
  | ORV x => rmap ORV (rv_invert c (rv_dist x))
  | OBlank b => Ok (if b then oint 1 else a)
  | _ => Err TypeErr
  end.

(** utils.py 39-42: mylen, with [len] of seq.py 41-42, randvar.py 341-343,
    blackrv.py 138-141.  [len] refuses a negative count. *)
Definition my_len (a : obj) : res Z :=
  match a with
  | OV (VN (NI z)) => Ok (Z.of_nat (String.length (str_of_Z (Z.abs z))))
  | OSeq l | OSSeq l => Ok (Z.of_nat (length l))
  | OIter l => Ok (Z.of_nat (length l))
  | OStr s => Ok (Z.of_nat (String.length s))
  | ORV x => if rv_roll x <? 0 then Err ValueErr else Ok (rv_roll x)
  | OBlank b => Ok (if b then 1 else 0)
  | OV _ | ONone => Err TypeErr
  end.

(** ** [a @ b] *)

(** [int(d)] of one character *)
Definition read_digit (a : ascii) : res Z :=
  match py_int (String a EmptyString) with Some z => Ok z | None => Err ValueErr end.

(** [int(i) for i in s._seq] after the assertion that all are ints *)
Definition int_entries (l : list pval) : res (list Z) :=
  match all_some (map as_int l) with Some zs => Ok zs | None => Err AssertErr end.

(** seq.py 50-59: [self @ other]; the text of a float contains a character that
    is no digit *)
Definition seq_matmul (c : cfg) (self other : obj) : res obj :=
  match other with
  | ORV x => rv_rmatmul c self x
  | OBlank b =>            (* blackrv.py 26-29; [Seq != 1] counts *)
      if b then Ok (if forallb (fun v => veqb v (vint 1)) (seq_entries self) then other else oint 0)
      else Ok other
  | _ =>
      t <- match other with
           | OV (VN (NI z)) => ds <- mapM read_digit (list_ascii_of_string (str_of_Z z)) ;; Ok (OSeq (map vint ds))
           | OV (VN (NF _ _)) => Err ValueErr
           | OSeq _ | OSSeq _ => Ok other
           | _ => mk_seq [other]
           end ;;
      zs <- int_entries (seq_entries self) ;;
      rmap OV (sum_at t zs)
  end.

(** seq.py 61-70: [other @ self] *)
Definition seq_rmatmul (self other : obj) : res obj :=
  match other with
  | ORV _ | OBlank _ => Err TypeErr
  | OV (VN n) => rmap OV (obj_get self (ntrunc n))
  | _ =>
      t <- match other with OSeq _ | OSSeq _ => Ok other | _ => mk_seq [other] end ;;
      zs <- int_entries (seq_entries t) ;;
      rmap OV (sum_at self zs)
  end.

(** blackrv.py 26-29: [other @ self] when [other] is no sequence *)
Definition blank_rmatmul (b : bool) (other : obj) : obj :=
  if b then match other with
            | OV v => if veqb v (vint 1) then OBlank b else oint 0
            | _ => oint 0
            end
  else OBlank b.

(** [a @ b] *)
Definition matmul (c : cfg) (a b : obj) : res obj :=
  match a with
  | OSeq _ | OSSeq _ => seq_matmul c a b
  | ORV _ | OBlank _ => Err TypeErr       (* randvar.py 225-227, blackrv.py 22-24 *)
  | _ =>
      match b with
      | OSeq _ | OSSeq _ => seq_rmatmul b a
      | ORV x => rv_rmatmul c a x
      | OBlank s => Ok (blank_rmatmul s a)
      | _ => Err TypeErr
      end
  end.

(** utils.py 33-36: mymatmul *)
Definition my_matmul (c : cfg) (a b : obj) : res obj :=
  match a, b with
  | OV (VN (NI x)), OV (VN (NI y)) =>
      let s := list_ascii_of_string (str_of_Z y) in
      if (0 <=? x - 1) && (x - 1 <? Z.of_nat (length s)) then
        d <- read_digit (nth (Z.to_nat (x - 1)) s zero) ;; Ok (oint d)
      else Ok (oint 0)
  | _, _ => matmul c a b
  end.
