(** Model of [selector @ die]: RV.__rmatmul__ and _sum_at in randvar.py. *)
From Coq Require Import List ZArith Bool.
From Verif Require Import PyBase Num Val RVModel Obj.
Import ListNotations.
Open Scope Z_scope.

(** seq.py 47-48: [s[i]] for a sequence counted from one *)
Definition seq_get (l : list pval) (i : Z) : pval :=
  if (0 <=? i - 1) && (i - 1 <? Z.of_nat (length l)) then nth (Z.to_nat (i - 1)) l (vint 0) else vint 0.

(** [s[i]] for either kind of sequence; StringSeq.__init__ does not set
    [_one_indexed] (string_rvs.py 105-112) *)
Definition obj_get (s : obj) (i : Z) : res pval :=
  match s with
  | OSeq l => Ok (seq_get l i)
  | _ => Err AttrErr
  end.

(** randvar.py 402-404: the body of _sum_at *)
Definition sum_at (orig : obj) (locs : list Z) : res pval :=
  vs <- mapM (obj_get orig) locs ;; foldM (vop OAdd) (vint 0) vs.

(** the sequences of randvar.py 174-196; with one die each outcome goes through
    get_seq (line 177), otherwise the tuple is stored as it is (line 182) *)
Definition roll_seqs (x : rv) : res (list (obj * Z)) :=
  rolls <- expanded_rolls x ;;
  mapM (fun rp => s <- (if rv_roll x =? 1 then get_seq (map OV (fst rp)) else Ok (OSeq (fst rp))) ;; Ok (s, snd rp)) rolls.

(** _sum_at applied to a die, through decorators.py 100-138: one call per roll, then merge_rvs *)
Definition rv_sum_at (c : cfg) (x : rv) (locs : list Z) : res obj :=
  rolls <- roll_seqs x ;;
  vs <- mapM (fun rp => sum_at (fst rp) locs) rolls ;;
  m <- from_rvs c (map MxVal vs) (map snd rolls) ;;
  Ok (match m with Some r => ORV r | None => OBlank false end).

(** a Python int, or a bool *)
Definition as_int (v : pval) : option Z := match v with VN (NI z) => Some z | _ => None end.

(** randvar.py 229-239: __rmatmul__ *)
Definition rv_rmatmul (c : cfg) (other : obj) (x : rv) : res obj :=
  match other with
  | ORV _ => Err AssertErr
  | _ =>
      s <- get_seq [other] ;;
      match all_some (map as_int (seq_entries s)) with
      | None => Err AssertErr
      | Some [k] =>
          r <- kth_order c (rv_die x) (rv_roll x) k ;;
          Ok (match r with Some r => ORV r | None => oint 0 end)
      | Some locs => rv_sum_at c x locs
      end
  end.
