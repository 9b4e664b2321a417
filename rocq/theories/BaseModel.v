(** Model of Seq.set_one_indexed in seq.py: sequences whose positions count from zero.
    Elsewhere in this development sequences count from one, as they are made (line 13). *)
From Coq Require Import List ZArith Bool.
From Verif Require Import PyBase Num Val RVModel Obj AtModel DispModel.
Import ListNotations.
Open Scope Z_scope.

(** seq.py 11-15: the entries, and [_one_indexed] *)
Record counted : Type := mkCounted { ct_seq : list pval; ct_base : Z }.
Definition new_seq (l : list pval) : counted := mkCounted l 1.
(** seq.py 29-30 *)
Definition set_one_indexed (one : bool) (s : counted) : counted := mkCounted (ct_seq s) (if one then 1 else 0).

(** seq.py 47-48 *)
Definition get_item (s : counted) (i : Z) : pval :=
  if (0 <=? i - ct_base s) && (i - ct_base s <? Z.of_nat (length (ct_seq s))) then nth (Z.to_nat (i - ct_base s)) (ct_seq s) (vint 0)
  else vint 0.

(** the sum in seq.py 59 and 70 *)
Definition sum_items (s : counted) (zs : list Z) : res pval := foldM (vop OAdd) (vint 0) (map (get_item s) zs).

(** seq.py 61-70: [other @ self], for another object or, below, for another sequence;
    seq.py 50-59 does the same for two sequences *)
Definition counted_at (other : obj) (self : counted) : res obj :=
  match other with
  | ORV _ | OBlank _ => Err TypeErr
  | OV (VN n) => Ok (OV (get_item self (ntrunc n)))
  | _ =>
      t <- match other with OSeq _ | OSSeq _ => Ok other | _ => mk_seq [other] end ;;
      zs <- int_entries (seq_entries t) ;;
      rmap OV (sum_items self zs)
  end.
Definition counted_positions (other self : counted) : res obj :=
  zs <- int_entries (ct_seq other) ;; rmap OV (sum_items self zs).
