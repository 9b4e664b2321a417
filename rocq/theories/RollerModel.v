(** Model of roller.py 122-127 (roller) and 130-135 (myrange). *)
From Coq Require Import List ZArith Bool.
From Verif Require Import PyBase Num Val RVModel Obj.
Import ListNotations.
Open Scope Z_scope.

(** ** random.choices of CPython 3.9 with weights that are ints
    [random()] returns [k * 2^-53] for a [k] drawn from 0 .. 2^53 - 1. *)
Definition random_value (k : Z) : num := NF k (-53).

(** [list(itertools.accumulate(weights))] *)
Fixpoint accumulate_from (s : Z) (l : list Z) : list Z :=
  match l with
  | [] => []
  | w :: l' => (s + w) :: accumulate_from (s + w) l'
  end.
Definition accumulate (l : list Z) : list Z := accumulate_from 0 l.

(** [bisect.bisect_right(a, x, lo, hi)]:
    while lo < hi: mid = (lo+hi)//2; if x < a[mid]: hi = mid else lo = mid+1 *)
Fixpoint bisect_loop (fuel : nat) (a : list Z) (x : num) (lo hi : nat) : res nat :=
  match fuel with
  | O => Err Unmodelled
  | S fuel' =>
      if Nat.ltb lo hi then
        let mid := Nat.div2 (lo + hi) in
        match nth_error a mid with
        | None => Err IndexErr
        | Some y => if nltb x (NI y) then bisect_loop fuel' a x lo mid else bisect_loop fuel' a x (S mid) hi
        end
      else Ok lo
  end.
Definition bisect_right (a : list Z) (x : num) (lo hi : nat) : res nat := bisect_loop (S hi) a x lo hi.

(** one entry of [choices(population, weights, k=1)] when random() returned [u] *)
Definition choose (population : list pval) (weights : list Z) (u : num) : res pval :=
  let cum := accumulate weights in
  if negb (Nat.eqb (length cum) (length population)) then Err ValueErr else
  match nth_error cum (length cum - 1) with
  | None => Err IndexErr
  | Some t =>
      total <- nadd (NI t) (NF 0 0) ;;
      if nleb total (NF 0 0) then Err ValueErr else
      x <- nmul u total ;;
      i <- bisect_right cum x 0 (length population - 1) ;;
      match nth_error population i with Some v => Ok v | None => Err IndexErr end
  end.

(** roller.py 122-127.  [ks]: what random() draws, one for each call.  The result is
    the list of outcomes; without [count] it is one outcome. *)
Definition draw (d : dist) (k : Z) : res pval := choose (vals d) (probs d) (random_value k).
Definition roller (c : cfg) (o : obj) (count : option Z) (ks : nat -> Z) : res (list pval) :=
  x <- get_rv c o ;;
  match count with
  | None => v <- draw (rv_dist x) (ks O) ;; Ok [v]
  | Some n => mapM (fun i => draw (rv_dist x) (ks i)) (seq 0 (Z.to_nat n))
  end.

(** roller.py 130-135: {left..right}.  The ends are numbers or something else
    (a die raises TypeError, so does a sequence in [int()]). *)
Definition myrange (left right : obj) : res (list Z) :=
  match left with
  | ORV _ | OBlank _ => Err TypeErr
  | _ =>
      match right with
      | ORV _ | OBlank _ => Err TypeErr
      | _ =>
          match left, right with
          | OV (VN a), OV (VN b) => let lo := ntrunc a in Ok (map (fun i => lo + Z.of_nat i) (seq 0 (Z.to_nat (ntrunc b + 1 - lo))))
          | OStr _, _ | _, OStr _ => Err Unmodelled      (* int("3") is not modelled *)
          | _, _ => Err TypeErr
          end
      end
  end.
