(** Model of randvar.py: the class RV. *)
From Coq Require Import List ZArith Bool.
From Verif Require Import PyBase Num Val Sorting.
Import ListNotations.
Open Scope Z_scope.

(** settings.py 4-15, the settings that influence dice. *)
Record cfg : Type := mkCfg {
  cfg_trunc   : bool;    (* RV_TRUNC *)
  cfg_skip0   : bool;    (* RV_IGNORE_ZERO_PROBS *)
  cfg_highest : bool;    (* position order = "highest first" *)
  cfg_explode : Z;       (* explode depth *)
  cfg_maxdepth : Z;      (* maximum function depth *)
  cfg_width   : Z        (* DEFAULT_OUTPUT_WIDTH *)
}.

Definition default_cfg : cfg := mkCfg false false true 2 10 180.

(** [zip(self.vals, self.probs)] *)
Definition dist : Type := list (pval * Z).
Definition vals (d : dist) : list pval := map fst d.
Definition probs (d : dist) : list Z := map snd d.
Definition zsum (l : list Z) : Z := fold_right Z.add 0 l.
Definition zprod (l : list Z) : Z := fold_right Z.mul 1 l.

(** randvar.py 169-172 (the cache of the sum is not modelled: probs is only
    changed by _INTERNAL_PROB_LIMIT_VALS, which refreshes it) *)
Definition sum_probs (d : dist) : Z := zsum (probs d).

(** comparison of (value, weight) tuples *)
Definition vp_cmp (x y : pval * Z) : comparison :=
  match vcmp (fst x) (fst y) with Eq => Z.compare (snd x) (snd y) | c => c end.
Definition vp_leb := leb_of vp_cmp.

(** randvar.py 51-52: _get_zip *)
Definition get_zip (l : dist) : dist := isort_rev vp_leb l.

(** randvar.py 55-63: the loop of _get_new_zipped runs from the end of the
    descending list, i.e. over the ascending list; equal neighbours are merged
    into the later one. *)
Fixpoint group_from (x : pval * Z) (l : dist) : dist :=
  match l with
  | [] => [x]
  | y :: l' =>
      if veqb (fst x) (fst y) then group_from (fst y, snd y + snd x) l'
      else x :: group_from y l'
  end.
Definition group (l : dist) : dist :=
  match l with [] => [] | x :: l' => group_from x l' end.

(** randvar.py 55-66: _get_new_zipped *)
Definition get_new_zipped (zipped : dist) (skip0 : bool) : dist :=
  let new := group (rev zipped) in
  if skip0 then filter (fun vp => negb (snd vp =? 0)) new else new.

(** randvar.py 69-76: _get_normalized (always called with normalize=True) *)
Definition gcd_list (l : list Z) : Z := fold_right Z.gcd 0 l.
Definition get_normalized (l : dist) : dist :=
  let g := gcd_list (probs l) in
  if 1 <? g then map (fun vp => (fst vp, snd vp / g)) l else l.

(** randvar.py 42-48: _sort_and_group *)
Definition sort_and_group (c : cfg) (l : dist) : res dist :=
  assert_ (forallb (fun p => 0 <=? p) (probs l))
    (Ok (get_normalized (get_new_zipped (get_zip l) (cfg_skip0 c)))).

(** randvar.py 22-33: RV.__init__ up to the source fields.  [truncate] is the
    optional argument. *)
Definition mk_dist_tr (c : cfg) (truncate : option bool) (vs : list pval) (ps : list Z) : res dist :=
  assert_ (Nat.eqb (length vs) (length ps))
    (vs <- (if match truncate with Some b => b | None => cfg_trunc c end
            then mapM vtrunc vs else Ok vs) ;;
     d <- sort_and_group c (combine vs ps) ;;
     Ok (match d with [] => [(vint 0, 1)] | _ => d end)).

Definition mk_dist (c : cfg) (vs : list pval) (ps : list Z) : res dist :=
  mk_dist_tr c None vs ps.

(** An RV object: its distribution and its source (randvar.py 36-37).  The
    source die is only ever used through its vals and probs, so it is stored as
    a distribution; [None] stands for "self". *)
Record rv : Type := mkRV {
  rv_dist : dist;
  rv_roll : Z;
  rv_src  : option dist
}.
Definition rv_of (d : dist) : rv := mkRV d 1 None.
Definition rv_die (x : rv) : dist := match rv_src x with Some d => d | None => rv_dist x end.

Definition mk_rv (c : cfg) (vs : list pval) (ps : list Z) : res rv :=
  rmap rv_of (mk_dist c vs ps).

(** randvar.py 116-118: set_source *)
Definition set_source (x : rv) (n : Z) (d : dist) : rv := mkRV (rv_dist x) n (Some d).

(** randvar.py 79-80: from_const *)
Definition from_const (c : cfg) (v : pval) : res rv := mk_rv c [v] [1].

(** randvar.py 83-88: from_seq, on the contents of a Seq *)
Definition from_seq (c : cfg) (s : list pval) : res rv :=
  match s with
  | [] => mk_rv c [vint 0] [1]
  | _ => mk_rv c s (map (fun _ => 1) s)
  end.

(** ** randvar.py 447-463: _INTERNAL_PROB_LIMIT_VALS *)

(** the double 10e30 *)
Definition SUM_LIMIT : Z := 9999999999999999635896294965248.
Definition SUM_LIMIT_F : num := NF 2220446049250313 52.
(** the double 10e10 *)
Definition TEN_E10_F : num := NF 48828125 11.

(** line 451: [int(10e10 * (sum_ // sum_limit))], float arithmetic.  (The
    message of line 452 formats the same float conversion of the sum, and its
    quotients are far from zero, so it raises nothing new.) *)
Definition limit_const (s : Z) : res Z :=
  q <- nfloordiv (NI s) SUM_LIMIT_F ;;
  k <- nmul TEN_E10_F q ;;
  Ok (ntrunc k).

Definition prob_limit (d : dist) : res dist :=
  let s := sum_probs d in
  if s <=? SUM_LIMIT then Ok d
  else
    k <- limit_const s ;;
    if k =? 0 then Err ZeroDivErr
    else Ok (map (fun vp => (fst vp, snd vp / k)) d).

(** ** randvar.py 91-114: from_rvs *)

(** What the list may contain: dice, plain values, blanks/None.  (A Seq in the
    list would become an outcome itself; anydice_type_casting sums sequences
    before merging, and a direct call with a Seq is not modelled.) *)
Inductive mixin : Type :=
| MxRV (x : rv)
| MxVal (v : pval)
| MxBlank.

Definition is_mx_blank (m : mixin) : bool := match m with MxBlank => true | _ => false end.

(** lines 96-98: both lists are filtered by the indices of the blanks *)
Fixpoint drop_blank_weights (l : list mixin) (ws : list Z) : list Z :=
  match l, ws with
  | _, [] => []
  | [], _ => ws
  | m :: l', w :: ws' =>
      if is_mx_blank m then drop_blank_weights l' ws' else w :: drop_blank_weights l' ws'
  end.

Definition mx_sum (m : mixin) : Z := match m with MxRV x => sum_probs (rv_dist x) | _ => 1 end.

(** lines 105-111, one iteration *)
Definition mx_entries (PROD : Z) (w : Z) (m : mixin) : res dist :=
  match m with
  | MxRV x =>
      let ps := sum_probs (rv_dist x) in
      match rv_dist x with
      | [] => Ok []
      | _ => if ps =? 0 then Err ZeroDivErr
             else Ok (map (fun vp => (fst vp, snd vp * w * (PROD / ps))) (rv_dist x))
      end
  | MxVal v => Ok [(v, w * PROD)]
  | MxBlank => Ok []
  end.

(** [None] is the returned BlankRV. *)
Definition from_rvs (c : cfg) (l : list mixin) (ws : list Z) : res (option rv) :=
  let ws := drop_blank_weights l ws in
  let l := filter (fun m => negb (is_mx_blank m)) l in
  match l with
  | [] => Ok None
  | _ =>
      assert_ (Nat.eqb (length l) (length ws))
        (let PROD := zprod (map mx_sum l) in
         ents <- mapM (fun wm => mx_entries PROD (fst wm) (snd wm)) (combine ws l) ;;
         let e := concat ents in
         d <- mk_dist c (vals e) (probs e) ;;
         d <- prob_limit d ;;
         Ok (Some (rv_of d)))
  end.

(** ** Operators *)

(** randvar.py 407-420: _rdict.__setitem__ accumulates *)
Fixpoint rd_add (d : dist) (k : pval) (w : Z) : dist :=
  match d with
  | [] => [(k, w)]
  | (k', w') :: d' => if dict_same k' k then (k', w' + w) :: d' else (k', w') :: rd_add d' k w
  end.

(** the pairs in the order of the two nested loops, lines 432-433 / 441-442 *)
Definition all_pairs (d1 d2 : dist) : list ((pval * Z) * (pval * Z)) :=
  flat_map (fun x => map (fun y => (x, y)) d2) d1.

(** lines 427-444 (the add-specialised copy computes the same) *)
Definition fast_convolve (op : pval -> pval -> res pval) (d1 d2 : dist) : res dist :=
  m <- foldM (fun m xy =>
         k <- op (fst (fst xy)) (fst (snd xy)) ;;
         Ok (rd_add m k (snd (fst xy) * snd (snd xy)))) [] (all_pairs d1 d2) ;;
  Ok (isort vp_leb m).

(** lines 210-213: RV op RV *)
Definition rv_conv (c : cfg) (op : pval -> pval -> res pval) (x y : dist) : res rv :=
  r <- fast_convolve op x y ;;
  d <- mk_dist c (vals r) (probs r) ;;
  d <- prob_limit d ;;
  Ok (rv_of d).

(** line 209: RV op number;  line 223: number op RV *)
Definition rv_map (c : cfg) (f : pval -> res pval) (x : dist) : res rv :=
  vs <- mapM f (vals x) ;; mk_rv c vs (probs x).
Definition rv_op_const (c : cfg) (op : binop) (x : dist) (v : pval) : res rv :=
  rv_map c (fun a => vop op a v) x.
Definition const_op_rv (c : cfg) (op : binop) (v : pval) (x : dist) : res rv :=
  rv_map c (fun a => vop op v a) x.
Definition rv_op (c : cfg) (op : binop) (x y : dist) : res rv := rv_conv c (vop op) x y.

(** ** Unary functions, lines 348-370 (round: see RoundToModel.v) *)
Definition rv_neg (c : cfg) (x : dist) : res rv := const_op_rv c OSub (vint 0) x.
Definition rv_invert (c : cfg) (x : dist) : res rv :=
  match x with
  | [(v, p)] => if veqb v (vint 0) && (p =? 1) then from_const c (vint 1) else from_const c (vint 0)
  | _ => from_const c (vint 0)
  end.
Definition rv_abs (c : cfg) (x : dist) : res rv := rv_map c (vnum1 (fun n => Ok (nabs n))) x.
Definition rv_floor (c : cfg) (x : dist) : res rv := rv_map c (vnum1 (fun n => Ok (NI (nfloor n)))) x.
Definition rv_ceil (c : cfg) (x : dist) : res rv := rv_map c (vnum1 (fun n => Ok (NI (nceil n)))) x.
Definition rv_trunc (c : cfg) (x : dist) : res rv := rv_map c (vnum1 (fun n => Ok (NI (ntrunc n)))) x.

(** ** lines 120-123: mean.  [None] when the weights are all 0. *)
Definition rv_mean (x : dist) : res (option num) :=
  if sum_probs x =? 0 then Ok None
  else
    terms <- mapM (fun vp => match fst vp with
                             | VN n => nmul n (NI (snd vp))
                             | VS _ => Err TypeErr
                             end) x ;;
    s <- nsum terms ;;
    m <- ntruediv s (NI (sum_probs x)) ;;
    Ok (Some m).

(** ** lines 134-142: filter (on the contents of the sequence of values) *)
Definition rv_filter (c : cfg) (x : dist) (to_filter : list pval) : res rv :=
  let vp := filter (fun vp => negb (existsb (fun v => dict_same v (fst vp)) to_filter)) x in
  match vp with
  | [] => from_const c (vint 0)
  | _ => mk_rv c (vals vp) (probs vp)
  end.

(** ** lines 160-164: get_cdf *)
Fixpoint accumulate (acc : Z) (l : list Z) : list Z :=
  match l with
  | [] => []
  | p :: l' => (acc + p) :: accumulate (acc + p) l'
  end.
Definition get_cdf (c : cfg) (x : dist) : res dist :=
  mk_dist c (vals x) (accumulate 0 (probs x)).

(** ** lines 241-261: _get_kth_order_statistic *)

(** [math.comb] *)
Fixpoint comb (n k : nat) : Z :=
  match k, n with
  | O, _ => 1
  | S _, O => 0
  | S k', S n' => comb n' k' + comb n' k
  end.

(** line 257, one summand; p1, p2, p3 are P(X < x), P(X = x), P(X > x) *)
Definition os_term (N : nat) (p1 p2 p3 : Z) (j : nat) : Z :=
  comb N j *
  (p3 ^ Z.of_nat j * (p1 + p2) ^ Z.of_nat (N - j)
   - (p2 + p3) ^ Z.of_nat j * p1 ^ Z.of_nat (N - j)).

Definition os_weight (N k : nat) (p1 p2 p3 : Z) : Z :=
  zsum (map (os_term N p1 p2 p3) (seq 0 (N - k + 1))).

(** line 258: for each index of self.vals; the tuples p1 and p3 are as long as
    the shorter of probs and cdf, so a missing entry is an IndexError. *)
Fixpoint os_weights (N k : nat) (s : Z) (ps cdf : list Z) : res (list Z) :=
  match ps, cdf with
  | [], _ => Ok []
  | _ :: _, [] => Err IndexErr
  | p :: ps', q :: cdf' =>
      ws <- os_weights N k s ps' cdf' ;;
      Ok (os_weight N k (q - p) p (s - q) :: ws)
  end.

(** result [None] is the plain integer 0 *)
Definition kth_order (c : cfg) (x : dist) (draws k : Z) : res (option rv) :=
  cdf <- get_cdf c x ;;
  let k := if cfg_highest c then draws - k + 1 else k in
  if (k <? 1) || (draws <? k) then Ok None
  else
    ws <- os_weights (Z.to_nat draws) (Z.to_nat k) (sum_probs x) (probs x) (probs cdf) ;;
    d <- mk_dist c (vals x) ws ;;
    d <- prob_limit d ;;
    Ok (Some (rv_of d)).

(** ** lines 174-196: _get_expanded_possible_rolls *)

(** itertools.combinations_with_replacement(l, n), in its order *)
Fixpoint cwr {A : Type} (n : nat) (l : list A) : list (list A) :=
  match n with
  | O => [[]]
  | S n' =>
      (fix go (l : list A) : list (list A) :=
         match l with
         | [] => []
         | x :: l' => map (cons x) (cwr n' (x :: l')) ++ go l'
         end) l
  end.

(** utils.py 26-29 without the memo table (see UtilModel.v) *)
Fixpoint fact_z (n : nat) : Z :=
  match n with O => 1 | S n' => Z.of_nat n * fact_z n' end.

(** lines 178, 187: [pdf_dict = {v: p}], later entries overwrite *)
Fixpoint pdf_get (d : dist) (v : pval) : option Z :=
  match d with
  | [] => None
  | (v', p) :: d' =>
      match pdf_get d' v with
      | Some q => Some q
      | None => if dict_same v' v then Some p else None
      end
  end.

(** lines 183-189: the running counts; returns the product of the running
    counts (the denominator) *)
Fixpoint count_same (l : list pval) (v : pval) : Z :=
  match l with
  | [] => 0
  | x :: l' => (if dict_same x v then 1 else 0) + count_same l' v
  end.
Fixpoint run_counts (seen roll : list pval) : Z :=
  match roll with
  | [] => 1
  | v :: roll' => (count_same seen v + 1) * run_counts (v :: seen) roll'
  end.

Fixpoint roll_prob (D : dist) (roll : list pval) : res Z :=
  match roll with
  | [] => Ok 1
  | v :: roll' =>
      match pdf_get D v with
      | None => Err KeyErr
      | Some p => q <- roll_prob D roll' ;; Ok (p * q)
      end
  end.

(** The list of (roll, weight).  For N = 1 each value is wrapped in a sequence
    of its own. *)
Definition expanded_rolls (x : rv) : res (list (list pval * Z)) :=
  let N := rv_roll x in
  let D := rv_die x in
  if N =? 1 then Ok (map (fun vp => ([fst vp], snd vp)) D)
  else if N <? 0 then Err ValueErr
  else
    let n := Z.to_nat N in
    mapM (fun roll =>
            p <- roll_prob D roll ;;
            Ok (roll, fact_z n / run_counts [] roll * p))
         (cwr n (rev (vals D))).

(** ** lines 391-399: dices_are_equal on dice *)
Fixpoint list_eqb {A : Type} (eqb : A -> A -> bool) (a b : list A) : bool :=
  match a, b with
  | [], [] => true
  | x :: a', y :: b' => eqb x y && list_eqb eqb a' b'
  | _, _ => false
  end.
Definition dists_equal (a b : dist) : bool :=
  list_eqb veqb (vals a) (vals b) && list_eqb Z.eqb (probs a) (probs b).
