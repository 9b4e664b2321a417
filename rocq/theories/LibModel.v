(** Model of funclib.py: the function library.

    Every function is wrapped in [casting] (CastModel.v).  A body finds its
    parameters by position or by name; arguments beyond the named ones are
    collected by [*args] / [**kwargs] and ignored.  Default values are given
    where they are used. *)
From Coq Require Import String List ZArith Bool.
From Verif Require Import PyBase Num Val Sorting RVModel Obj RollModel AtModel CastModel DispModel.
Import ListNotations.
Open Scope Z_scope.

(** the argument bound to the [i]-th parameter, called [name] *)
Fixpoint param (i : nat) (name : string) (a : args) : option obj :=
  match a with
  | [] => None
  | (k, o) :: a' => if key_eqb k (KPos i) || key_eqb k (KName name) then Some o else param i name a'
  end.
Definition need (i : nat) (name : string) (a : args) : res obj :=
  match param i name a with Some o => Ok o | None => Err TypeErr end.

(** the truth of an object in a condition: randvar.py 338-339, blackrv.py 135-136;
    a sequence is true unless it is empty *)
Definition truth (o : obj) : res bool :=
  match o with
  | OV v => Ok (vtruth v)
  | OSeq l | OSSeq l => Ok (negb (Nat.eqb (length l) 0))
  | OIter l => Ok (negb (Nat.eqb (length l) 0))
  | OStr s => Ok (negb (String.eqb s ""))
  | ORV _ | OBlank _ => Err TypeErr
  | ONone => Ok false
  end.

(** [len(o)] *)
Definition py_len (o : obj) : res Z := match o with OV _ => Err TypeErr | _ => my_len o end.

(** [range(a, b)]: only ints are accepted *)
Definition py_range (a b : obj) : res obj :=
  match a, b with
  | OV (VN (NI x)), OV (VN (NI y)) => Ok (OIter (map OV (zrange x y)))
  | _, _ => Err TypeErr
  end.

(** a keyword argument *)
Fixpoint lookup_key (k : key) (a : args) : option obj :=
  match a with
  | [] => None
  | (k', o) :: a' => if key_eqb k k' then Some o else lookup_key k a'
  end.

Definition sig_of (l : list (string * ann)) : sig := mkSig (map fst l) l.

Section Lib.
  Variable c : cfg.
  Let op := py_op c.

  (** funclib.py 11-15 *)
  Definition absolute_sig : sig := sig_of [("NUMBER"%string, AN)].
  Definition absolute_body (a : args) : res obj :=
    x <- need 0 "NUMBER" a ;;
    t <- (lt <- op OLt x (oint 0) ;; truth lt) ;;
    if t : bool then neg_obj c x else Ok x.
  Definition absolute : args -> res obj := casting c absolute_sig absolute_body.

  (** lines 18-20 *)
  Definition contains_sig : sig := sig_of [("SEQUENCE"%string, AS); ("NUMBER"%string, AN)].
  Definition contains_body (a : args) : res obj :=
    s <- need 0 "SEQUENCE" a ;;
    x <- need 1 "NUMBER" a ;;
    n <- op OEq s x ;;
    op OGt n (oint 0).
  Definition contains : args -> res obj := casting c contains_sig contains_body.

  (** [range(1, n + 1)] *)
  Definition positions (n : Z) : list Z := map Z.of_nat (seq 1 (Z.to_nat n)).

  (** lines 23-28 *)
  Definition count_in_sig : sig := sig_of [("VALUES"%string, AS); ("SEQUENCE"%string, AS)].
  Definition count_in_body (a : args) : res obj :=
    vs <- need 0 "VALUES" a ;;
    s <- need 1 "SEQUENCE" a ;;
    n <- py_len vs ;;
    foldM (fun count p => x <- matmul c (oint p) vs ;; e <- op OEq x s ;; op OAdd count e) (oint 0) (positions n).
  Definition count_in : args -> res obj := casting c count_in_sig count_in_body.

  (** lines 31-36 *)
  Definition seq_sig : sig := sig_of [("SEQUENCE"%string, AS)].
  Definition reverse_slow_body (a : args) : res obj :=
    s <- need 0 "SEQUENCE" a ;;
    n <- py_len s ;;
    r <- mk_seq [] ;;
    foldM (fun r p => x <- matmul c (oint p) s ;; mk_seq [x; r]) r (positions n).
  Definition reverse_slow : args -> res obj := casting c seq_sig reverse_slow_body.

  (** lines 39-41 *)
  Definition reverse_body (a : args) : res obj :=
    s <- need 0 "SEQUENCE" a ;;
    match s with
    | OSeq l | OSSeq l => mk_seq [OIter (map OV (rev l))]
    | _ => Err AttrErr
    end.
  Definition reverse : args -> res obj := casting c seq_sig reverse_body.

  (** lines 44-46 *)
  Definition maximum_sig : sig := sig_of [("DIE"%string, AD)].
  Definition maximum_body (a : args) : res obj :=
    d <- need 0 "DIE" a ;;
    s <- mk_seq [d] ;;
    r <- reverse (positional [s]) ;;
    matmul c (oint 1) r.
  Definition maximum_of : args -> res obj := casting c maximum_sig maximum_body.

  (** lines 57-61; the depth is an int.  [fuel] bounds the recursion, which is
      never deeper than [depth]. *)
  Definition explode_helper_sig : sig :=
    mkSig ["N"; "MAX"; "ORIG_DIE"; "depth"]%string [("N"%string, AN); ("MAX"%string, AN); ("ORIG_DIE"%string, AD)].
  Definition int_param (o : obj) : res Z :=
    match o with OV (VN (NI z)) => Ok z | _ => Err Unmodelled end.
  Definition explode_args (n mx d : obj) (depth : Z) : args :=
    [(KPos 0, n); (KPos 1, mx); (KName "ORIG_DIE", d); (KName "depth", oint depth)].
  Fixpoint explode_helper (fuel : nat) : args -> res obj :=
    casting c explode_helper_sig (fun a =>
      n <- need 0 "N" a ;;
      mx <- need 1 "MAX" a ;;
      d <- need 2 "ORIG_DIE" a ;;
      depth <- (k <- need 3 "depth" a ;; int_param k) ;;
      t <- (e <- op OEq n mx ;; truth e) ;;
      if (t : bool) && (0 <? depth) then
        match fuel with
        | O => Err Unmodelled
        | S fuel' => r <- explode_helper fuel' (explode_args d mx d (depth - 1)) ;; op OAdd n r
        end
      else Ok n).

  (** lines 49-54; [depth=None] or no argument is the setting *)
  Definition explode_sig : sig := sig_of [("DIE"%string, AD)].
  Definition explode_body (a : args) : res obj :=
    d <- need 0 "DIE" a ;;
    depth <- match lookup_key (KName "depth") a with
             | None | Some ONone => Ok (cfg_explode c)
             | Some o => int_param o
             end ;;
    mx <- maximum_of (positional [d]) ;;
    explode_helper (Z.to_nat depth) (explode_args d mx d depth).
  Definition explode : args -> res obj := casting c explode_sig explode_body.

  (** lines 64-66 *)
  Definition of_D_sig : sig := sig_of [("NUMBER"%string, AN); ("DICE"%string, AD)].
  Definition highest_of_body (a : args) : res obj :=
    k <- need 0 "NUMBER" a ;;
    d <- need 1 "DICE" a ;;
    b <- op OAdd k (oint 1) ;;
    r <- py_range (oint 1) b ;;
    s <- mk_seq [r] ;;
    matmul c s d.
  Definition highest_N_of_D : args -> res obj := casting c of_D_sig highest_of_body.

  (** lines 69-71 *)
  Definition lowest_of_body (a : args) : res obj :=
    k <- need 0 "NUMBER" a ;;
    d <- need 1 "DICE" a ;;
    n <- py_len d ;;
    from <- (t <- op OSub (oint n) k ;; op OAdd t (oint 1)) ;;
    n <- py_len d ;;
    r <- py_range from (oint (n + 1)) ;;
    s <- mk_seq [r] ;;
    matmul c s d.
  Definition lowest_N_of_D : args -> res obj := casting c of_D_sig lowest_of_body.

  (** lines 74-84 *)
  Definition middle_of_body (a : args) : res obj :=
    k <- need 0 "NUMBER" a ;;
    d <- need 1 "DICE" a ;;
    n <- py_len d ;;
    all <- (e <- op OEq k (oint n) ;; truth e) ;;
    if all : bool then Ok d
    else
      one <- (e <- op OEq k (oint 1) ;; truth e) ;;
      if one : bool then matmul c (oint (1 + (n - 1) / 2)) d
      else
        h <- (t <- op OSub (oint n) k ;; op OFloorDiv t (oint 2)) ;;
        from <- op OAdd (oint 1) h ;;
        to <- (t <- op OAdd from k ;; op OSub t (oint 1)) ;;
        b <- op OAdd to (oint 1) ;;
        r <- py_range from b ;;
        s <- mk_seq [r] ;;
        matmul c s d.
  Definition middle_N_of_D : args -> res obj := casting c of_D_sig middle_of_body.

  (** lines 87-98 *)
  Definition two_sig : sig := sig_of [("A"%string, AN); ("B"%string, AN)].
  Definition pick_body (o : binop) (a : args) : res obj :=
    x <- need 0 "A" a ;;
    y <- need 1 "B" a ;;
    t <- (g <- op o x y ;; truth g) ;;
    if t : bool then Ok x else Ok y.
  Definition highest_of : args -> res obj := casting c two_sig (pick_body OGt).
  Definition lowest_of : args -> res obj := casting c two_sig (pick_body OLt).

  (** lines 109-127 *)
  Definition add_sig : sig := sig_of [("N"%string, AN); ("S"%string, AS)].
  Definition add_step (s : obj) (nr : obj * obj) (p : Z) : res (obj * obj) :=
    let (n, r) := nr in
    x <- matmul c (oint p) s ;;
    t <- (g <- op OGe n x ;; truth g) ;;
    if t : bool then
      x <- matmul c (oint p) s ;;
      r <- mk_seq [r; n; x] ;;
      n <- mk_seq [] ;;
      Ok (n, r)
    else
      x <- matmul c (oint p) s ;;
      r <- mk_seq [r; x] ;;
      Ok (n, r).
  Definition add_body (a : args) : res obj :=
    n <- need 0 "N" a ;;
    s <- need 1 "S" a ;;
    len <- py_len s ;;
    if len =? 0 then mk_seq [n]
    else
      t <- (x <- matmul c (oint 1) s ;; g <- op OGe n x ;; truth g) ;;
      if t : bool then mk_seq [n; s]
      else
        t <- (x <- matmul c (oint len) s ;; g <- op OLe n x ;; truth g) ;;
        if t : bool then mk_seq [s; n]
        else
          r <- mk_seq [] ;;
          nr <- foldM (add_step s) (n, r) (positions len) ;;
          let (n, r) := nr : obj * obj in
          l <- py_len n ;;
          if l =? 0 then Ok r else mk_seq [r; n].
  Definition add_N_to_S : args -> res obj := casting c add_sig add_body.

  (** lines 101-106 *)
  Definition sort_slow_body (a : args) : res obj :=
    s <- need 0 "SEQUENCE" a ;;
    n <- py_len s ;;
    r <- mk_seq [] ;;
    foldM (fun r p => x <- matmul c (oint p) s ;; add_N_to_S (positional [x; r])) r (positions n).
  Definition sort_slow : args -> res obj := casting c seq_sig sort_slow_body.

  (** lines 130-132: sorted with reverse=True keeps equal entries in order.  The
      result of sorted is a list; a float is not iterable. *)
  Definition sort_body (a : args) : res obj :=
    s <- need 0 "SEQUENCE" a ;;
    match s with
    | OSeq l | OSSeq l => mk_seq [OIter (map OV (isort_rev vleb l))]
    | OV _ => Err TypeErr
    | _ => Err Unmodelled
    end.
  Definition sort : args -> res obj := casting c seq_sig sort_body.

  (** lines 146-150 *)
  Definition gwf_helper_sig : sig :=
    sig_of [("roll_1"%string, AN); ("dmg_die"%string, AD); ("min_to_reroll"%string, AN)].
  Definition gwf_helper_body (a : args) : res obj :=
    x <- need 0 "roll_1" a ;;
    d <- need 1 "dmg_die" a ;;
    m <- need 2 "min_to_reroll" a ;;
    t <- (g <- op OLe x m ;; truth g) ;;
    if t : bool then Ok d else Ok x.
  Definition gwf_helper : args -> res obj := casting c gwf_helper_sig gwf_helper_body.

  (** lines 137-143; roll reads and writes the table of known rolls *)
  Definition gwf_sig : sig := mkSig ["num_die"; "dmg_die"; "min_to_reroll"]%string [("num_die"%string, AN)].
  Definition is_int_obj (o : obj) : bool := match o with OV (VN (NI _)) => true | _ => false end.
  Definition gwf_body (a : args) : ST obj :=
    n <~ slift (need 0 "num_die" a) ;;
    d <~ slift (need 1 "dmg_die" a) ;;
    let m := match param 2 "min_to_reroll" a with Some m => m | None => oint 2 end in
    if is_int_obj n then
      d <~ (if is_int_obj d then roll c (oint 1) (Some d) else sret d) ;;
      s <~ slift (gwf_helper [(KName "roll_1", d); (KName "dmg_die", d); (KName "min_to_reroll", m)]) ;;
      roll c n (Some s)
    else slift (Err AssertErr).
  Definition gwf : args -> ST obj := casting_in (F := ST) (@slift) (@sbind) c gwf_sig gwf_body.
End Lib.
