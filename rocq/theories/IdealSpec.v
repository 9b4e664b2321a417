(** What dice programs compute in terms of exact probabilities: another runtime
    (Runtime.v), in which a die is the list of its values with their probabilities
    and nothing is known of the library.

    It covers whole numbers, texts, sequences of whole numbers, dice and blanks.
    Whatever it does not cover, and dice whose probabilities have no common
    denominator up to 10^30, are [Unmodelled]. *)
From Coq Require Import String Ascii List ZArith QArith Qreduction Bool.
From Verif Require Import PyBase UtilModel LexModel ParseModel SynSpec Runtime.
Import ListNotations.
Open Scope string_scope.
Open Scope Z_scope.
Open Scope list_scope.
Open Scope run_scope.

(** ** Laws: outcomes with their probabilities *)

Definition law (A : Type) : Type := list (A * Q).
Definition sure {A : Type} (a : A) : law A := [(a, 1%Q)].
(** first [l], then something that depends on its outcome *)
Definition draw {A B : Type} (l : law A) (f : A -> law B) : law B :=
  flat_map (fun aq => map (fun br => (fst br, (snd aq * snd br)%Q)) (f (fst aq))) l.
(** the probability of an event *)
Fixpoint chance {A : Type} (P : A -> bool) (l : law A) : Q :=
  match l with
  | [] => 0
  | (a, q) :: l' => ((if P a then q else 0) + chance P l')%Q
  end.

(** A die: its values from the lowest to the highest. *)
Definition table : Type := law Z.
Definition prob (t : table) (z : Z) : Q := chance (Z.eqb z) t.

Fixpoint add_to (z : Z) (q : Q) (t : table) : table :=
  match t with
  | [] => [(z, Qred q)]
  | (y, r) :: t' =>
      match z ?= y with
      | Lt => (z, Qred q) :: t
      | Eq => (z, Qred (q + r)) :: t'
      | Gt => (y, r) :: add_to z q t'
      end
  end.
(** sorted, with equal values put together *)
Definition collect (l : law Z) : table := fold_right (fun zq t => add_to (fst zq) (snd zq) t) [] l.

(** the least common denominator *)
Definition lcd (t : table) : Z := fold_right (fun zq d => Z.lcm (Zpos (Qden (snd zq))) d) 1 t.
Definition bound : Z := 10 ^ 30.

(** ** Dice *)

Definition sum (l : list Z) : Z := fold_right Z.add 0 l.
(** each entry equally likely *)
Definition fair (l : list Z) : table := collect (map (fun z => (z, 1 # Pos.of_nat (length l))) l).
Definition from_to (a b : Z) : list Z := map (fun i => a + Z.of_nat i) (seq 0 (Z.to_nat (b + 1 - a))).
(** d6 shows 1..6, d(-6) shows -6..-1, d0 shows 0 *)
Definition sides (m : Z) : table :=
  if 0 <? m then fair (from_to 1 m) else if m =? 0 then sure 0 else fair (from_to m (-1)).
(** the sum of [n] independent rolls *)
Fixpoint several (n : nat) (t : table) : table :=
  match n with
  | O => sure 0
  | S n' => let r := several n' t in collect (draw t (fun x => draw r (fun y => sure (x + y))))
  end.
Definition opposite (t : table) : table := collect (draw t (fun x => sure (- x))).
(** a negative number of dice counts negatively *)
Definition pool (n : Z) (t : table) : table :=
  if 0 <=? n then several (Z.to_nat n) t else opposite (several (Z.to_nat (- n)) t).

(** the results of [n] independent rolls, in order *)
Fixpoint rolls (n : nat) (t : table) : law (list Z) :=
  match n with
  | O => sure []
  | S n' => let r := rolls n' t in draw t (fun x => draw r (fun l => sure (x :: l)))
  end.
(** from the highest to the lowest *)
Fixpoint put_in (z : Z) (l : list Z) : list Z :=
  match l with
  | [] => [z]
  | y :: l' => if y <=? z then z :: l else y :: put_in z l'
  end.
Definition downwards (l : list Z) : list Z := fold_right put_in [] l.
(** in the order of positions: from the highest, or from the lowest *)
Definition in_order (highest : bool) (l : list Z) : list Z := if highest then downwards l else rev (downwards l).
(** the non-increasing lists of [n] of the given values *)
Fixpoint lists_of (n : nat) (vs : list Z) : list (list Z) :=
  match n with
  | O => [[]]
  | S n' =>
      (fix go (vs : list Z) : list (list Z) :=
         match vs with
         | [] => []
         | v :: vs' => map (cons v) (lists_of n' vs) ++ go vs'
         end) vs
  end.
Fixpoint same_list (a b : list Z) : bool :=
  match a, b with
  | [], [] => true
  | x :: a', y :: b' => (x =? y) && same_list a' b'
  | _, _ => false
  end.
(** the sequences that [n] dice show, each from the highest to the lowest: one die
    from its lowest value, several from their highest *)
Definition shown (n : nat) (t : table) : law (list Z) :=
  match n with
  | 1%nat => map (fun zq => ([fst zq], snd zq)) t
  | _ => map (fun s => (s, chance (fun l => same_list (downwards l) s) (rolls n t)))
           (lists_of n (rev (map fst t)))
  end.
(** the comparison of two sequences at every position; what is missing counts lowest *)
Fixpoint everywhere (f : Z -> Z -> bool) (more fewer : bool) (l m : list Z) : bool :=
  match l, m with
  | [], [] => true
  | x :: l', y :: m' => f x y && everywhere f more fewer l' m'
  | _ :: _, [] => more
  | [], _ :: _ => fewer
  end.
(** the [i]-th digit of a number, counting from 1; 0 if there is none *)
Definition digits_in (z : Z) : Z := Z.of_nat (String.length (str_of_Z (Z.abs z))).
Definition digit_of (i z : Z) : Z :=
  if (1 <=? i) && (i <=? digits_in z) then z / 10 ^ (digits_in z - i) mod 10 else 0.
(** the [k]-th entry, counting from 1; 0 if there is none *)
Definition nth_of (k : Z) (l : list Z) : Z :=
  if (1 <=? k) && (k <=? Z.of_nat (length l)) then nth (Z.to_nat (k - 1)) l 0 else 0.

(** ** Values *)

(** Of a die it is also known, unless a random number of dice was rolled, which rolls it
    is the sum of. *)
Inductive ival : Type :=
| INum (z : Z)
| IText (s : string)
| ISeq (l : list Z)
| IList (l : list ival)                         (* the elements of a sequence *)
| IDice (t : table) (p : option (nat * table))
| IBlank (lost : bool)       (* no value; lost: made of a blank where a number or sequence was wanted *)
| INone.                                        (* no result *)

Definition a_die (l : law Z) : res ival :=
  let t := collect l in
  if lcd t <=? bound then Ok (IDice t (Some (1%nat, t))) else Err Unmodelled.

(** the number a value stands for *)
Definition amount (v : ival) : option Z :=
  match v with INum z => Some z | ISeq l => Some (sum l) | _ => None end.
Definition amounts (v : ival) : option table :=
  match v with IDice t _ => Some t | _ => option_map sure (amount v) end.

(** ** Operators *)

Definition holds (b : bool) : Z := if b then 1 else 0.
Definition compared (o : binop) (x y : Z) : option bool :=
  match o with
  | OLt => Some (x <? y) | OGt => Some (y <? x) | OLe => Some (x <=? y) | OGe => Some (y <=? x)
  | OEq => Some (x =? y) | ONe => Some (negb (x =? y))
  | _ => None
  end.
(** Division rounds down. *)
Definition computed (o : binop) (x y : Z) : option Z :=
  match o with
  | OAdd => Some (x + y)
  | OSub => Some (x - y)
  | OMul => Some (x * y)
  | ODiv => if y =? 0 then None else Some (x / y)
  | OPow => if y <? 0 then None else Some (x ^ y)
  | _ => option_map holds (compared o x y)
  end.
Definition logical (o : binop) (x y : Z) : option Z :=
  match o with
  | OAnd => Some (holds (negb (x =? 0) && negb (y =? 0)))
  | OOr => Some (holds (negb (x =? 0) || negb (y =? 0)))
  | _ => None
  end.

(** independently of each other *)
Definition both (f : Z -> Z -> option Z) (a b : table) : res ival :=
  if forallb (fun x => forallb (fun y => match f (fst x) (fst y) with Some _ => true | None => false end) b) a
  then a_die (draw a (fun x => draw b (fun y => match f x y with Some z => sure z | None => [] end)))
  else Err Unmodelled.
Definition number (o : option Z) : res ival := match o with Some z => Ok (INum z) | None => Err Unmodelled end.
Definition how_many (f : Z -> option bool) (l : list Z) : Z :=
  Z.of_nat (length (filter (fun z => match f z with Some b => b | None => false end) l)).
Definition is_comparison (o : binop) : bool := match compared o 0 0 with Some _ => true | None => false end.

Definition negative (v : ival) : res ival :=
  match v with
  | INum z => Ok (INum (- z))
  | IDice t _ => a_die (draw t (fun x => sure (- x)))
  | IBlank false => Ok (IBlank false)
  | _ => Err Unmodelled
  end.
Definition plain (v : ival) : bool := match v with INum _ | IDice _ _ | IBlank false => true | _ => false end.
Definition counts (v : ival) : bool := match v with ISeq _ => true | _ => plain v end.
(** A blank counts for nothing in sums, differences and with "or", and makes everything
    else blank. *)
Definition with_blank (o : binop) (a b : ival) : res ival :=
  if counts a && counts b then
    match o with
    | OAdd | OOr => Ok (match a with IBlank _ => b | ISeq l => INum (sum l) | _ => a end)
    | OSub => match a, b with
              | IBlank _, ISeq l => Ok (INum (- sum l))
              | IBlank _, _ => negative b
              | ISeq l, _ => Ok (INum (sum l))
              | _, _ => Ok a
              end
    | OMul | ODiv | OPow | OLt | OGt | OLe | OGe | OEq | ONe | OAnd => Ok (IBlank false)
    | OAt => Err Unmodelled
    end
  else Err Unmodelled.

Definition operate (f : Z -> Z -> option Z) (a b : ival) : res ival :=
  match amount a, amount b with
  | Some x, Some y => number (f x y)
  | _, _ =>
      match amounts a, amounts b with
      | Some s, Some t => both f s t
      | _, _ => Err Unmodelled
      end
  end.
(** A sequence compared with a number: how many of its entries are so. *)
Definition ideal_op (o : binop) (a b : ival) : res ival :=
  match o, a, b with
  | (OAt | OAnd | OOr), _, _ => Err Unmodelled       (* see [ideal_my] and [plain_op] *)
  | _, IBlank _, _ | _, _, IBlank _ => with_blank o a b
  | _, ISeq l, ISeq m =>
      match o with
      | OEq => Ok (INum (holds (same_list l m)))
      | ONe => Ok (INum (holds (negb (same_list l m))))
      | OLt => Ok (INum (holds (everywhere Z.ltb false true l m)))
      | OLe => Ok (INum (holds (everywhere Z.leb false true l m)))
      | OGt => Ok (INum (holds (everywhere Z.gtb true false l m)))
      | OGe => Ok (INum (holds (everywhere Z.geb true false l m)))
      | _ => operate (computed o) a b
      end
  | _, ISeq l, INum z =>
      if is_comparison o then Ok (INum (how_many (fun x => compared o x z) l)) else operate (computed o) a b
  | _, INum z, ISeq l =>
      if is_comparison o then Ok (INum (how_many (fun x => compared o z x) l)) else operate (computed o) a b
  | _, _, _ => operate (computed o) a b
  end.
Definition ideal_un (u : unop) (a : ival) : res ival :=
  match u with
  | UNeg => negative a
  | UPos => if plain a then Ok a else Err Unmodelled
  | UNot => Err Unmodelled
  end.

(** [k @ a]: the k-th highest of a roll, or the k-th lowest if positions are counted from
    the lowest; the k-th entry of a sequence; the k-th digit of a number.  What is not
    there counts 0. *)
Definition ideal_at (highest : bool) (ks : list Z) (v : ival) : res ival :=
  match v with
  | INum z => if z <? 0 then Err Unmodelled else Ok (INum (sum (map (fun k => digit_of k z) ks)))
  | ISeq l => Ok (INum (sum (map (fun k => nth_of k l) ks)))
  | IDice _ (Some (n, t)) =>
      if match ks with [_] => true | _ => highest end then
        if match ks with [k] => negb ((1 <=? k) && (k <=? Z.of_nat n)) | _ => false end then Ok (INum 0)
        else if lcd t ^ Z.of_nat n <=? bound then
          a_die (draw (rolls n t) (fun l => sure (sum (map (fun k => nth_of k (in_order highest l)) ks))))
        else Err Unmodelled
      else Err Unmodelled                            (* the order does not reach them *)
  | _ => Err Unmodelled
  end.
Definition ideal_my (highest : bool) (m : myfn) (l : list ival) : res ival :=
  match m, l with
  | MyAnd, [a; b] => match a, b with
                     | IBlank _, _ | _, IBlank _ => with_blank OAnd a b
                     | _, _ => operate (logical OAnd) a b
                     end
  | MyOr, [a; b] => match a, b with
                    | IBlank _, _ | _, IBlank _ => with_blank OOr a b
                    | _, _ => operate (logical OOr) a b
                    end
  | MyNot, [IBlank false] => Ok (IBlank false)
  | MyNot, [a] => match amount a with Some z => Ok (INum (holds (z =? 0))) | None => Err Unmodelled end
  | MyLen, [INum z] => Ok (INum (digits_in z))
  | MyLen, [ISeq l] => Ok (INum (Z.of_nat (length l)))
  | MyLen, [IDice _ (Some (n, _))] => Ok (INum (Z.of_nat n))
  | MyLen, [IBlank false] => Ok (INum 0)
  | MyAt, [INum k; v] => ideal_at highest [k] v
  | MyAt, [ISeq ks; v] => ideal_at highest ks v
  | _, _ => Err Unmodelled
  end.

(** Without the functions for operators on numbers these mean the same as with them,
    except that of two numbers none is a position, that numbers have no length and no
    negation, and that only truth values are combined. *)
Definition truth_value (z : Z) : bool := (z =? 0) || (z =? 1).
Definition plain_op (highest : bool) (o : binop) (a b : ival) : res ival :=
  match o, a, b with
  | OAt, INum _, INum _ => Err Unmodelled
  | OAt, _, _ => ideal_my highest MyAt [a; b]
  | (OAnd | OOr), INum x, INum y =>
      if truth_value x && truth_value y then number (logical o x y) else Err Unmodelled
  | OAnd, _, _ => ideal_my highest MyAnd [a; b]
  | OOr, _, _ => ideal_my highest MyOr [a; b]
  | _, _, _ => ideal_op o a b
  end.
Definition plain_un (u : unop) (a : ival) : res ival :=
  match u, a with
  | UNot, INum _ => Err Unmodelled
  | UNot, _ => ideal_my true MyNot [a]
  | _, _ => ideal_un u a
  end.
Definition plain_len (a : ival) : res ival :=
  match a with INum _ => Err Unmodelled | _ => ideal_my true MyLen [a] end.

(** ** Rolling *)

Definition the_die (v : ival) : res (table * option (nat * table)) :=
  match v with
  | INum m => let t := sides m in Ok (t, Some (1%nat, t))
  | ISeq (z :: l) => let t := fair (z :: l) in Ok (t, Some (1%nat, t))
  | IDice t p => Ok (t, p)
  | _ => Err Unmodelled
  end.
(** all numbers up to that of the dice thrown keep within the bound *)
Definition roll_ok (n : Z) (t : table) : bool := lcd t ^ Z.abs n <=? bound.
Definition roll_number (n : Z) (tp : table * option (nat * table)) : res ival :=
  let t := fst tp in
  if n =? 1 then Ok (IDice t (snd tp))
  else if roll_ok n t then
    let r := pool n t in
    Ok (IDice r (Some (if 1 <? n then (Z.to_nat n, t) else (1%nat, r))))
  else Err Unmodelled.
Definition roll_random (ns : table) (t : table) : res ival :=
  if forallb (fun nq => roll_ok (fst nq) t) ns then
    let r := collect (draw ns (fun n => pool n t)) in
    if lcd r <=? bound then Ok (IDice r None) else Err Unmodelled
  else Err Unmodelled.
Definition ideal_roll (n : ival) (d : option ival) : res ival :=
  let (n, d) := match d with Some d => (n, d) | None => (INum 1, n) end in
  match n with
  | INum _ | ISeq _ | IDice _ _ | IBlank _ =>
      match d, n with
      | IBlank _, _ => Ok (IBlank false)
      | (INum _ | ISeq _ | IDice _ _), IBlank _ => Ok (IBlank true)
      | ISeq [], _ => Ok (IBlank false)
      | _, _ =>
          tp <- the_die d ;;
          match n with
          | IDice ns _ => roll_random ns (fst tp)
          | _ => match amount n with Some z => roll_number z tp | None => Err Unmodelled end
          end
      end
  | _ => Err Unmodelled
  end.

(** ** Sequences *)

(** numbers, and the values of dice, which come after all numbers *)
Fixpoint entries (v : ival) : res (list Z * list Z) :=
  match v with
  | INum z => Ok ([z], [])
  | ISeq l => Ok (l, [])
  | IDice t _ => Ok ([], map fst t)
  | IBlank _ => Ok ([], [])
  | IList vs =>
      (fix go (vs : list ival) : res (list Z * list Z) :=
         match vs with
         | [] => Ok ([], [])
         | v :: vs' => l <- entries v ;; m <- go vs' ;; Ok (fst l ++ fst m, snd l ++ snd m)
         end) vs
  | _ => Err Unmodelled
  end.
Definition ideal_seq (v : ival) : res ival := rmap (fun nd => ISeq (fst nd ++ snd nd)) (entries v).
Definition ideal_range (a b : ival) : res ival :=
  match a, b with
  | INum x, INum y => Ok (IList (map INum (from_to x y)))
  | _, _ => Err Unmodelled
  end.

(** ** Calls *)

(** What a parameter gets: a value, or one of several, or nothing can be made of it. *)
Inductive given : Type := Fixed (v : ival) | Random (l : law ival) | Lost.
Definition give_kind (k : option kind) (v : ival) : res given :=
  match k, v with
  | None, _ => Ok (Fixed v)
  | Some KN, INum _ => Ok (Fixed v)
  | Some KN, ISeq l => Ok (Fixed (INum (sum l)))
  | Some KN, IDice t _ => Ok (Random (map (fun zq => (INum (fst zq), snd zq)) t))
  | Some KS, INum z => Ok (Fixed (ISeq [z]))
  | Some KS, ISeq _ => Ok (Fixed v)
  | Some KS, IDice _ (Some (n, t)) => Ok (Random (map (fun lq => (ISeq (fst lq), snd lq)) (shown n t)))
  | Some (KN | KS), IBlank _ => Ok Lost
  | Some KD, INum z => Ok (Fixed (IDice (sure z) (Some (1%nat, sure z))))
  | Some KD, ISeq (z :: l) => let t := fair (z :: l) in Ok (Fixed (IDice t (Some (1%nat, t))))
  | Some KD, (IDice _ _ | IBlank _) => Ok (Fixed v)
  | _, _ => Err Unmodelled
  end.
Fixpoint give_kinds (ks : list (option kind)) (vs : list ival) : res (list given) :=
  match ks, vs with
  | [], [] => Ok []
  | k :: ks', v :: vs' => g <- give_kind k v ;; gs <- give_kinds ks' vs' ;; Ok (g :: gs)
  | _, _ => Err TypeErr
  end.
Definition is_lost (g : given) : bool := match g with Lost => true | _ => false end.
Definition is_random (g : given) : bool := match g with Random _ => true | _ => false end.
(** all that the parameters may be, independently of each other *)
Fixpoint scenarios (gs : list given) : law (list ival) :=
  match gs with
  | [] => sure []
  | Fixed v :: gs' => draw (scenarios gs') (fun vs => sure (v :: vs))
  | Random l :: gs' => let r := scenarios gs' in draw l (fun v => draw r (fun vs => sure (v :: vs)))
  | Lost :: _ => []
  end.

(** the law of one result; blanks and no results do not count *)
Definition outcome (v : ival) : res (option table) :=
  match v with
  | INum z => Ok (Some (sure z))
  | ISeq l => Ok (Some (sure (sum l)))
  | IDice t _ => Ok (Some t)
  | IBlank _ | INone => Ok None
  | IText _ | IList _ => Err Unmodelled
  end.
Fixpoint that_count (rs : list (option table * Q)) : law table :=
  match rs with
  | [] => []
  | (Some t, q) :: rs' => (t, q) :: that_count rs'
  | (None, _) :: rs' => that_count rs'
  end.
(** the probabilities of the results, given that there is one *)
Definition mixed (rs : list (option table * Q)) : res ival :=
  match that_count rs with
  | [] => Ok (IBlank false)
  | l =>
      let all := chance (fun _ => true) l in
      a_die (draw (map (fun tq => (fst tq, (snd tq / all)%Q)) l) (fun t => t))
  end.

(** a function applied to arguments of certain kinds *)
Definition over (ks : list (option kind)) (f : list ival -> res ival) (l : list ival) : res ival :=
  gs <- give_kinds ks l ;;
  if existsb is_lost gs then Ok (IBlank true)
  else if existsb is_random gs then
    let sc := scenarios gs in
    ts <- mapM (fun vq => v <- f (fst vq) ;; outcome v) sc ;;
    mixed (combine ts (map snd sc))
  else f (map (fun g => match g with Fixed v => v | _ => INone end) gs).

(** ** The functions of the library *)

Definition lib_kinds (f : libfn) : list (option kind) :=
  match f with
  | LAbsolute => [Some KN]
  | LContains => [Some KS; Some KN]
  | LCount => [Some KS; Some KS]
  | LExplode | LMaximum => [Some KD]
  | LHighest | LLowest | LMiddle => [Some KN; Some KD]
  | LHighestOf | LLowestOf => [Some KN; Some KN]
  | LReverse | LSort => [Some KS]
  | LDiv => [None; None]
  end.
(** the sum of some of the rolls, chosen from those in falling order *)
Definition kept (f : list Z -> list Z) (n : nat) (t : table) : res ival :=
  if lcd t ^ Z.of_nat n <=? bound then a_die (draw (rolls n t) (fun l => sure (sum (f (downwards l))))) else Err Unmodelled.
(** add up rolls as long as they are the highest possible *)
Fixpoint burst (m : Z) (l : list Z) : Z :=
  match l with
  | [] => 0
  | z :: l' => z + (if z =? m then burst m l' else 0)
  end.
Definition top_of (t : table) : Z := last (map fst t) 0.
Definition lib_value (depth : Z) (highest : bool) (f : libfn) (l : list ival) : res ival :=
  match f, l with
  | LAbsolute, [INum z] => Ok (INum (Z.abs z))
  | LContains, [ISeq l; INum z] => Ok (INum (holds (existsb (Z.eqb z) l)))
  | LCount, [ISeq vs; ISeq l] => Ok (INum (sum (map (fun v => Z.of_nat (length (filter (Z.eqb v) l))) vs)))
  | LMaximum, [IDice t _] => Ok (INum (top_of t))
  | LExplode, [IDice t _] =>
      if lcd t ^ (depth + 1) <=? bound then
        a_die (draw (rolls (Z.to_nat (depth + 1)) t) (fun l => sure (burst (top_of t) l)))
      else Err Unmodelled
  | LHighest, [INum k; IDice _ (Some (n, t))] => if highest then kept (firstn (Z.to_nat k)) n t else Err Unmodelled
  | LLowest, [INum k; IDice _ (Some (n, t))] => if highest then kept (skipn (n - Z.to_nat k)) n t else Err Unmodelled
  | LMiddle, [INum k; IDice t (Some (n, s))] =>
      if k =? Z.of_nat n then Ok (IDice t (Some (n, s)))
      else if highest then
        kept (fun l => firstn (Z.to_nat k) (skipn (Z.to_nat ((Z.of_nat n - k) / 2)) l)) n s
      else Err Unmodelled
  | LHighestOf, [INum a; INum b] => Ok (INum (Z.max a b))
  | LLowestOf, [INum a; INum b] => Ok (INum (Z.min a b))
  | LReverse, [ISeq l] => Ok (ISeq (rev l))
  | LSort, [ISeq l] => Ok (ISeq (downwards l))
  | _, _ => Err Unmodelled
  end.

(** the depth of calls, its limit, how often dice explode, the order of positions, what
    was output *)
Record iworld : Type := mkIworld {
  iw_depth : Z; iw_limit : Z; iw_explode : Z; iw_highest : bool; iw_outputs : list (ival * option ival) }.
Definition ideal_start : iworld := mkIworld 0 10 2 true [].
Notation IM := (Runtime.M iworld).

Definition ideal_body (ks : list (option kind)) (f : list ival -> IM ival) (l : list ival) : IM ival :=
  gs <== lift (give_kinds ks l) ;;
  if existsb is_lost gs then ret (IBlank true)
  else if existsb is_random gs then
    let sc := scenarios gs in
    ts <== each (fun vq => v <== f (fst vq) ;; lift (outcome v)) sc ;;
    lift (mixed (combine ts (map snd sc)))
  else f (map (fun g => match g with Fixed v => v | _ => INone end) gs).
Definition change_depth (n : Z) : IM unit :=
  fun w => Some (Ok Datatypes.tt, mkIworld (iw_depth w + n) (iw_limit w) (iw_explode w) (iw_highest w) (iw_outputs w)).
(** Too deep a call has no value. *)
Definition ideal_call (ks : list (option kind)) (f : list ival -> IM ival) (l : list ival) : IM ival :=
  w <== (fun w => Some (Ok w, w)) ;;
  if iw_limit w <=? iw_depth w then ret (IBlank false)
  else
    u <== change_depth 1 ;;
    v <== ideal_body ks f l ;;
    u <== change_depth (-1) ;;
    ret (match v with INone => IBlank false | _ => v end).

(** ** The other parts of the runtime *)

Definition ideal_str (v : ival) : res string :=
  match v with
  | INum z => Ok (str_of_Z z)
  | IText s => Ok s
  | ISeq _ => Ok "{?}"
  | IBlank lost => Ok (if lost then "d{?}" else "d{}")
  | INone => Ok "None"
  | _ => Err Unmodelled
  end.
Definition ideal_truth (v : ival) : res bool :=
  match v with
  | INum z => Ok (negb (z =? 0))
  | ISeq l => Ok (negb (Nat.eqb (length l) 0))
  | _ => Err Unmodelled
  end.
Definition ideal_iter (v : ival) : res (list ival) :=
  match v with ISeq l => Ok (map INum l) | _ => Err Unmodelled end.
Definition ideal_output (v : ival) (name : option ival) : IM ival :=
  fun w => Some (Ok INone, mkIworld (iw_depth w) (iw_limit w) (iw_explode w) (iw_highest w) (iw_outputs w ++ [(v, name)])).
Definition ideal_set (n v : ival) : IM ival :=
  fun w =>
    match n, v with
    | IText s, INum z =>
        if 0 <? z then
          if String.eqb s "maximum function depth" then
            Some (Ok INone, mkIworld (iw_depth w) z (iw_explode w) (iw_highest w) (iw_outputs w))
          else if String.eqb s "explode depth" then
            Some (Ok INone, mkIworld (iw_depth w) (iw_limit w) z (iw_highest w) (iw_outputs w))
          else Some (Err Unmodelled, w)
        else Some (Err Unmodelled, w)
    | IText s, IText o =>
        if String.eqb s "position order" then
          if String.eqb o "highest first" then
            Some (Ok INone, mkIworld (iw_depth w) (iw_limit w) (iw_explode w) true (iw_outputs w))
          else if String.eqb o "lowest first" then
            Some (Ok INone, mkIworld (iw_depth w) (iw_limit w) (iw_explode w) false (iw_outputs w))
          else Some (Err Unmodelled, w)
        else Some (Err Unmodelled, w)
    | _, _ => Some (Err Unmodelled, w)
    end.

Lemma ideal_call_ext : forall ks f g l w, (forall l w, f l w = g l w) -> ideal_call ks f l w = ideal_call ks g l w.
Proof.
  intros ks f g l w H. unfold ideal_call, bnd, change_depth, ret. destruct (iw_limit w <=? iw_depth w); [reflexivity|].
  assert (E : forall w, ideal_body ks f l w = ideal_body ks g l w).
  { intro w'. unfold ideal_body, bnd, lift. destruct (give_kinds ks l) as [gs|e]; [|reflexivity].
    destruct (existsb is_lost gs); [reflexivity|]. destruct (existsb is_random gs); [|apply H].
    assert (X : forall sc w, each (fun vq : list ival * Q => v <== f (fst vq) ;; lift (outcome v)) sc w =
                             each (fun vq : list ival * Q => v <== g (fst vq) ;; lift (outcome v)) sc w).
    { induction sc as [|x sc IH]; intro w1; [reflexivity|]. cbn [each]. unfold bnd in *. rewrite H.
      destruct (g (fst x) w1) as [[[v|e] w2]|]; [|reflexivity..]. unfold lift in *. destruct (outcome v); [|reflexivity].
      rewrite IH. reflexivity. }
    rewrite X. reflexivity. }
  rewrite E. reflexivity.
Qed.

Definition ideal : runtime ival iworld :=
  mkRuntime ival iworld
    INum
    (fun _ _ => Err Unmodelled)
    IText
    IList
    INone
    (fun v => lift (ideal_str v))
    (fun v => lift (ideal_truth v))
    (fun v => lift (ideal_iter v))
    (fun o a b => fun w => Some (plain_op (iw_highest w) o a b, w))
    (fun u a => lift (plain_un u a))
    (fun a => lift (plain_len a))
    (fun n d => lift (ideal_roll n d))
    (fun v => lift (ideal_seq v))
    (fun a b => lift (ideal_range a b))
    ideal_output
    ideal_set
    (fun m l => fun w => Some (ideal_my (iw_highest w) m l, w))
    (fun f l => fun w => Some (over (lib_kinds f) (lib_value (iw_explode w) (iw_highest w) f) l, w))
    ideal_call
    ideal_call_ext.
