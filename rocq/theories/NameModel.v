(** Model of object identity in roller.py: which objects a roll creates, shares
    and renames, and of RV.__str__. *)
From Coq Require Import String List ZArith Bool.
From Verif Require Import PyBase Num Val RVModel UtilModel Obj RollModel.
Import ListNotations.
Open Scope Z_scope.

(** randvar.py 39: _str_LHS_RHS.  The right side is an int, '{?}' or '{}'.  (The
    left side is an int: a roll whose count is not an int raises.) *)
Inductive rhs : Type := RInt (z : Z) | RUnk | REmpty.
Definition name : Type := Z * rhs.

(** an RV object: what RVModel.v models, and its name *)
Record hobj : Type := mkH { ho_rv : rv; ho_name : name }.

(** All RV objects ever made, by address, and the table of known rolls, which
    holds references. *)
Definition ref : Type := nat.
Record heap : Type := mkHeap { h_objs : list hobj; h_memo : list ((Z * dist) * ref) }.
Definition empty_heap : heap := mkHeap [] [].

Definition deref (h : heap) (r : ref) : hobj := nth r (h_objs h) (mkH (rv_of []) (1, RUnk)).

Definition HT (A : Type) : Type := heap -> res A * heap.
Definition hret {A : Type} (a : A) : HT A := fun h => (Ok a, h).
Definition hlift {A : Type} (r : res A) : HT A := fun h => (r, h).
Definition hbind {A B : Type} (x : HT A) (f : A -> HT B) : HT B :=
  fun h => match x h with (Ok a, h') => f a h' | (Err e, h') => (Err e, h') end.
Notation "x <! e ;; f" := (hbind e (fun x => f))
  (at level 61, e at next level, right associativity) : py_scope.
Fixpoint hmapM {A B : Type} (f : A -> HT B) (l : list A) : HT (list B) :=
  match l with
  | [] => hret []
  | x :: l' => y <! f x ;; ys <! hmapM f l' ;; hret (y :: ys)
  end.

(** a new object, named as in randvar.py 39 *)
Definition alloc (x : rv) : HT ref :=
  fun h => (Ok (length (h_objs h)), mkHeap (h_objs h ++ [mkH x (1, RUnk)]) (h_memo h)).
Definition alloc_res (x : res rv) : HT ref := x <! hlift x ;; alloc x.
Definition get_obj (r : ref) : HT rv := fun h => (Ok (ho_rv (deref h r)), h).
Definition get_name (r : ref) : HT name := fun h => (Ok (ho_name (deref h r)), h).
Fixpoint set_nth {A : Type} (n : nat) (f : A -> A) (l : list A) : list A :=
  match l, n with
  | [], _ => []
  | a :: l', O => f a :: l'
  | a :: l', S n' => a :: set_nth n' f l'
  end.
(** roller.py 53: the assignment to _str_LHS_RHS *)
Definition rename (r : ref) (nm : name) : HT unit :=
  fun h => (Ok tt, mkHeap (set_nth r (fun o => mkH (ho_rv o) nm) (h_objs h)) (h_memo h)).

Fixpoint hmemo_get (m : list ((Z * dist) * ref)) (k : Z * dist) : option ref :=
  match m with
  | [] => None
  | (k', r) :: m' => if key_same k' k then Some r else hmemo_get m' k
  end.
(** roller.py 91-92, 98-99 *)
Definition hmemoised (k : Z * dist) (compute : HT ref) : HT ref :=
  fun h =>
    match hmemo_get (h_memo h) k with
    | Some r => (Ok r, h)
    | None =>
        match compute h with
        | (Ok r, h') => (Ok r, mkHeap (h_objs h') ((k, r) :: h_memo h'))
        | (Err e, h') => (Err e, h')
        end
    end.

(** roller.py 84-99, n >= 1; the result is a new object (the intermediate sum of the odd case, which
    nothing refers to, is not allocated) *)
Fixpoint hroll_pos (c : cfg) (p : positive) (d : ref) : HT ref :=
  match p with
  | xH => hret d
  | xO q =>
      dv <! get_obj d ;;
      hmemoised (Zpos p, rv_dist dv)
        (half <! hroll_pos c q d ;;
         hv <! get_obj half ;;
         full <! hlift (rv_op c OAdd (rv_dist hv) (rv_dist hv)) ;;
         alloc (set_source full (Zpos p) (rv_dist dv)))
  | xI q =>
      dv <! get_obj d ;;
      hmemoised (Zpos p, rv_dist dv)
        (half <! hroll_pos c q d ;;
         hv <! get_obj half ;;
         full <! hlift (rv_op c OAdd (rv_dist hv) (rv_dist hv)) ;;
         full <! hlift (rv_op c OAdd (rv_dist full) (rv_dist dv)) ;;
         alloc (set_source full (Zpos p) (rv_dist dv)))
  end.
Definition hroll_int (c : cfg) (n : Z) (d : ref) : HT ref :=
  match n with
  | Z0 => alloc_res (from_const c (vint 0))
  | Zpos p => hroll_pos c p d
  | Zneg p => r <! hroll_pos c p d ;; x <! get_obj r ;; alloc_res (rv_neg c (rv_dist x))
  end.

(** the count and the die after roller.py 27-50: an int, a sequence (of sum [s]) or an
    RV object; an int, a non-empty sequence or an RV object *)
Inductive hcount : Type := HCInt (n : Z) | HCSeq (s : Z) | HCRef (r : ref).
Inductive hdie : Type := HDInt (z : Z) | HDSeq (l : list pval) | HDRef (r : ref).

(** roller.py 110-119: _setup_str_LHS_RHS *)
Definition setup_name (n : hcount) (d : hdie) : HT name :=
  let l := match n with HCInt n => n | HCSeq s => s | HCRef _ => 0 end in
  match d with
  | HDInt z => hret (l, RInt z)
  | HDSeq [] => hret (l, REmpty)
  | HDSeq _ => hret (l, RUnk)
  | HDRef r =>
      nm <! get_name r ;;
      hret (l, match nm with
               | (dl, RInt z) => if dl =? 1 then RInt z else RUnk
               | _ => RUnk
               end)
  end.

(** roll(n, d) for an int n and an RV object d, as called from _roll *)
Definition hroll_named (c : cfg) (n : Z) (d : ref) : HT ref :=
  r <! hroll_int c n d ;; nm <! setup_name (HCInt n) (HDRef d) ;; _ <! rename r nm ;; hret r.

(** roller.py 57-78: _roll *)
Definition hroll_core (c : cfg) (n : hcount) (d : hdie) : HT ref :=
  d <! (match d with
        | HDInt z => alloc_res (to_die c (DInt z))
        | HDSeq l => alloc_res (to_die c (DSeq l))
        | HDRef r => hret r
        end) ;;
  match n with
  | HCInt n => hroll_int c n d
  | HCSeq s => hroll_named c s d
  | HCRef r =>
      x <! get_obj r ;;
      match all_some (map int_of (vals (rv_dist x))) with
      | None => hlift (Err AssertErr)
      | Some ns =>
          dies <! hmapM (fun n => hroll_named c n d) ns ;;
          dvs <! hmapM get_obj dies ;;
          m <! hlift (from_rvs c (map MxRV dvs) (probs (rv_dist x))) ;;
          dv <! get_obj d ;;
          match m with
          | Some m => alloc (set_source m 1 (rv_dist dv))
          | None => hlift (Err Unmodelled)
          end
      end
  end.

(** roller.py 52-54 *)
Definition hroll (c : cfg) (n : hcount) (d : hdie) : HT ref :=
  r <! hroll_core c n d ;; nm <! setup_name n d ;; _ <! rename r nm ;; hret r.

(** randvar.py 372-386: __str__ *)
Definition rv_str (nm : name) : string :=
  let (s, d) := nm in
  let LHS := (if (1 <? Z.abs s)%Z then str_of_Z (Z.abs s) else "")%string in
  match d with
  | RInt d =>
      let sign := (if (0 <=? s * d)%Z then "" else "-")%string in
      let RHS := (if (s * d =? 0)%Z then "{0..0}" else str_of_Z (Z.abs d))%string in
      (sign ++ LHS ++ "d" ++ RHS)%string
  | REmpty => "d{}"%string
  | RUnk => (if (s =? 0)%Z then "d{0..0}" else LHS ++ "d{?}")%string
  end.
