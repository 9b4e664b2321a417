(** Model of decorators.py: the casting decorator and the depth limiter. *)
From Coq Require Import String Ascii List ZArith Bool.
From Verif Require Import PyBase Num Val RVModel Obj AtModel.
Import ListNotations.
Open Scope Z_scope.

(** ** Signatures and calls *)

(** typings.py 17-20: the three marker types; [AOther] is any other annotation *)
Inductive ann : Type := AN | AS | AD | AOther.

(** [args] and [kwargs] of a call as one list, positions first (line 45) *)
Inductive key : Type := KPos (i : nat) | KName (s : string).
Definition key_eqb (a b : key) : bool :=
  match a, b with
  | KPos i, KPos j => Nat.eqb i j
  | KName s, KName t => String.eqb s t
  | _, _ => false
  end.
Definition args : Type := list (key * obj).

(** a call with positional arguments only *)
Fixpoint positional_from (i : nat) (l : list obj) : args :=
  match l with
  | [] => []
  | o :: l' => (KPos i, o) :: positional_from (S i) l'
  end.
Definition positional (l : list obj) : args := positional_from 0 l.

(** what inspect.getfullargspec tells: parameter names and annotations (lines 40-42) *)
Record sig : Type := mkSig { sg_names : list string; sg_anns : list (string * ann) }.

Fixpoint lookup {A : Type} (n : string) (l : list (string * A)) : option A :=
  match l with
  | [] => None
  | (m, a) :: l' => if String.eqb m n then Some a else lookup n l'
  end.

(** lines 49-58: the annotation that matters for an argument *)
Definition annotation (s : sig) (k : key) : option ann :=
  let name := match k with KPos i => nth_error (sg_names s) i | KName n => Some n end in
  match name with
  | None => None
  | Some n => match lookup n (sg_anns s) with Some AOther => None | a => a end
  end.

(** ** Casting one argument, lines 60-94 *)

Inductive cast : Type :=
| CKeep                (* passed as it is *)
| CNew (o : obj)       (* replaced *)
| CHard (x : rv)       (* a die for a number or sequence parameter *)
| CAbort.              (* a blank for a number or sequence parameter *)

(** [tuple(s)] for a str: its characters *)
Definition chars (s : string) : list obj := letters s.

(** [get_seq( *o )] for an iterable that is not a sequence *)
Definition spread (o : obj) : option (list obj) :=
  match o with
  | OIter l => Some l
  | OStr s => Some (chars s)
  | _ => None
  end.

Definition cast1 (c : cfg) (e : ann) (o : obj) : res cast :=
  match o with
  | OBlank _ => Ok (match e with AN | AS => CAbort | _ => CKeep end)
  | _ =>
      '(o, casted) <- (match spread o with
                       | Some l => s <- get_seq l ;; Ok (s, true)
                       | None => Ok (o, false)
                       end) ;;
      match e, o with
      | AN, (OSeq _ | OSSeq _) => t <- meta_sum o ;; Ok (CNew (OV t))
      | AN, ORV x => Ok (CHard x)
      | AS, OV (VN (NI _)) => s <- get_seq [OIter [o]] ;; Ok (CNew s)
      | AS, ORV x => Ok (CHard x)
      | AD, OV (VN _) => x <- get_rv c o ;; Ok (CNew (ORV x))
      | AD, (OSeq _ | OSSeq _) => x <- get_rv c o ;; Ok (CNew (ORV x))
      | _, _ => Ok (if casted : bool then CNew o else CKeep)
      end
  end.

(** ** All arguments, lines 44-98 *)

Definition set_arg (k : key) (o : obj) (a : args) : args :=
  map (fun ko => if key_eqb k (fst ko) then (fst ko, o) else ko) a.

(** the dice that must be enumerated, with the annotation of their parameter *)
Definition hard : Type := list (key * (ann * rv)).

(** [None]: the call is aborted, line 64 *)
Fixpoint cast_all (c : cfg) (s : sig) (todo : args) (a : args) (h : hard) : res (option (args * hard)) :=
  match todo with
  | [] => Ok (Some (a, h))
  | (k, o) :: todo' =>
      match annotation s k with
      | None => cast_all c s todo' a h
      | Some e =>
          t <- cast1 c e o ;;
          match t with
          | CAbort => Ok None
          | CKeep => cast_all c s todo' a h
          | CNew o' => cast_all c s todo' (set_arg k o' a) h
          | CHard x => cast_all c s todo' a (h ++ [(k, (e, x))])
          end
      end
  end.

(** ** The calls to make, lines 99-127 *)

(** lines 104-113: the values a die takes for its parameter *)
Definition hard_values (ex : ann * rv) : res (list (obj * Z)) :=
  match ex with
  | (AS, x) => roll_seqs x
  | (_, x) => Ok (map (fun vp => (OV (fst vp), snd vp)) (rv_dist x))
  end.

(** line 115: itertools.product, with the product of the weights (line 121) *)
Fixpoint product {A : Type} (ls : list (list (A * Z))) : list (list A * Z) :=
  match ls with
  | [] => [([], 1)]
  | l :: ls' => flat_map (fun x => map (fun t => (fst x :: fst t, snd x * snd t)) (product ls')) l
  end.

(** lines 123-127 *)
Definition fill (a : args) (ks : list key) (vs : list obj) : args :=
  fold_left (fun a kv => set_arg (fst kv) (snd kv) a) (combine ks vs) a.

Inductive plan : Type :=
| PAbort
| PDirect (a : args)
| PProduct (calls : list (args * Z)).

Definition make_plan (c : cfg) (s : sig) (a : args) : res plan :=
  r <- cast_all c s a a [] ;;
  match r with
  | None => Ok PAbort
  | Some (a', []) => Ok (PDirect a')
  | Some (a', h) =>
      ls <- mapM hard_values (map snd h) ;;
      Ok (PProduct (map (fun vw => (fill a' (map fst h) (fst vw), snd vw)) (product ls)))
  end.

(** ** Collecting the results, lines 128-137 *)

(** lines 129-132 *)
Definition single (o : obj) : res obj :=
  match o with
  | OSeq _ | OSSeq _ => t <- meta_sum o ;; Ok (OV t)
  | _ =>
      match spread o with
      | Some l => s <- get_seq l ;; t <- meta_sum s ;; Ok (OV t)
      | None => Ok o
      end
  end.

Definition to_mixin (o : obj) : res mixin :=
  match o with
  | OV v => Ok (MxVal v)
  | ORV x => Ok (MxRV x)
  | OBlank _ | ONone => Ok MxBlank
  | _ => Err Unmodelled   (* does not happen after [single] *)
  end.

(** factory.py 38-39: merge_rvs *)
Definition merge (c : cfg) (os : list obj) (ws : list Z) : res obj :=
  ms <- mapM to_mixin os ;;
  r <- from_rvs c ms ws ;;
  Ok (match r with Some x => ORV x | None => OBlank false end).

(** ** The decorator, lines 38-138, over any way [F] of running the function *)
Section Decorator.
  Context {F : Type -> Type} (ret : forall A, res A -> F A) (bnd : forall A B, F A -> (A -> F B) -> F B).
  Arguments ret {A} _.
  Arguments bnd {A B} _ _.

  Fixpoint mapF {A B : Type} (f : A -> F B) (l : list A) : F (list B) :=
    match l with
    | [] => ret (Ok [])
    | x :: l' => bnd (f x) (fun y => bnd (mapF f l') (fun ys => ret (Ok (y :: ys))))
    end.

  Definition casting_in (c : cfg) (s : sig) (f : args -> F obj) (a : args) : F obj :=
    bnd (ret (make_plan c s a)) (fun p =>
      match p with
      | PAbort => ret (Ok (OBlank true))
      | PDirect a' => f a'
      | PProduct calls =>
          bnd (mapF (fun aw => bnd (f (fst aw)) (fun o => ret (single o))) calls)
              (fun os => ret (merge c os (map snd calls)))
      end).
End Decorator.

(** the decorator around a function without side effects *)
Definition casting (c : cfg) (s : sig) (f : args -> res obj) (a : args) : res obj :=
  casting_in (F := res) (fun A r => r) (@bind) c s f a.

(** ** The depth limiter, lines 142-158 *)

(** The settings it uses, then four counters that observe a run and that no
    modelled code reads: bodies running now, the largest such number, decorated
    calls that raised, and times the message of lines 149-150 was printed. *)
Record world : Type := mkW {
  w_depth : Z;       (* SETTINGS['INTERNAL_CURR_DEPTH'] *)
  w_warned : bool;   (* SETTINGS['INTERNAL_CURR_DEPTH_WARNING_PRINTED'] *)
  w_max : Z;         (* SETTINGS['maximum function depth'] *)
  w_active : Z;
  w_peak : Z;
  w_failed : Z;
  w_printed : Z }.

(** Running code: [None] means that the given fuel was not enough. *)
Definition M (A : Type) : Type := world -> option (res A * world).
Definition mret {A : Type} (r : res A) : M A := fun w => Some (r, w).
Definition mbind {A B : Type} (m : M A) (f : A -> M B) : M B :=
  fun w => match m w with
           | Some (Ok a, w') => f a w'
           | Some (Err e, w') => Some (Err e, w')
           | None => None
           end.

Definition add_depth (n : Z) (w : world) : world :=
  mkW (w_depth w + n) (w_warned w) (w_max w) (w_active w) (w_peak w) (w_failed w) (w_printed w).
Definition fail_count (w : world) : world :=
  mkW (w_depth w) (w_warned w) (w_max w) (w_active w) (w_peak w) (w_failed w + 1) (w_printed w).
Definition warn (w : world) : world :=
  if w_warned w then w
  else mkW (w_depth w) true (w_max w) (w_active w) (w_peak w) (w_failed w) (w_printed w + 1).

Definition limited (f : args -> M obj) (a : args) : M obj :=
  fun w =>
    if w_max w <=? w_depth w then Some (Ok (OBlank false), warn w)
    else
      match f a (add_depth 1 w) with
      | Some (Ok o, w') => Some (Ok (match o with ONone => OBlank false | _ => o end), add_depth (-1) w')
      | Some (Err e, w') => Some (Err e, fail_count w')
      | None => None
      end.

(** observes a running body; not in the code *)
Definition observed (m : M obj) : M obj :=
  fun w =>
    let n := w_active w + 1 in
    match m (mkW (w_depth w) (w_warned w) (w_max w) n (Z.max (w_peak w) n) (w_failed w) (w_printed w)) with
    | Some (r, w') =>
        Some (r, mkW (w_depth w') (w_warned w') (w_max w') (w_active w' - 1) (w_peak w') (w_failed w') (w_printed w'))
    | None => None
    end.

(** ** Programs of decorated functions

    A body may return, raise, call decorated functions (and go on with the value
    or handle the exception), or change the settings the limiter uses; everything
    else it computes is an arbitrary function of what it has seen. *)
Inductive code : Type :=
| Ret (o : obj)
| Raise (e : pyerr)
| Call (f : nat) (a : args) (k : res obj -> code)
| SetMax (n : positive) (k : code)    (* settings_set("maximum function depth", n) *)
| Reset (k : code).                   (* settings_reset(), settings.py 40-42 *)

Record fdef : Type := mkF { fd_sig : sig; fd_body : args -> code }.
Definition program : Type := nat -> fdef.

Definition set_max (n : Z) (w : world) : world :=
  mkW (w_depth w) (w_warned w) n (w_active w) (w_peak w) (w_failed w) (w_printed w).
(** the defaults of settings.py 4-15 *)
Definition reset (w : world) : world :=
  mkW 0 false 10 (w_active w) (w_peak w) (w_failed w) (w_printed w).

Fixpoint run (callf : nat -> args -> M obj) (p : code) : M obj :=
  match p with
  | Ret o => mret (Ok o)
  | Raise e => mret (Err e)
  | Call f a k => fun w => match callf f a w with Some (r, w') => run callf (k r) w' | None => None end
  | SetMax n k => fun w => run callf k (set_max (Zpos n) w)
  | Reset k => fun w => run callf k (reset w)
  end.

(** lines 16-19: anydice_casting is max_func_depth around anydice_type_casting *)
Fixpoint call_fn (fuel : nat) (c : cfg) (P : program) (f : nat) (a : args) : M obj :=
  match fuel with
  | O => fun _ => None
  | S n =>
      limited (casting_in (@mret) (@mbind) c (fd_sig (P f))
                 (fun a' => observed (run (call_fn n c P) (fd_body (P f) a')))) a
  end.

(** a script at top level *)
Definition exec (fuel : nat) (c : cfg) (P : program) (script : code) : M obj :=
  run (call_fn fuel c P) script.

Definition fresh (mx : Z) : world := mkW 0 false mx 0 0 0 0.
