(** Specification vocabulary for decorated functions: what each parameter
    receives, and the law of the result. *)
From Coq Require Import String List ZArith QArith Bool Sorted.
From Verif Require Import PyBase Num Val RVModel Obj RollSpec CastModel Spec RVFacts MixFacts.
Import ListNotations.
Open Scope Z_scope.

(** the fair die over the entries of a sequence (the constant 0 if there is none) *)
Definition fair_die (l : list pval) (x : rv) : Prop :=
  rv_roll x = 1 /\ rv_src x = None /\ canon (rv_dist x) /\
  (l <> [] -> same_law (rv_dist x) (fair l)) /\ (l = [] -> rv_dist x = [(vint 0, 1)]).

(** [passed e o o']: a parameter annotated [e], given [o], receives [o'].
    These are the cases of the table in decorators.py 24-36 that need no
    enumeration, then the arguments the table does not mention. *)
Inductive passed : option ann -> obj -> obj -> Prop :=
| passed_unannotated o : passed None o o
| passed_N_number n : passed (Some AN) (OV (VN n)) (OV (VN n))
| passed_N_seq l : Forall (fun v => v_is_int v = true) l -> passed (Some AN) (OSeq l) (OV (vsumZ l))
| passed_S_int z : passed (Some AS) (oint z) (OSeq [vint z])
| passed_S_seq l : passed (Some AS) (OSeq l) (OSeq l)
| passed_D_number n x : fair_die [VN n] x -> passed (Some AD) (OV (VN n)) (ORV x)
| passed_D_seq l x : fair_die l x -> passed (Some AD) (OSeq l) (ORV x)
| passed_D_die x : passed (Some AD) (ORV x) (ORV x)
| passed_N_seq_float l t : foldM (vop OAdd) (vint 0) l = Ok t -> passed (Some AN) (OSeq l) (OV t)
| passed_S_float m k : passed (Some AS) (OV (VN (NF m k))) (OV (VN (NF m k)))
| passed_S_labels l : passed (Some AS) (OSSeq l) (OSSeq l)
| passed_D_labels l x : fair_die l x -> passed (Some AD) (OSSeq l) (ORV x)
| passed_label e v : passed (Some e) (OV (VS v)) (OV (VS v))
| passed_None e : passed (Some e) ONone ONone
| passed_D_blank b : passed (Some AD) (OBlank b) (OBlank b)
| passed_iterable e l s o : get_seq l = Ok s -> passed (Some e) s o -> passed (Some e) (OIter l) o.

(** the sequences dice can show: every non-increasing tuple of faces once, with
    the weight of the tuples that sort to it *)
Definition sorted_rolls (n : nat) (d : dist) (L : list (list pval * Z)) : Prop :=
  NoDup (map fst L) /\
  (forall t, In t (map fst L) <->
     length t = n /\ Forall (fun a => In a (vals d)) t /\ StronglySorted (fun a b => vleb b a = true) t) /\
  (forall t w, In (t, w) L -> w = mass (fun u => list_eqb veqb (descending u) t) (tuples n d)).

(** [enumerated e o L]: a parameter annotated [e], given the die [o], is tried
    with each of the weighted values [L] *)
Inductive enumerated : option ann -> obj -> list (obj * Z) -> Prop :=
| enumerated_N x : enumerated (Some AN) (ORV x) (image OV (rv_dist x))
| enumerated_S x L : Forall (fun v => is_number v = true) (vals (rv_die x)) -> strict (rv_die x) -> 0 <= rv_roll x ->
    sorted_rolls (Z.to_nat (rv_roll x)) (rv_die x) L ->
    enumerated (Some AS) (ORV x) (image OSeq L).

(** what one argument becomes *)
Inductive received (e : option ann) (o : obj) : obj + list (obj * Z) -> Prop :=
| received_value o' : passed e o o' -> received e o (inl o')
| received_random L : enumerated e o L -> received e o (inr L).

Definition receives (s : sig) (ko : key * obj) (kr : key * (obj + list (obj * Z))) : Prop :=
  fst kr = fst ko /\ received (annotation s (fst ko)) (snd ko) (snd kr).

(** all complete argument lists, the random ones chosen independently *)
Fixpoint scenarios (K : list (key * (obj + list (obj * Z)))) : list (args * Z) :=
  match K with
  | [] => [([], 1)]
  | (k, inl o) :: K' => map (fun aw => ((k, o) :: fst aw, snd aw)) (scenarios K')
  | (k, inr L) :: K' =>
      map (fun xaw => ((k, fst (fst xaw)) :: snd (fst xaw), snd xaw)) (indep L (scenarios K'))
  end.

Definition is_random (kr : key * (obj + list (obj * Z))) : bool :=
  match snd kr with inr _ => true | inl _ => false end.

(** the law of one result: a number is certain, a sequence counts as its sum, a
    blank or None is no result *)
Definition result_law (o : obj) : option dist :=
  match o with
  | OV v => Some [(v, 1)]
  | OSeq l => Some [(vsumZ l, 1)]
  | ORV x => Some (rv_dist x)
  | _ => None
  end.

(** results to which the law of total probability applies: numbers, integer
    sequences, dice of positive weight, blank and None *)
Definition usable (o : obj) : Prop :=
  match o with
  | OV _ | OBlank _ | ONone => True
  | OSeq l => Forall (fun v => v_is_int v = true) l
  | ORV x => proper (rv_dist x)
  | _ => False
  end.

(** the weighted laws of the scenarios in which [f] gives a result *)
Fixpoint outcomes (f : args -> res obj) (sc : list (args * Z)) : list (Z * dist) :=
  match sc with
  | [] => []
  | (a, w) :: sc' =>
      match f a with
      | Ok o => match result_law o with Some d => (w, d) :: outcomes f sc' | None => outcomes f sc' end
      | Err _ => outcomes f sc'
      end
  end.

(** no enumerated die has a negative weight (true of every die the library makes) *)
Definition nonneg_die (e : option ann) (o : obj) : Prop :=
  match e, o with
  | Some AN, ORV x => nonneg (rv_dist x)
  | Some AS, ORV x => nonneg (rv_die x)
  | _, _ => True
  end.
Definition dice_nonneg (s : sig) (a : args) : Prop :=
  Forall (fun ko => nonneg_die (annotation s (fst ko)) (snd ko)) a.
