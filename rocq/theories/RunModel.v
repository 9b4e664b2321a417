(** The library as a runtime: what running programs asks of it (Runtime.v), answered by
    the models of settings.py, roller.py, decorators.py, factory.py, utils.py and
    funclib.py.

    A setting that the readers of the settings cannot use, a number for the flags
    RV_TRUNC and RV_IGNORE_ZERO_PROBS (True is 1 in these models), and the text of
    floats, of labels with floats and of dice inside a string are [Unmodelled]. *)
From Coq Require Import String Ascii List ZArith Bool.
From Verif Require Import PyBase Num Val RVModel UtilModel Obj AtModel CastModel DispModel RollModel RollerModel
  LibModel SettingsModel LexModel ParseModel SynSpec Runtime.
From Verif Require AltModel.
Import ListNotations.
Open Scope string_scope.
Open Scope list_scope.
Open Scope run_scope.

(** SETTINGS of settings.py; _MEMOIZED_ROLLS of roller.py 81; all_outputs of
    parse_and_exec.py 133, 136; how often the message of
    decorators.py 147-150 was printed *)
Record world : Type := mkWorld {
  rw_settings : settings; rw_memo : memo; rw_outputs : list (obj * option obj); rw_printed : nat }.

(** importing the package *)
Definition fresh_world : world := mkWorld defaults [] [] 0.

Notation Run := (Runtime.M world).

Definition settings_now : Run settings := fun w => Some (Ok (rw_settings w), w).
Definition change_settings (f : settings -> settings) : Run unit :=
  fun w => Some (Ok Datatypes.tt, mkWorld (f (rw_settings w)) (rw_memo w) (rw_outputs w) (rw_printed w)).
(** what the library reads of the settings *)
Definition cfg_now : Run cfg :=
  s <== settings_now ;; lift (match cfg_of s with Some c => Ok c | None => Err Unmodelled end).
Definition with_cfg {A : Type} (f : cfg -> res A) : Run A := c <== cfg_now ;; lift (f c).
(** code that uses the table of known rolls *)
Definition with_memo {A : Type} (f : cfg -> ST A) : Run A :=
  c <== cfg_now ;;
  fun w => let (r, m) := f c (rw_memo w) in Some (r, mkWorld (rw_settings w) m (rw_outputs w) (rw_printed w)).

(** ** Values and what Python asks of them *)

(** string_rvs.py 46-61; the text of floats is not used *)
Definition all_ints (s : Val.sval) : bool := forallb (fun kv => match snd kv with NI _ => true | NF _ _ => false end) s.
Definition text_of_label (s : Val.sval) : string := AltModel.label_repr (fun _ _ => "") s.

(** [f"{x}"] and [str(x)]: seq.py 32-33 for sequences, blackrv.py 169-172 for blanks *)
Definition text_of (o : obj) : res string :=
  match o with
  | OV (VN (NI z)) => Ok (str_of_Z z)
  | OV (VS s) => if all_ints s then Ok (text_of_label s) else Err Unmodelled
  | OStr s => Ok s
  | OSeq _ | OSSeq _ => Ok "{?}"
  | OBlank special => Ok (if special then "d{?}" else "d{}")
  | ONone => Ok "None"
  | _ => Err Unmodelled
  end.

(** [iter(x)]: RV and BlankRV define neither [__iter__] nor [__getitem__] *)
Definition items_of (o : obj) : res (list obj) :=
  match o with
  | OSeq l | OSSeq l => Ok (map OV l)
  | OIter l => Ok l
  | OStr s => Ok (CastModel.chars s)
  | _ => Err TypeErr
  end.

(** the operators of the language as operators of Python *)
Definition python_op (o : SynSpec.binop) : option Val.binop :=
  match o with
  | SynSpec.OAdd => Some Val.OAdd | SynSpec.OSub => Some Val.OSub | SynSpec.OMul => Some Val.OMul
  | SynSpec.ODiv => Some Val.OFloorDiv | SynSpec.OPow => Some Val.OPow
  | SynSpec.OAnd => Some Val.OAnd | SynSpec.OOr => Some Val.OOr
  | SynSpec.OLt => Some Val.OLt | SynSpec.OGt => Some Val.OGt | SynSpec.OEq => Some Val.OEq
  | SynSpec.ONe => Some Val.ONe | SynSpec.OLe => Some Val.OLe | SynSpec.OGe => Some Val.OGe
  | SynSpec.OAt => None
  end.
Definition run_op (o : SynSpec.binop) (a b : obj) : Run obj :=
  with_cfg (fun c => match python_op o with Some p => py_op c p a b | None => matmul c a b end).

(** [+x]: randvar.py 348-349, blackrv.py 143-144; [~x] of an int is [-x - 1] *)
Definition pos_obj (o : obj) : res obj :=
  match o with OV (VN _) | ORV _ | OBlank _ => Ok o | _ => Err TypeErr end.
Definition run_un (u : unop) (a : obj) : Run obj :=
  with_cfg (fun c =>
    match u with
    | UPos => pos_obj a
    | UNeg => neg_obj c a
    | UNot => match a with OV (VN (NI z)) => Ok (oint (Z.lnot z)) | _ => my_invert c a end
    end).

(** ** Helpers *)

(** [text == x] as asked by settings.py 20: Seq, RV and text are not modelled *)
Definition equals_text (o : obj) (t : string) : res bool :=
  match o with
  | OBlank b => if b then Ok true else Err TypeErr       (* blackrv.py 84-87, 135-136 *)
  | ORV _ | OSeq _ | OSSeq _ => Err Unmodelled
  | _ => Ok false
  end.
Definition setting_value (o : obj) : value :=
  match o with
  | OV (VN (NI z)) => SInt z
  | OStr s => SText s
  | _ => SObj false (equals_text o)
  end.
(** settings.py 19-37; it returns None *)
Definition set_setting (n v : obj) : Run obj :=
  match n with
  | OStr s =>
      match (String.eqb s "RV_TRUNC" || String.eqb s "RV_IGNORE_ZERO_PROBS")%bool, v with
      | true, OV (VN (NI _)) => raise Unmodelled
      | _, _ =>
          fun w => let (r, s') := settings_set s (setting_value v) (rw_settings w) in
                   Some (rmap (fun _ => ONone) r, mkWorld s' (rw_memo w) (rw_outputs w) (rw_printed w))
      end
  | _ => raise Unmodelled
  end.

(** parse_and_exec.py 136; [append] returns None *)
Definition record_output (v : obj) (name : option obj) : Run obj :=
  fun w => Some (Ok ONone, mkWorld (rw_settings w) (rw_memo w) (rw_outputs w ++ [(v, name)]) (rw_printed w)).

(** utils.py 33-60 *)
Definition run_my (m : myfn) (l : list obj) : Run obj :=
  with_cfg (fun c =>
    match m, l with
    | MyAt, [a; b] => my_matmul c a b
    | MyLen, [a] => rmap oint (my_len a)
    | MyNot, [a] => my_invert c a
    | MyAnd, [a; b] => my_op c Val.OAnd a b
    | MyOr, [a; b] => my_op c Val.OOr a b
    | _, _ => Err TypeErr
    end).

(** parse_and_exec.py 56-59 *)
Definition run_lib (f : libfn) (l : list obj) : Run obj :=
  with_cfg (fun c =>
    let a := positional l in
    match f with
    | LAbsolute => absolute c a
    | LContains => contains c a
    | LCount => count_in c a
    | LExplode => explode c a
    | LHighest => highest_N_of_D c a
    | LLowest => lowest_N_of_D c a
    | LMiddle => middle_N_of_D c a
    | LHighestOf => highest_of c a
    | LLowestOf => lowest_of c a
    | LMaximum => maximum_of c a
    | LReverse => reverse c a
    | LSort => sort c a
    | LDiv => match l with [x; y] => py_op c Val.OTrueDiv x y | _ => Err TypeErr end
    end).

(** ** Decorated functions *)

(** What getfullargspec tells: the names of parameters matter only for finding their
    annotations, so the names here are made up. *)
Fixpoint made_up (i : nat) : string := match i with O => "" | S j => String "x" (made_up j) end.
Definition ann_of (k : kind) : ann := match k with KN => AN | KS => AS | KD => AD end.
Fixpoint anns_from (i : nat) (ks : list (option kind)) : list (string * ann) :=
  match ks with
  | [] => []
  | Some k :: ks' => (made_up i, ann_of k) :: anns_from (S i) ks'
  | None :: ks' => anns_from (S i) ks'
  end.
Definition sig_of_kinds (ks : list (option kind)) : sig :=
  mkSig (map made_up (seq 0 (length ks))) (anns_from 0 ks).

(** decorators.py 38-138: the settings are read while the arguments are cast, and
    again when the results are merged *)
Definition run_cast (ks : list (option kind)) (f : list obj -> Run obj) (l : list obj) : Run obj :=
  p <== with_cfg (fun c => make_plan c (sig_of_kinds ks) (positional l)) ;;
  match p with
  | PAbort => ret (OBlank true)
  | PDirect a => f (map snd a)
  | PProduct calls =>
      os <== each (fun aw => o <== f (map snd (fst aw)) ;; lift (single o)) calls ;;
      with_cfg (fun c => merge c os (map snd calls))
  end.

(** decorators.py 146-156: the entries of the settings that the limiter uses *)
Definition number_now (n : string) : Run Z :=
  s <== settings_now ;; lift (match as_num (get n s) with Some z => Ok z | None => Err Unmodelled end).
Definition add_depth (n : Z) : Run unit :=
  d <== number_now "INTERNAL_CURR_DEPTH" ;;
  change_settings (put "INTERNAL_CURR_DEPTH" (SInt (d + n)%Z)).
Definition warn : Run unit :=
  fun w =>
    match as_flag (get "INTERNAL_CURR_DEPTH_WARNING_PRINTED" (rw_settings w)) with
    | Some true => Some (Ok Datatypes.tt, w)
    | Some false =>
        Some (Ok Datatypes.tt,
              mkWorld (put "INTERNAL_CURR_DEPTH_WARNING_PRINTED" (SBool true) (rw_settings w))
                (rw_memo w) (rw_outputs w) (S (rw_printed w)))
    | None => Some (Err Unmodelled, w)
    end.

(** decorators.py 16-19 and 142-158 *)
Definition run_call (ks : list (option kind)) (f : list obj -> Run obj) (l : list obj) : Run obj :=
  d <== number_now "INTERNAL_CURR_DEPTH" ;;
  m <== number_now "maximum function depth" ;;
  if (m <=? d)%Z then (u <== warn ;; ret (OBlank false))
  else
    u <== add_depth 1 ;;
    o <== run_cast ks f l ;;
    u <== add_depth (-1) ;;
    ret (match o with ONone => OBlank false | _ => o end).

Lemma bnd_ext {W A B : Type} (m m' : Runtime.M W A) (f f' : A -> Runtime.M W B) w :
  (forall w, m w = m' w) -> (forall a w, f a w = f' a w) -> bnd m f w = bnd m' f' w.
Proof.
  intros Hm Hf. unfold bnd. rewrite Hm. destruct (m' w) as [[[a|e] w']|]; [apply Hf|reflexivity|reflexivity].
Qed.
Lemma each_ext {W A B : Type} (f g : A -> Runtime.M W B) l : (forall a w, f a w = g a w) ->
  forall w, each f l w = each g l w.
Proof.
  intros H. induction l as [|x l IH]; intro w; [reflexivity|]. cbn [each].
  apply bnd_ext; [exact (H x)|]. intros a w1. apply bnd_ext; [exact IH|reflexivity].
Qed.
Lemma run_call_ext : forall ks f g l w, (forall l w, f l w = g l w) -> run_call ks f l w = run_call ks g l w.
Proof.
  intros ks f g l w H. unfold run_call.
  apply bnd_ext; [reflexivity|intros d w1]. apply bnd_ext; [reflexivity|intros m w2].
  destruct (m <=? d)%Z; [reflexivity|].
  apply bnd_ext; [reflexivity|intros u w3]. apply bnd_ext; [|reflexivity]. intro w4.
  unfold run_cast. apply bnd_ext; [reflexivity|]. intros p w5. destruct p as [|a|calls].
  - reflexivity.
  - apply H.
  - apply bnd_ext; [|reflexivity]. apply each_ext. intros aw w6. apply bnd_ext; [|reflexivity].
    intro w7. apply H.
Qed.

(** ** The runtime *)

Definition library : runtime obj world :=
  mkRuntime obj world
    oint
    (fun z k => rmap (fun n => OV (VN n)) (fround z (10 ^ Z.of_nat k) Unmodelled))
    OStr
    OIter
    ONone
    (fun o => lift (text_of o))
    (fun o => lift (truth o))
    (fun o => lift (items_of o))
    run_op
    run_un
    (fun o => lift (rmap oint (py_len o)))
    (fun n d => with_memo (fun c => roll c n d))
    (fun o => lift (get_seq [o]))
    (fun a b => lift (rmap (fun l => OIter (map oint l)) (myrange a b)))
    record_output
    set_setting
    run_my
    run_lib
    run_call
    run_call_ext.
