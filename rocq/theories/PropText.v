(** C99: texts beside operators, and as outputs. *)
From Coq Require Import Ascii String List ZArith QArith Bool.
From Verif Require Import PyBase Spec Num Val UtilModel RVModel Obj DispModel CastSpec PrintModel AltModel FloatFacts TextSpec TextFacts.
Import ListNotations.
Open Scope Z_scope.
Open Scope string_scope.
Open Scope list_scope.

(** Two texts: [+] joins them, comparisons are those of a dictionary, and the rest is
    refused ([%] is not modelled). *)
Theorem C99_texts : forall c s t,
  py_op c OAdd (OStr s) (OStr t) = Ok (OStr (s ++ t)) /\
  (forall o, is_cmp o = true -> exists b : bool, py_op c o (OStr s) (OStr t) = Ok (OV (b01 b)) /\ (b = true <-> text_holds o s t)) /\
  (forall o, In o [OSub; OMul; OFloorDiv; OTrueDiv; OPow; OOr; OAnd] -> py_op c o (OStr s) (OStr t) = Err TypeErr).
Proof.
  intros c s t. split; [reflexivity|]. split; [intros o; exact (text_compare c o s t)|].
  intros o I. cbn [In] in I. repeat destruct I as [<-|I]; try reflexivity. destruct I.
Qed.
Print Assumptions C99_texts.

(** A text and a number: an integer repeats the text; nothing else is possible, and they
    are never equal. *)
Theorem C99_numbers : forall c o s n,
  (forall k, py_op c OMul (OStr s) (OV (vint k)) = Ok (OStr (String.concat "" (repeat s (Z.to_nat k)))) /\
             py_op c OMul (OV (vint k)) (OStr s) = Ok (OStr (String.concat "" (repeat s (Z.to_nat k))))) /\
  ((o = OMul -> exists m e, n = NF m e) ->
   py_op c o (OV (VN n)) (OStr s) = match o with OEq => Ok (oint 0) | ONe => Ok (oint 1) | _ => Err TypeErr end /\
   (o <> OMod -> py_op c o (OStr s) (OV (VN n)) = match o with OEq => Ok (oint 0) | ONe => Ok (oint 1) | _ => Err TypeErr end)).
Proof. intros c o s n. split; [intros k; exact (text_number c k s)|exact (text_refuses c o s n)]. Qed.
Print Assumptions C99_numbers.

(** A die refuses every text, on both sides ... *)
Theorem C99_dice : forall c o x s, s <> "" ->
  py_op c o (ORV x) (OStr s) = Err AttrErr /\ (o <> OMod -> py_op c o (OStr s) (ORV x) = Err AttrErr).
Proof. exact die_text. Qed.
Print Assumptions C99_dice.

(** ... except the empty one, which counts as 0. *)
Theorem C99_dice_refuted : forall c o x,
  py_op c o (ORV x) (OStr "") = py_op c o (ORV x) (oint 0) /\
  (o <> OMod -> py_op c o (OStr "") (ORV x) = py_op c o (oint 0) (ORV x)).
Proof. exact die_no_text. Qed.
Print Assumptions C99_dice_refuted.

(** A sequence cannot be compared with a text, unless that is empty; in sums and products
    its sum meets the text. *)
Theorem C99_sequences : forall c o l s,
  (is_cmp o = true -> s <> "" -> py_op c o (OSeq l) (OStr s) = Err AssertErr /\ py_op c o (OStr s) (OSeq l) = Err AssertErr) /\
  (is_cmp o = true -> py_op c o (OSeq l) (OStr "") = py_op c o (OSeq l) (OSeq [])) /\
  (forall z, is_cmp o = false -> seq_sum l = Ok z ->
     py_op c o (OSeq l) (OStr s) = py_op c o (OV z) (OStr s) /\
     (o <> OMod -> py_op c o (OStr s) (OSeq l) = py_op c o (OStr s) (OV z))).
Proof.
  intros c o l s. split; [exact (seq_text c o l s)|]. split; [exact (seq_no_text c o l)|]. intros z. exact (seq_text_sum c o l s z).
Qed.
Print Assumptions C99_sequences.

(** A text as an output is reported as the fair die with its characters as sides. *)
Theorem C99_report : forall c show ftext square w0 s named show_pdf width cut, cfg_trunc c = false ->
  exists x, fair_die (labels s) x /\
    report c show ftext square w0 (OStr s) named show_pdf width cut = report c show ftext square w0 (ORV x) named show_pdf width cut.
Proof. exact text_report. Qed.
Print Assumptions C99_report.

(** * C44: None beside a die is equal to nothing, counts as false, and cannot be computed
    with or put in order. *)
Theorem C44_nothing_dice : forall c o x, cfg_trunc c = false -> proper (rv_dist x) ->
  match o with
  | OEq => exists y, py_op c o (ORV x) ONone = Ok (ORV y) /\ py_op c o ONone (ORV x) = Ok (ORV y) /\ (Pr (rv_dist y) (vint 0) == 1)%Q
  | ONe => exists y, py_op c o (ORV x) ONone = Ok (ORV y) /\ py_op c o ONone (ORV x) = Ok (ORV y) /\ (Pr (rv_dist y) (vint 1) == 1)%Q
  | OOr | OAnd => py_op c o (ORV x) ONone = py_op c o (ORV x) (oint 0) /\ py_op c o ONone (ORV x) = py_op c o (oint 0) (ORV x)
  | _ => py_op c o (ORV x) ONone = Err TypeErr /\ py_op c o ONone (ORV x) = Err TypeErr
  end.
Proof. exact none_dice. Qed.
Print Assumptions C44_nothing_dice.
Example C44_nothing_dice_example :
  let d2 := rv_of [(vint 0, 1); (vint 2, 1)] in
  proper (rv_dist d2) /\
  py_op default_cfg OEq (ORV d2) ONone = Ok (ORV (rv_of [(vint 0, 1)])) /\
  py_op default_cfg OOr ONone (ORV d2) = Ok (ORV (rv_of [(vint 0, 1); (vint 1, 1)])) /\
  py_op default_cfg OAdd ONone (ORV d2) = Err TypeErr.
Proof. cbv zeta. split; [split; [repeat constructor; discriminate|reflexivity]|]. repeat split; vm_compute; reflexivity. Qed.

(** A label by itself (an entry of a sequence of texts) cannot be reported. *)
Theorem C99_label_refuted : forall c show ftext square w0 v named show_pdf width cut,
  report c show ftext square w0 (OV (VS v)) named show_pdf width cut = Err AssertErr.
Proof. reflexivity. Qed.
Print Assumptions C99_label_refuted.

Example C99_example :
  let d2 := rv_of [(vint 1, 1); (vint 2, 1)] in
  py_op default_cfg OAdd (OStr "ab") (OStr "cd") = Ok (OStr "abcd") /\
  py_op default_cfg OLt (OStr "ab") (OStr "b") = Ok (oint 1) /\
  py_op default_cfg OMul (OStr "ab") (oint 2) = Ok (OStr "abab") /\
  py_op default_cfg OAdd (oint 2) (OStr "ab") = Err TypeErr /\
  py_op default_cfg OEq (OStr "2") (oint 2) = Ok (oint 0) /\
  py_op default_cfg OAdd (ORV d2) (OStr "2") = Err AttrErr /\
  py_op default_cfg OAdd (OStr "") (ORV d2) = Ok (ORV d2) /\
  py_op default_cfg OGt (OSeq [vint 1; vint 2]) (OStr "2") = Err AssertErr /\
  py_op default_cfg OMul (OSeq [vint 1; vint 2]) (OStr "2") = Ok (OStr "222") /\
  (exists x, fair_die (labels "abba") x /\ rv_dist x = [(label "a", 1); (label "b", 1)]).
Proof.
  cbv zeta. do 9 (split; [vm_compute; reflexivity|]).
  destruct (text_die default_cfg "abba" eq_refl) as [x [E F]]. exists x. split; [exact F|].
  vm_compute in E. injection E as <-. reflexivity.
Qed.
