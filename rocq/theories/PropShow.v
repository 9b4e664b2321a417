(** C100: variables inside strings; C88: the text of labels that are sums. *)
From Coq Require Import Ascii String List ZArith Bool Permutation Sorted.
From Verif Require Import PyBase Num Val UtilModel RVModel Obj AltModel PrintSpec LexModel ParseModel SynSpec ResolveModel PySpec Runtime RunModel MeanSpec
  FloatFacts StdFacts TextSpec ShowSpec ShowFacts PrintModel PyProg PySem ExecModel CompileFacts PyCompile PyTrans ReportModel ReportLaws PlyParseModel
  PipeModel PipeSpec PipeFacts PropYacc PropRun PropIdeal PropPipe.
Import ListNotations.
Open Scope Z_scope.
Open Scope string_scope.
Open Scope list_scope.

(** A string of a program is its own texts with the text of each variable in its place,
    and reading it changes nothing. *)
Theorem C100_inside : forall pl ps t w,
  string_at pl ps t -> MeanSpec.text RunModel.library pl ps w = Some (Ok t, w).
Proof. exact string_shown. Qed.
Print Assumptions C100_inside.

(** It is the name under which [output ... named] shows the value; nothing else changes. *)
Theorem C100_name : forall oplib callf pl e p ps t v w w1,
  mean_e RunModel.library oplib callf pl e w = Some (Ok v, w1) -> string_at pl (p :: ps) t ->
  exists w2, mean_s RunModel.library oplib callf (SNamed e p ps) pl w = Some (Ok (Onward pl), w2) /\
    rw_outputs w2 = rw_outputs w1 ++ [(v, Some (OStr t))] /\
    rw_settings w2 = rw_settings w1 /\ rw_memo w2 = rw_memo w1 /\ rw_printed w2 = rw_printed w1.
Proof. exact named_output. Qed.
Print Assumptions C100_name.

(** The text does not depend on how the label came about: only one fits. *)
Theorem C100_one_text : forall v t t', shown_as v t -> shown_as v t' -> t = t'.
Proof. exact shown_once. Qed.
Print Assumptions C100_one_text.

(** In a report a label that is a sum shows in the same way; in quotes if it consists of
    one name, with whatever coefficient, that reads as a number. *)
Theorem C88_sums : forall ftext s terms c, is_sum s terms c ->
  ((exists k z, terms = [(k, z)] /\ c = None /\ number_text k) ->
   label_text ftext s = String """" (sum_text terms c ++ String """" "")) /\
  (~ (exists k z, terms = [(k, z)] /\ c = None /\ number_text k) -> label_text ftext s = sum_text terms c).
Proof. exact sum_label_text. Qed.
Print Assumptions C88_sums.

(** A variable that has no value yet cannot be shown. *)
Theorem C100_unknown : forall pl x ps w, find_variable x pl = Err NameErr ->
  MeanSpec.text RunModel.library pl (PVar x :: ps) w = Some (Err NameErr, w).
Proof. intros pl x ps w E. cbn [MeanSpec.text]. unfold Runtime.bnd. rewrite E. reflexivity. Qed.
Print Assumptions C100_unknown.

Definition some_sum : Val.sval := [("b", NI 1); (CONST_COEF, NI 5); ("a", NI 2)].
Lemma some_sum_is : is_sum some_sum [("a", 2); ("b", 1)] (Some 5).
Proof.
  split; [|split].
  - unfold some_sum. cbn [map app fst snd]. apply Permutation_sym. apply (Permutation_cons_app [_; _] []). cbn [app]. reflexivity.
  - repeat constructor.
  - repeat constructor; discriminate.
Qed.
Example C100_example :
  string_at (MeanSpec.mkPlace [("X", OV (VS some_sum)); ("Y", OBlank false); ("N", oint (-7))] [] None)
    [PAny "is "; PVar "X"; PAny ", "; PVar "Y"; PAny " and "; PVar "N"] "is 2*a + b + 5, d{} and -7".
Proof.
  apply (at_any _ "is "). apply (at_var _ "X" (OV (VS some_sum)) "2*a + b + 5"); [reflexivity|exact (shown_sum _ _ _ some_sum_is)|].
  apply (at_any _ ", "). apply (at_var _ "Y" (OBlank false) "d{}"); [reflexivity|constructor|].
  apply (at_any _ " and "). apply (at_var _ "N" (oint (-7)) "-7" [] ""); [reflexivity|exact (shown_number (-7))|constructor].
Qed.

Definition loop_source : string := "loop X over {""a"",""b""} { output 1 named ""is [X]"" }".
Definition loop_program : program :=
  [ SLoop "X" (ETerm (TSeq [LOne (ETerm (TStr (PAny "a") [])); LOne (ETerm (TStr (PAny "b") []))]))
      [SNamed (ETerm (TNum "1")) (PAny "is ") [PVar "X"]] ].
Example C100_sample :
  let line := ("1: 100.00  █████████████████████████████████████████████████" ++ newline ++
               "----------------------------------------------------------")%string in
  prints (label_text float_str) float_str exact_square default_flags 3 loop_source
    ([ "is a 1.0 ± 0.0" ++ newline ++ line; "is b 1.0 ± 0.0" ++ newline ++ line ], Ok Datatypes.tt)%string.
Proof.
  cbv zeta.
  assert (exists text, compile default_flags loop_source = Ok text /\ py_program text (py_prog default_flags loop_program)) as [text [CO PY]].
  { eexists. split; [vm_compute; reflexivity|]. apply (reads_of loop_source); vm_compute; reflexivity. }
  assert (CW : compiles_with default_flags loop_source (Text text)) by (apply C94_compiler; now apply report_accepted).
  refine (printed_prints _ _ _ _ _ _ CW PY _). vm_compute. reflexivity.
Qed.
