(** Standard deviations, printed reports, the notation [n * D * m] and the text of labels. *)
From Coq Require Import String Ascii List ZArith QArith Qabs Bool Lia.
From Verif Require Import PyBase Num Val Sorting RVModel OutModel UtilModel Obj RollModel PrintModel AltModel Spec PrintSpec
  RVFacts ConstructFacts IntFacts RoundFacts MassFacts UnaryFacts OutFacts StdFacts PrintFacts AltFacts FloatSpec FloatFacts.
Import ListNotations.
Open Scope string_scope.
Open Scope list_scope.
Open Scope Z_scope.

(** ** C85.  [square] is [x ** 2] on floats, with an error of at most a unit in the
    last place ([good_square]). *)
Theorem C85_std : forall c square x, cfg_trunc c = false -> good_square square -> proper x -> int_vals x ->
  total x <= 2 ^ 400 -> (forall e, In e x -> Z.abs (toZ (fst e)) <= 2 ^ 400) ->
  exists s, rv_std c square x = Ok (Some s) /\ (s = NI 0 \/ is_int s = false) /\ (0 <= numQ s)%Q /\
    (Qabs (numQ s * numQ s - variance x) <= mean_square x * p2 (-48))%Q.
Proof. exact std_close. Qed.
Print Assumptions C85_std.

(** the correctly rounded square is one *)
Theorem C85_squares : good_square exact_square.
Proof. exact exact_square_good. Qed.
Print Assumptions C85_squares.

(** The error is relative to the mean square, not to the variance: a coin that shows
    10^9 or 10^9 + 1 has variance 1/4 and standard deviation 0. *)
Theorem C85_std_refuted :
  exists x, mk_dist default_cfg (vals x) (probs x) = Ok x /\ proper x /\ int_vals x /\ (variance x == 1 # 4)%Q /\
    rv_std default_cfg exact_square x = Ok (Some (NF 0 0)).
Proof.
  exists [(vint (10 ^ 9), 1); (vint (10 ^ 9 + 1), 1)]. split; [vm_compute; reflexivity|].
  split; [split; [repeat constructor; discriminate|vm_compute; reflexivity]|].
  split; [repeat constructor|]. split; vm_compute; reflexivity.
Qed.
Print Assumptions C85_std_refuted.

Definition d6 : dist := [(vint 1, 1); (vint 2, 1); (vint 3, 1); (vint 4, 1); (vint 5, 1); (vint 6, 1)].
Example C85_example : proper d6 /\ int_vals d6 /\ total d6 <= 2 ^ 400 /\ (forall e, In e d6 -> Z.abs (toZ (fst e)) <= 2 ^ 400) /\
  (variance d6 == 35 # 12)%Q /\ rv_std default_cfg exact_square d6 = Ok (Some (NF 1922840152135811 (-50))).
Proof.
  split; [split; [repeat constructor; discriminate|vm_compute; reflexivity]|]. split; [repeat constructor|].
  split; [vm_compute; discriminate|]. split.
  - intros e I. repeat (destruct I as [<-|I]; [vm_compute; discriminate|]). destruct I.
  - split; vm_compute; reflexivity.
Qed.

(** ** C86.  [show] writes labels, [ftext] writes floats (with their sign bit). *)

(** The first line: the name, then mean and standard deviation, each rounded to two
    decimals. *)
Theorem C86_first_line : forall c ftext square x, cfg_trunc c = false -> good_square square -> proper x -> int_vals x ->
  total x <= 2 ^ 400 -> (forall e, In e x -> Z.abs (toZ (fst e)) <= 2 ^ 400) ->
  exists m m' neg s s' t, summary c ftext square x = Ok (ftext neg m' ++ " ± " ++ t)%string /\
    is_int m' = false /\ ((t = ftext false s' /\ is_int s' = false) \/ (t = "0" /\ s = NI 0 /\ s' = NI 0)) /\
    rv_mean x = Ok (Some m) /\ nearest_double (expectation x) (numQ m) /\ to_hundredths (numQ m) (numQ m') /\
    (neg = true <-> numQ m < 0)%Q /\ rv_std c square x = Ok (Some s) /\ to_hundredths (numQ s) (numQ s').
Proof. exact summary_ok. Qed.
Print Assumptions C86_first_line.

(** Python writes a float as the shortest decimal that reads back as it.  For the
    double nearest to [n] hundredths that is [n] hundredths: 3.5, 2.42, 12.0. *)
Theorem C86_float_text : forall negative x n, reads_as (inject_Z n / 100) x -> Z.abs n < 10 ^ 15 ->
  forall s, float_text negative x s <-> s = (minus negative ++ hundredths_text (Z.abs n))%string.
Proof. exact hundredths_written. Qed.
Print Assumptions C86_float_text.

Theorem C86_python_floats : forall ftext, writes_floats ftext -> writes_hundredths ftext.
Proof. exact python_writes. Qed.
Print Assumptions C86_python_floats.

(** So the first line is: the mean, as the hundredth nearest to the double nearest to
    the expectation, and the standard deviation, as the hundredth nearest to a root of
    the variance within the error of C85.  (The sign stays when the mean is written
    -0.0, and a variance that comes out negative is written 0.) *)
Theorem C86_first_line_text : forall c ftext square x, cfg_trunc c = false -> good_square square -> writes_hundredths ftext ->
  proper x -> int_vals x -> total x <= 2 ^ 400 -> (forall e, In e x -> Z.abs (toZ (fst e)) <= 10 ^ 12) ->
  exists m n s k t, summary c ftext square x = Ok (minus (negb (Qle_bool 0 m)) ++ hundredths_text (Z.abs n) ++ " ± " ++ t)%string /\
    nearest_double (expectation x) m /\ (Qabs (inject_Z n / 100 - m) <= 1 # 200)%Q /\
    (0 <= s)%Q /\ (Qabs (s * s - variance x) <= mean_square x * p2 (-48))%Q /\ (Qabs (inject_Z k / 100 - s) <= 1 # 200)%Q /\
    (t = hundredths_text k \/ (t = "0"%string /\ (s == 0)%Q)).
Proof. exact summary_text. Qed.
Print Assumptions C86_first_line_text.

(** a function that writes floats so *)
Theorem C86_floats_exist : writes_hundredths float_str.
Proof. exact float_str_writes. Qed.
Print Assumptions C86_floats_exist.

Example C86_float_example :
  summary default_cfg float_str exact_square d6 = Ok "3.5 ± 1.71"%string /\ hundredths_text 350 = "3.5"%string /\
  hundredths_text 1200 = "12.0"%string /\ hundredths_text 1205 = "12.05"%string /\
  summary default_cfg float_str exact_square [(vint (-1), 1); (vint 0, 999)] = Ok "-0.0 ± 0.03"%string.
Proof. repeat split; vm_compute; reflexivity. Qed.

Theorem C86_first_line_labels : forall c ftext square x, 0 < total x ->
  Forall (fun e => (exists z, fst e = vint z) \/ exists s, fst e = VS s) x -> Exists (fun e => exists s, fst e = VS s) x ->
  summary c ftext square x = Ok "NaN ± NaN"%string.
Proof. exact summary_label. Qed.
Print Assumptions C86_first_line_labels.

(** The report: that line, a line for every outcome, and a rule. *)
Theorem C86_report : forall c show ftext square w0 x named width head, proper (rv_dist x) -> 0 <= width <= 2 ^ 53 ->
  summary c ftext square (rv_dist x) = Ok head ->
  exists lines,
    report c show ftext square w0 (ORV x) named true (Some width) (NI 0) = Ok (heading named ++ head ++ lines_text lines width)%string /\
    report_rows (fun v => shown_text ftext (show_val show v)) (rv_dist x) (rv_dist x) width lines.
Proof. exact report_text. Qed.
Print Assumptions C86_report.

(** With [cdf_cut] in percent: the lines of the outcomes that C20 says are left.
    There is always one. *)
Theorem C86_report_cut : forall c show ftext square w0 x named width head cut, wf (rv_dist x) -> 0 < total (rv_dist x) ->
  distinct_text show (rv_dist x) -> (forall e, In e (rv_dist x) -> veqb (fst e) (vint 0) = false) ->
  Z.of_nat (length (rv_dist x)) < 2 ^ 40 ->
  0 <= width <= 2 ^ 53 -> (p2 (-500) <= numQ cut <= 99)%Q -> summary c ftext square (rv_dist x) = Ok head ->
  exists cut' gone, nearest_double (numQ cut / 100) cut' /\
    (PrP gone (rv_dist x) < cut' + SLACK (rv_dist x))%Q /\
    (forall e, In e (rv_dist x) -> gone (fst e) = false ->
       (cut' - SLACK (rv_dist x) <= PrP gone (rv_dist x) + inject_Z (snd e) / inject_Z (total (rv_dist x)))%Q) /\
    (forall e e', In e (rv_dist x) -> In e' (rv_dist x) -> gone (fst e) = true -> gone (fst e') = false ->
       (inject_Z (snd e) / inject_Z (total (rv_dist x)) <= inject_Z (snd e') / inject_Z (total (rv_dist x)) + 2 * p2 (-50))%Q) /\
    exists lines,
      report c show ftext square w0 (ORV x) named true (Some width) cut = Ok (heading named ++ head ++ lines_text lines width)%string /\
      report_rows (fun v => shown_text ftext (show_val show v)) (rv_dist x) (filter (fun e => negb (gone (fst e))) (rv_dist x)) width lines.
Proof. exact report_cut_text. Qed.
Print Assumptions C86_report_cut.

(** Nothing, a blank or an empty sequence is a report without a first line. *)
Theorem C86_nothing : forall c show ftext square w0 o named show_pdf width cut,
  o = ONone \/ o = OSeq [] \/ o = OSSeq [] \/ (exists b, o = OBlank b) ->
  report c show ftext square w0 o named show_pdf width cut =
  Ok (heading named ++ lines_text [] (match width with Some w => w | None => w0 end))%string.
Proof. exact report_nothing. Qed.
Print Assumptions C86_nothing.

(** A number or a sequence is reported as the die with those sides, without a width
    the report has the width of the settings, and the text is printed or returned. *)
Theorem C86_ways : forall c show ftext square w0 o named show_pdf width cut,
  (forall d, get_rv c o = Ok d -> o <> OSeq [] -> o <> OSSeq [] ->
     report c show ftext square w0 o named show_pdf width cut = report c show ftext square w0 (ORV d) named show_pdf width cut) /\
  report c show ftext square w0 o named show_pdf None cut = report c show ftext square w0 o named show_pdf (Some w0) cut /\
  (forall t, report c show ftext square w0 o named show_pdf width cut = Ok t ->
     output c show ftext square w0 o named show_pdf width false false cut = Ok (Returned t) /\
     output c show ftext square w0 o named show_pdf width false true cut = Ok (Returned t) /\
     output c show ftext square w0 o named show_pdf width true false cut = Ok (Printed true t) /\
     output c show ftext square w0 o named show_pdf width true true cut = Ok (Printed false t)).
Proof. exact report_ways. Qed.
Print Assumptions C86_ways.

(** Not every report can be made: the outcome 0 is cut even if it is the only one, and
    a variable without weights has no probabilities. *)
Theorem C86_report_refuted :
  (forall show ftext w0 named width,
     report default_cfg show ftext exact_square w0 (ORV (rv_of [(vint 0, 1)])) named true (Some width) (NI 1) = Err ValueErr) /\
  (mk_dist default_cfg [vint 1] [0] = Ok [(vint 1, 0)] /\
   forall show ftext w0 named width,
     report default_cfg show ftext exact_square w0 (ORV (rv_of [(vint 1, 0)])) named true (Some width) (NI 0) = Err ZeroDivErr).
Proof. exact report_fails. Qed.
Print Assumptions C86_report_refuted.

(** A float written with two decimals, enough for the example. *)
Definition ftext2 (neg : bool) (a : num) : string := ((if neg then "-" else "") ++ fixed2 (NF (Z.abs (mant a)) (expo a)))%string.
Example C86_example :
  report default_cfg (label_text ftext2) ftext2 exact_square 180
    (ORV (rv_of [(vint (-10), 1); (vint 2, 2); (vint 5, 1)])) (Some "X") true (Some 20) (NI 0) =
  Ok ("X -0.25 ± 5.76" ++ newline ++
      "-10: 25.00  ████" ++ newline ++
      "  2: 50.00  ████████" ++ newline ++
      "  5: 25.00  ████" ++ newline ++
      "----------------------------")%string /\
  proper (rv_dist (rv_of [(vint (-10), 1); (vint 2, 2); (vint 5, 1)])).
Proof. split; [vm_compute; reflexivity|]. split; [repeat constructor; discriminate|vm_compute; reflexivity]. Qed.
Example C86_example_label :
  report default_cfg (label_text ftext2) ftext2 exact_square 180
    (ORV (rv_of [(vint 7, 3); (VS (s_str "7"), 1); (VS (s_str "hit"), 4)])) None true (Some 13) (NI 20) =
  Ok ("NaN ± NaN" ++ newline ++
      "  7: 37.50  ████" ++ newline ++
      "hit: 50.00  █████" ++ newline ++
      "---------------------")%string.
Proof. vm_compute. reflexivity. Qed.

(** ** C87.  [D * m] is [roll(m)], and [n * D * m] is [roll(n, m)] for numbers,
    sequences of ints, lists and texts; as computations on the table of known rolls. *)
Theorem C87_single : forall c m M, D_mul c m M = roll c m None M.
Proof. exact D_single. Qed.
Print Assumptions C87_single.

Theorem C87_several : forall c n m M,
  (is_meta_seq n = false /\ is_meta_rv n = false) \/ (exists zs, n = OSeq (map vint zs)) ->
  D_mul_mul c n m M = roll c n (Some m) M.
Proof. exact D_several. Qed.
Print Assumptions C87_several.

(** Nothing of anything is nothing. *)
Theorem C87_blank : forall c b m M, D_mul_mul c (OBlank b) m M = (Ok (OBlank b), M).
Proof. reflexivity. Qed.
Print Assumptions C87_blank.

(** Not for a number of dice that is rolled: [d2 * D * 2] raises, [roll(d2, 2)] rolls. *)
Theorem C87_several_refuted : forall M,
  D_mul_mul default_cfg (ORV (rv_of [(vint 1, 1); (vint 2, 1)])) (oint 2) M = (Err TypeErr, M) /\
  exists x M', roll default_cfg (ORV (rv_of [(vint 1, 1); (vint 2, 1)])) (Some (oint 2)) [] = (Ok (ORV x), M') /\
    (Pr (rv_dist x) (vint 1) == 1 # 4)%Q.
Proof.
  intros M. split; [reflexivity|]. eexists. eexists. split; [vm_compute; reflexivity|vm_compute; reflexivity].
Qed.
Print Assumptions C87_several_refuted.

Example C87_example : exists M, exists x, D_mul_mul default_cfg (OSeq [vint 1; vint 1]) (oint 2) [] = (Ok (ORV x), M) /\
  rv_dist x = [(vint 2, 1); (vint 3, 2); (vint 4, 1)].
Proof. eexists. eexists. split; [vm_compute; reflexivity|reflexivity]. Qed.

(** ** C88.  A label is written as it is, a label that reads as a number in quotes. *)
Theorem C88_label : forall ftext s, s <> CONST_COEF ->
  label_text ftext (s_str s) = if numeral s then String """" (s ++ String """" "") else s.
Proof. exact plain_label. Qed.
Print Assumptions C88_label.

Theorem C88_reads_as_number : forall s, numeral s = true <-> number_text s.
Proof. exact numeral_spec. Qed.
Print Assumptions C88_reads_as_number.

(** So no label reads as an integer, *)
Theorem C88_number_or_label : forall ftext z s, s <> CONST_COEF -> label_text ftext (s_str s) <> str_of_Z z.
Proof. exact number_or_label. Qed.
Print Assumptions C88_number_or_label.

(** and labels without quotation marks read differently, so that their reports can be
    cut (the hypothesis [distinct_text] of C20 and C86). *)
Theorem C88_labels_differ : forall ftext s t, s <> CONST_COEF -> t <> CONST_COEF -> unquoted s -> unquoted t ->
  label_text ftext (s_str s) = label_text ftext (s_str t) -> s = t.
Proof. exact plain_labels_differ. Qed.
Print Assumptions C88_labels_differ.
Theorem C88_distinct : forall ftext x,
  (forall s, In (VS s) (vals x) -> exists t, s = s_str t /\ t <> CONST_COEF /\ unquoted t) -> distinct_text (label_text ftext) x.
Proof. exact plain_distinct. Qed.
Print Assumptions C88_distinct.

(** Not so for sums of labels: twice a and the label 2*a. *)
Theorem C88_labels_differ_refuted : forall ftext, exists twice,
  vop OAdd (VS (s_str "a")) (VS (s_str "a")) = Ok (VS twice) /\ veqb (VS twice) (VS (s_str "2*a")) = false /\
  label_text ftext twice = label_text ftext (s_str "2*a").
Proof. intros ftext. eexists. split; [vm_compute; reflexivity|]. split; vm_compute; reflexivity. Qed.
Print Assumptions C88_labels_differ_refuted.

(** what reads as a number *)
Example C88_example : map numeral ["7"; "-12"; "3.50"; "x"; "7a"; ""; "-"; "3."; ".5"; "+1"; "1e5"] =
  [true; true; true; false; false; false; false; false; false; false; false] /\
  map (label_text ftext2) [s_str "-3"; s_str "hit"; [("b", NI 2); ("a", NI 1); (CONST_COEF, NI 5)]] =
  ["""-3"""; "hit"; "a + 2*b + 5"].
Proof. split; vm_compute; reflexivity. Qed.
