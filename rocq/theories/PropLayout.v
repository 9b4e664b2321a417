(** C84, C98: blanks, newlines and comments make no difference to what is printed. *)
From Coq Require Import String Ascii Bool List.
From Verif Require Import PyBase LexModel LexSpec ParseModel SynSpec ResolveModel ReadSpec ReadFacts ReportModel ReportLaws PlyParseModel RunModel PrintModel
  PipeModel MainModel LayoutFacts PropYacc.
Import ListNotations.
Open Scope string_scope.
Open Scope list_scope.

(** Two texts with the same tokens, at least one, print the same and raise the same, also if
    they are refused. *)
Theorem C84_same_tokens : forall show ftext square fl n src src', scan src = scan src' -> scan src <> Some [] ->
  (forall r, prints show ftext square fl n src r <-> prints show ftext square fl n src' r) /\
  (forall w r w', turn show ftext square fl n src w r w' <-> turn show ftext square fl n src' w r w').
Proof.
  intros show ftext square fl n src src' E N. pose proof (same_tokens_kind fl src src' E N) as K. split.
  - intros r. split; apply kind_prints; [exact K|exact (kind_sym _ _ K)].
  - intros w r w'. split; apply kind_turn; [exact K|exact (kind_sym _ _ K)].
Qed.
Print Assumptions C84_same_tokens.

(** So it makes no difference which blanks, newlines and comments stand in the middle of
    a text. *)
Theorem C84_printed : forall show ftext square fl n a g h b, (exists ta, scan a = Some ta) -> layout g -> layout h ->
  scan (a ++ g ++ b) <> Some [] ->
  (forall r, prints show ftext square fl n (a ++ g ++ b) r <-> prints show ftext square fl n (a ++ h ++ b) r) /\
  (forall w r w', turn show ftext square fl n (a ++ g ++ b) w r w' <-> turn show ftext square fl n (a ++ h ++ b) w r w').
Proof.
  intros show ftext square fl n a g h b [ta E] G H N. apply C84_same_tokens; [|exact N].
  rewrite (scan_gap a g b ta G E), (scan_gap a h b ta H E). reflexivity.
Qed.
Print Assumptions C84_printed.

(** The same for all the texts of one run. *)
Theorem C98_layout : forall show ftext square fl n srcs srcs',
  Forall2 (fun s s' => scan s = scan s' /\ scan s <> Some []) srcs srcs' ->
  forall w r w', main show ftext square fl n srcs w r w' <-> main show ftext square fl n srcs' w r w'.
Proof. exact same_tokens_main. Qed.
Print Assumptions C98_layout.

(** A text without tokens is another matter: a blank one is passed over, but one that
    consists of a comment ends the run. *)
Definition blank_text : string := " ".
Definition comment_text : string := "\note\".
Theorem C84_comment_refuted : exists g h, layout g /\ layout h /\ forall show ftext square n rest w r w',
  (main show ftext square default_flags n (g :: rest) w r w' <-> main show ftext square default_flags n rest w r w') /\
  (main show ftext square default_flags n (h :: rest) w r w' <-> r = ([], Err AssertErr) /\ w' = w).
Proof.
  exists blank_text, comment_text. split; [exact l_space|]. split.
  { apply (l_comment "note"). repeat (apply Forall_cons; [discriminate|]); apply Forall_nil. }
  intros show ftext square n rest w r w'.
  assert (B : compile_report default_flags blank_text = Blank) by (vm_compute; reflexivity).
  assert (C : compile_report default_flags comment_text = Raised AssertErr) by (vm_compute; reflexivity).
  split; split.
  - intros M. inversion M as [|src srcs w0 ts w1 ts' r' w2 T M'|src srcs w0 ts e w1 T]; subst.
    + inversion T as [c Hc N|e Hc|t q e u Hc Hq Hu|t q u Hc Hq Hu]; subst; apply C94_compiler in Hc; rewrite B in Hc; try discriminate. exact M'.
    + inversion T as [c Hc N|e' Hc|t q e' u Hc Hq Hu|t q u Hc Hq Hu]; subst; apply C94_compiler in Hc; rewrite B in Hc; discriminate.
  - intros M. destruct r as [ts r]. apply (main_next _ _ _ _ _ blank_text rest w [] w ts r w'); [|exact M].
    apply (turn_refused _ _ _ _ _ _ _ Blank); [now apply C94_compiler|exact Logic.I].
  - intros M. inversion M as [|src srcs w0 ts w1 ts' r' w2 T M'|src srcs w0 ts e w1 T]; subst.
    + inversion T as [c Hc N|e Hc|t q e u Hc Hq Hu|t q u Hc Hq Hu]; subst; apply C94_compiler in Hc; rewrite C in Hc; try discriminate. subst c. destruct N.
    + inversion T as [c Hc N|e' Hc|t q e' u Hc Hq Hu|t q u Hc Hq Hu]; subst; apply C94_compiler in Hc; rewrite C in Hc; try discriminate.
      injection Hc as <-. split; reflexivity.
  - intros [-> ->]. apply main_stop. apply turn_raised. now apply C94_compiler.
Qed.
Print Assumptions C84_comment_refuted.

Example C84_printed_example : forall show ftext square n r,
  prints show ftext square default_flags n "output\a comment\2d6" r <-> prints show ftext square default_flags n "output 2d6" r.
Proof.
  intros show ftext square n. refine (proj1 (C84_printed show ftext square default_flags n "output" "\a comment\" " " "2d6" _ _ l_space _)).
  - eexists. vm_compute. reflexivity.
  - apply (l_comment "a comment"). repeat (apply Forall_cons; [discriminate|]); apply Forall_nil.
  - vm_compute. discriminate.
Qed.
