(** C67, C68, C70, C75: function names, the checks of the compiler, parameters. *)
From Coq Require Import String Ascii Bool List Arith.
From Verif Require Import PyBase LexModel LexSpec GramModel ParseModel SynSpec ParseSound NameSpec ResolveModel HeaderFacts CompileFacts.
From Verif Require ResolveGen.
Import ListNotations.
Open Scope string_scope.
Open Scope list_scope.

(** For the examples: tokens found in the middle of a text are real ones. *)
Lemma scan_part : forall src i j l,
  option_map (fun ts => firstn (length ts - i - j) (skipn i ts)) (scan src) = Some l -> Forall good l.
Proof.
  intros src i j l E. destruct (scan src) as [ts|] eqn:S; [|discriminate].
  apply ParseLaws.scan_good in S. cbn [option_map] in E. injection E as <-.
  apply Forall_forall. intros x I. rewrite Forall_forall in S. apply S.
  rewrite <- (firstn_skipn i ts). apply in_or_app. right.
  rewrite <- (firstn_skipn (length ts - i - j) (skipn i ts)). apply in_or_app. now left.
Qed.

(** Two headers get the same Python name iff they have the same words and
    parameter places, and a header has as many parameters as places. *)
Theorem C67_headers : forall fl hs hs' n a s n' a' s',
  Forall good (flat_map toks_h hs) -> Forall good (flat_map toks_h hs') ->
  header fl (map node_h hs) = Ok (n, a, s) -> header fl (map node_h hs') = Ok (n', a', s') ->
  (n = n' <-> header_shape hs = header_shape hs') /\ length a = slots (header_shape hs).
Proof. exact header_names. Qed.
Print Assumptions C67_headers.

(** A call is written as a name and arguments.  The name is that of exactly the
    headers of its shape, and there are as many arguments as places (and the
    variables, in the mode that passes them on). *)
Theorem C67_calls : forall fl cs st, Forall good (flat_map toks_c cs) ->
  exists name args st', resolve_node fl (node_t (TCall cs)) st
      = Ok ((name ++ "(" ++ join ", " args ++ ")")%string, st') /\
    (exists rest, r_called st' = name :: rest) /\
    length args = slots (call_shape cs) + (if fl_vars fl then 1 else 0) /\
    forall hs n a s, Forall good (flat_map toks_h hs) -> header fl (map node_h hs) = Ok (n, a, s) ->
      (n = name <-> header_shape hs = call_shape cs).
Proof. exact call_reaches. Qed.
Print Assumptions C67_calls.

Example C67_sample :
  let hs := [HWord (WName "attack"); HTyped "A" PD; HWord (WName "with"); HParam "B"] in
  let cs := [CWord (WName "attack"); CArg (EDie (TNum "6")); CWord (WName "with"); CArg (ETerm (TNum "2"))] in
  Forall good (flat_map toks_h hs) /\ Forall good (flat_map toks_c cs) /\
  header default_flags (map node_h hs) = Ok ("attack_X_with_X", ["A: T_D"; "B"], ["A"; "B"]) /\
  resolve_node default_flags (node_t (TCall cs)) reset_state
    = Ok ("attack_X_with_X(roll(6), 2)", mkR library ["attack_X_with_X"] 0).
Proof.
  cbv zeta. split; [|split; [|split; vm_compute; reflexivity]].
  - apply (scan_part "function: attack A:d with B {}" 2 2). vm_compute. reflexivity.
  - apply (scan_part "output [attack d6 with 2]" 2 1). vm_compute. reflexivity.
Qed.

(** The compiler accepts exactly the texts of well-formed programs with sound
    headers, at least one output, and only calls of functions that exist.  In a
    program that takes the name of a helper, only its own functions exist. *)
Theorem C68_accepted : forall src,
  (exists text, compile default_flags src = Ok text) <->
  (exists p, wf p = true /\ scan src = Some (toks p) /\
   ((~ takes_helper p /\ accepted true p) \/ (takes_helper p /\ accepted false p))).
Proof.
  intros src. split.
  - intros [text E]. apply (compile_exact default_flags src text eq_refl eq_refl) in E.
    destruct E as [p [W [S H]]]. exists p. split; [exact W|split; [exact S|]]. tauto.
  - intros [p [W [S H]]].
    destruct H as [[A B]|[A B]]; eexists; apply (compile_exact default_flags src _ eq_refl eq_refl);
      exists p; (split; [exact W|split; [exact S|]]); [left|right];
      (split; [exact A|split; [exact B|reflexivity]]).
Qed.
Print Assumptions C68_accepted.

(** The property as stated: no call of an accepted program is left without a function. *)
Theorem C68_no_undefined_call : forall src text, compile default_flags src = Ok text ->
  exists p, wf p = true /\ scan src = Some (toks p) /\ 1 <= outputs p /\
    forall c, In c (calls p) -> In c (defs p) \/ In c library_shapes.
Proof.
  intros src text E. destruct (proj1 (C68_accepted src) (ex_intro _ text E)) as [p [W [S H]]].
  exists p. split; [exact W|split; [exact S|]].
  destruct H as [[_ [_ [O A]]]|[_ [_ [O A]]]]; (split; [exact O|]); intros c I; destruct (A c I) as [X|[_ X]]; tauto.
Qed.
Print Assumptions C68_no_undefined_call.

Example C68_sample :
  is_ok (compile default_flags "function: double X { result: X * 2 } output [double [highest 1 of 2d6]]") = true /\
  compile default_flags "output [double 3]" = Err AssertErr /\
  compile default_flags "X: 3" = Err AssertErr.
Proof. repeat split; vm_compute; reflexivity. Qed.

(** A function with the name of a helper does more than rename it: a program
    that also calls a library function, and would be accepted otherwise, fails. *)
Theorem C70_library_lost_refuted : forall p src c, wf p = true -> scan src = Some (toks p) ->
  takes_helper p -> In c (calls p) -> In c library_shapes -> ~ In c (defs p) ->
  exists e, compile default_flags src = Err e.
Proof. exact helper_blocks_library. Qed.
Print Assumptions C70_library_lost_refuted.

Example C70_sample :
  is_ok (compile default_flags "function: rolls { result: 2 } output [absolute 3]") = true /\
  is_ok (compile default_flags "function: roll { result: 2 } output 3") = true /\
  compile default_flags "function: roll { result: 2 } output [absolute 3]" = Err AssertErr.
Proof. repeat split; vm_compute; reflexivity. Qed.

(** A program that calls only its own functions may use the names of helpers. *)
Theorem C70_own_functions : forall p src, wf p = true -> scan src = Some (toks p) -> accepted false p ->
  exists text, compile default_flags src = Ok text.
Proof.
  intros p src W S A. apply C68_accepted. exists p. split; [exact W|split; [exact S|]].
  destruct (takes_dec p) as [T|T]; [right; split; assumption|left]. split; [exact T|].
  destruct A as [X [Y Z]]. split; [exact X|split; [exact Y|]].
  intros c I. destruct (Z c I) as [Q|[Q _]]; [now left|discriminate].
Qed.
Print Assumptions C70_own_functions.

(** The parameters of an accepted header have distinct names; the first of each
    name keeps it; every type is kept. *)
Theorem C75_distinct : forall fl hs, Forall good (flat_map toks_h hs) -> header_ok hs = true ->
  exists name texts names, header fl (map node_h hs) = Ok (name, texts, names) /\
  length texts = length (params hs) /\ length names = length (params hs) /\ NoDup names /\
  forall i x ty, nth_error (params hs) i = Some (x, ty) ->
    exists n, nth_error names i = Some n /\
      nth_error texts i = Some (match ty with None => n | Some t => n ++ ": " ++ annotation t end)%string /\
      ((forall j, j < i -> nth_error (map fst (params hs)) j <> Some x) -> n = x).
Proof.
  intros fl hs G H. destruct (header_params fl hs G H) as [texts [names X]].
  exists (ResolveGen.mangle fl (header_shape hs)), texts, names. exact X.
Qed.
Print Assumptions C75_distinct.

(** A repeated parameter without a type makes the compiler crash. *)
Theorem C75_untyped_refuted : forall fl hs, Forall good (flat_map toks_h hs) -> header_ok hs = false ->
  header fl (map node_h hs) = Err IndexErr.
Proof. intros fl hs G H. rewrite header_gen by exact G. now rewrite H. Qed.
Print Assumptions C75_untyped_refuted.

Example C75_sample :
  header_ok [HWord (WName "f"); HParam "A"; HTyped "A" PD; HTyped "A" (PName "n")] = true /\
  header default_flags (map node_h [HWord (WName "f"); HParam "A"; HTyped "A" PD; HTyped "A" (PName "n")])
    = Ok ("f_X_X_X", ["A"; "dummy1: T_D"; "dummy2: T_N"], ["A"; "dummy1"; "dummy2"]) /\
  header_ok [HWord (WName "f"); HParam "A"; HParam "A"] = false /\
  compile default_flags "function: f A A { result: A } output [f 1 2]" = Err IndexErr.
Proof. repeat split; vm_compute; reflexivity. Qed.
