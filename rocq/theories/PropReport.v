(** C92: what the compiler reports about a text it refuses. *)
From Coq Require Import String Ascii Bool List Arith Sorted Lia.
From Verif Require Import PyBase LexModel LexSpec ParseModel SynSpec ResolveModel ReportModel ReportSpec ReportLaws.
Import ListNotations.
Open Scope list_scope.
Open Scope nat_scope.

(** Error recovery never lets a faulty text through, and never stops a good one: the
    generated program is that of the compiler without recovery (C79-C81). *)
Theorem C92_accepted : forall fl src t, compile_report fl src = Text t <-> compile fl src = Ok t.
Proof. exact report_accepted. Qed.
Print Assumptions C92_accepted.

(** The illegal characters reported are exactly those of the text, in its order, each
    with its position and column. *)
Theorem C92_characters : forall fl src ps e, lex src = (ps, e) ->
  (forall l, compile_report fl src = Characters l -> in_order l /\ l <> [] /\
     forall x, In x l <-> illegal_entry src ps x \/ (e = Instring /\ open_entry src ps x)) /\
  ((exists l, compile_report fl src = Characters l) <-> is_blank src = false /\ scan src = None).
Proof. exact report_characters. Qed.
Print Assumptions C92_characters.

(** The first token reported is the first one with which no program can go on: what
    comes before it begins a program, and with it nothing does. *)
Theorem C92_first : forall fl src e l, compile_report fl src = Tokens (e :: l) ->
  exists (a b : list tok) t, scan src = Some (a ++ t :: b) /\ begins a /\ ~ begins (a ++ [t]) /\
    e_value e = snd t /\ found_at src (e_pos e) (snd t) /\ e_col e = column_of src (e_pos e).
Proof. exact report_first. Qed.
Print Assumptions C92_first.

(** All the tokens reported, and which ones are left out. *)
Theorem C92_tokens : forall fl src l, compile_report fl src = Tokens l ->
  exists (pts es : list (tok * nat)),
    scan src = Some (map fst pts) /\
    Forall (fun tn => found_at src (snd tn) (snd (fst tn))) pts /\
    StronglySorted (fun a b => snd a < snd b) pts /\
    faults true pts es /\
    Forall2 (fun tn e => e_value e = snd (fst tn) /\ e_pos e = snd tn /\ e_col e = column_of src (e_pos e)) es l /\
    ~ a_program (map fst pts).
Proof. exact report_tokens. Qed.
Print Assumptions C92_tokens.

(** The specification of the faults leaves no choice. *)
Theorem C92_faults_unique : forall (A : Set) first (ts es : list (tok * A)), faults first ts es ->
  forall es', faults first ts es' -> es = es'.
Proof. exact faults_unique. Qed.
Print Assumptions C92_faults_unique.

(** The list is empty exactly if the text ends too early. *)
Theorem C92_early : forall fl src, compile_report fl src = Tokens [] <->
  is_blank src = false /\ exists ts, scan src = Some ts /\ begins ts /\ ~ a_program ts.
Proof. exact report_early. Qed.
Print Assumptions C92_early.

(** Any other exception comes from one of the two shapes of C77, which can also stand
    after a faulty token, or from the generation of the program. *)
Theorem C92_raised : forall fl src e, compile_report fl src = Raised e ->
  exists ts, scan src = Some ts /\
    ((e = IndexErr /\ crash_shape ts /\ ~ begins ts) \/
     exists p, wf p = true /\ toks p = ts /\ resolve fl (tree p) = Err e).
Proof. exact report_raised. Qed.
Print Assumptions C92_raised.

(** In a text without comments the first illegal character is reported on its line. *)
Theorem C92_first_line : forall fl src e l, no_comments src -> compile_report fl src = Characters (e :: l) ->
  e_line e = line_of src (e_pos e).
Proof. exact report_first_line. Qed.
Print Assumptions C92_first_line.

(** A token is never reported on its line, unless the text has one line only: the lines
    of the whole text are counted before those up to the token. *)
Theorem C92_token_lines_refuted : forall fl src l x, no_comments src -> compile_report fl src = Tokens l -> In x l ->
  e_line x = line_of src (e_pos x) + newlines src /\ (0 < newlines src -> e_line x <> line_of src (e_pos x)).
Proof.
  intros fl src l x NC H IN. pose proof (report_token_lines fl src l x NC H IN) as E. split; [exact E|]. lia.
Qed.
Print Assumptions C92_token_lines_refuted.

Definition nl : string := String cNL EmptyString.

Example C92_sample :
  compile_report default_flags ("output 1 + " ++ nl ++ "output 2 d 4 output 6 + 1 )")
    = Tokens [mkEntry "output" 12 3 1; mkEntry ")" 38 3 27] /\
  line_of ("output 1 + " ++ nl ++ "output 2 d 4 output 6 + 1 )") 12 = 2 /\
  compile_report default_flags ("output 1 ? 2" ++ nl ++ "output ""a") =
    Characters [mkEntry "?" 9 1 10; mkEntry "Non-closed string" 22 2 10] /\
  compile_report default_flags "output (1" = Tokens [] /\
  compile_report default_flags "output ) function: { }" = Raised IndexErr /\
  compile default_flags "output ) function: { }" = Err AssertErr.
Proof. repeat split; vm_compute; reflexivity. Qed.
