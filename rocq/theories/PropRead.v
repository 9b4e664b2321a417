(** C84: where a token ends, and what blanks and comments do. *)
From Coq Require Import String Ascii Bool List Arith.
From Verif Require Import PyBase LexModel LexSpec GramModel ParseModel SynSpec ParseSound ParseLaws ResolveModel ReadSpec ReadFacts.
Import ListNotations.
Open Scope string_scope.

(** * C84 *)

(** Every token reaches as far as possible: what follows in the text could not belong
    to it ([!=] is never read as [!] and [=]). *)
Theorem C84_longest : forall s a t w b, fst (lex s) = (a ++ Token (t, w) :: b)%list ->
  token_text t w /\ ends_there t (whole_text b).
Proof. intros s a t w b E. exact (pieces_longest a Initial s t w b E). Qed.
Print Assumptions C84_longest.

(** And a token is read wherever its text stands and the text behind does not belong to it. *)
Theorem C84_read : forall t s r, token_text t s -> outside t = true -> ends_there t r ->
  scan (s ++ r) = option_map (cons (t, s)) (scan r).
Proof. exact token_read. Qed.
Print Assumptions C84_read.

(** Blanks, newlines and comments between two parts of a text separate them and do nothing else. *)
Theorem C84_separated : forall a g b ta, layout g -> scan a = Some ta ->
  scan (a ++ g ++ b) = option_map (app ta) (scan b).
Proof. exact scan_gap. Qed.
Print Assumptions C84_separated.

(** So which of them stand there makes no difference to the program that is made of the text,
    nor to whether it is refused. *)
Theorem C84_layout : forall fl a g h b, (exists ta, scan a = Some ta) -> layout g -> layout h ->
  compile fl (a ++ g ++ b) = compile fl (a ++ h ++ b).
Proof. intros fl a g h b [ta E] G H. exact (layout_irrelevant fl a g h b ta E G H). Qed.
Print Assumptions C84_layout.

(** The sequences of tokens that a text can have are exactly those of writable tokens. *)
Theorem C84_expressible : forall ts, (exists src, scan src = Some ts) <-> Forall writable ts.
Proof.
  intro ts. split; [intros [src E]; exact (scan_writable src ts E)|]. intro W. exists (written ts). exact (written_read ts W).
Qed.
Print Assumptions C84_expressible.

(** So every program of the grammar can be written, and is read as what it is. *)
Theorem C84_programs : forall p, wf p = true -> Forall writable (toks p) ->
  scan (written (toks p)) = Some (toks p) /\ parse (toks p) = Ok (VNode (tree p)).
Proof.
  intros p W H. pose proof (written_read _ H) as E. split; [exact E|].
  apply (proj2 (parse_exact _ (VNode (tree p)) (scan_good _ _ E))). exists p. auto.
Qed.
Print Assumptions C84_programs.

Definition written_sample : program :=
  [SAssign "A" (EBin ONe (ETerm (TUn UNot (TNum "1"))) (ETerm (TDec "2" "5")));
   SNamed (EDice (TVar "A") (TSeq [LRange (ETerm (TNum "1")) (ETerm (TNum "3"))])) (PAny "a ") [PVar "A"; PNonvar "[b"]].
Example C84_sample : wf written_sample = true /\
  scan "A:!1!=2.5\note\output A d{1..3}named""a [A][b""" = Some (toks written_sample) /\
  written (toks written_sample) = "A : ! 1 != 2 . 5 output A d { 1 .. 3 } named ""a "" ""[A]"" ""[b"" ".
Proof. repeat split; reflexivity. Qed.
(** [! =] is not [!=]. *)
Example C84_apart : scan "1!=2" <> scan "1! =2" /\ scan "1..2" <> scan "1. .2".
Proof. split; discriminate. Qed.
