(** When Python reads a generated program at all. *)
From Coq Require Import String Ascii Bool List Arith Lia.
From Verif Require Import PyBase LexModel LexSpec LexFacts GramModel ParseModel SynSpec SynInd ParseSound ParseLaws NameSpec
  ResolveModel ResolveGen HeaderFacts CompileFacts PySpec PyDet PyTrans PyLexFacts PyReady PyToks PyRead PyLines PyStmt
  PyProg PyCompile PyProgLaws PyFlat PyAny PyWords.
Import ListNotations.
Open Scope string_scope.
Open Scope list_scope.

(** ** From the conditions back to the words of the program *)

Section plain.
  Variable structure : bool.
  Variable fl : flags.

  Lemma name_plain : forall s, ok_name true s = true -> negb (mem s py_keywords) = true.
  Proof. intros s K. unfold ok_name in K. apply andb_prop in K. apply K. Qed.

  Theorem ok_words :
    (forall e, ok_e structure true fl e = true -> words_e fl e = true) /\
    (forall t, ok_t structure true fl t = true -> words_t fl t = true) /\
    (forall x, ok_l structure true fl x = true -> words_l fl x = true) /\
    (forall c, ok_c structure true fl c = true -> words_c fl c = true).
  Proof.
    apply syn_ind.
    - intros o l r Hl Hr K. cbn [ok_e] in K. apply andb_prop in K. destruct K as [_ K]. apply andb_prop in K.
      cbn [words_e]. rewrite Hl, Hr by tauto. reflexivity.
    - intros n d Hn Hd K. cbn [ok_e] in K. apply andb_prop in K.
      change (words_t fl n && words_t fl d = true). rewrite Hn, Hd by tauto. reflexivity.
    - intros d Hd K. exact (Hd K).
    - intros t Ht K. exact (Ht K).
    - intros s K. cbn [ok_t] in K. apply andb_prop in K. exact (proj2 K).
    - reflexivity.
    - reflexivity.
    - reflexivity.
    - intros es F K. exact (forallb_impl _ _ _ es F K).
    - intros e He K. exact (He K).
    - intros cs F K. cbn [ok_t] in K. apply andb_prop in K. destruct K as [K1 K2].
      change (plain_fun fl (call_shape cs) && forallb (words_c fl) cs = true).
      rewrite (forallb_impl _ _ _ cs F K2), andb_true_r. exact (name_plain _ K1).
    - intros u t Ht K. exact (Ht K).
    - intros t Ht K. exact (Ht K).
    - intros e He K. exact (He K).
    - intros a b Ha Hb K. cbn [ok_l] in K. apply andb_prop in K.
      change (words_e fl a && words_e fl b = true). rewrite Ha, Hb by tauto. reflexivity.
    - reflexivity.
    - intros e He K. exact (He K).
  Qed.

  Lemma types_plain : forall ps i seen, forallb (ok_param true) (renamed i seen ps) = true -> forallb plain_type ps = true.
  Proof.
    induction ps as [|[x ty] ps IH]; intros i seen K; [reflexivity|]. cbn [renamed forallb] in K |- *.
    apply andb_prop in K. destruct K as [K1 K2]. rewrite (IH _ _ K2), andb_true_r.
    unfold ok_param in K1. cbn [fst snd] in K1. apply andb_prop in K1. destruct K1 as [_ K1].
    unfold plain_type. cbn [snd]. destruct ty as [ty|]; [|reflexivity]. rewrite <- type_annotation. now apply name_plain.
  Qed.

  Theorem ok_words_stmt :
    (forall s, ok_s structure true fl s = true -> words_s fl s = true) /\
    (forall b, ok_b structure true fl b = true -> words_b fl b = true).
  Proof.
    pose proof (proj1 ok_words) as WE.
    apply stmt_ind2.
    - intros e K. exact (WE e K).
    - intros e p ps K. cbn [ok_s] in K. apply andb_prop in K. exact (WE e (proj1 K)).
    - intros h hs body F K. cbn [ok_s] in K. apply andb_prop in K. destruct K as [K K3].
      apply andb_prop in K. destruct K as [K1 K2].
      change (plain_fun fl (header_shape (h :: hs)) && forallb plain_type (params (h :: hs)) && forallb (words_s fl) body = true).
      rewrite (forallb_impl _ _ _ body F K3), andb_true_r, (types_plain _ _ _ K2), andb_true_r. exact (name_plain _ K1).
    - intros x e body F K. cbn [ok_s] in K. apply andb_prop in K. destruct K as [K K3]. apply andb_prop in K.
      change (words_e fl e && forallb (words_s fl) body = true).
      now rewrite (forallb_impl _ _ _ body F K3), (WE e (proj2 K)).
    - intros e K. exact (WE e K).
    - intros p ps e K. cbn [ok_s] in K. apply andb_prop in K. exact (WE e (proj1 K)).
    - intros x e K. cbn [ok_s] in K. apply andb_prop in K. exact (WE e (proj2 K)).
    - intros b bs els Hb F He K. cbn [ok_s] in K. apply andb_prop in K. destruct K as [K K3]. apply andb_prop in K.
      destruct K as [K1 K2].
      change (words_b fl b && forallb (words_b fl) bs && match els with None => true | Some body => forallb (words_s fl) body end = true).
      rewrite (Hb K1), (forallb_impl _ _ _ bs F K2). destruct els as [body|]; [|reflexivity].
      exact (forallb_impl _ _ _ body He K3).
    - intros c body F K. cbn [ok_b] in K. apply andb_prop in K. destruct K as [K1 K2].
      change (words_e fl c && forallb (words_s fl) body = true).
      now rewrite (forallb_impl _ _ _ body F K2), (WE c K1).
  Qed.
End plain.

(** ** Programs *)

Theorem valid_program : forall fl p, Forall good (toks p) -> wf p = true -> plain_strings p = true ->
  ((exists q, py_program (squeeze (program_text fl p)) q) <-> results_inside p = true /\ plain_words fl p = true).
Proof.
  intros fl p G W S. split.
  - intros [q [[bs [B Q]] [I _]]].
    assert (K0 : forallb (ok_s false false fl) p = true)
      by (apply (ready_program fl p G W S); intros X; discriminate X).
    pose proof (program_back false fl p bs q K0 B Q) as K1.
    destruct (program_readable false fl p K1) as [q' [E [bs' [B' Q']]]].
    destruct (blocks_det _ _ _ _ B _ _ B') as [<- _]. rewrite (proj1 statements_det _ _ Q _ Q') in I.
    split.
    + apply (inside_program fl). apply (erase_Forall _ erase_inside _ q'); [now symmetry|exact I].
    + apply (forallb_impl _ _ _ p (proj2 (Forall_forall _ p) (fun s _ => proj1 (ok_words_stmt false fl) s)) K1).
  - intros [R V].
    assert (K1 : forallb (ok_s false true fl) p = true).
    { apply (ready_program fl p G W S); [intros X; discriminate X|intros _; exact V]. }
    destruct (program_readable false fl p K1) as [q [E Q]]. exists q. split; [exact Q|].
    split; [|split].
    + apply (erase_Forall _ erase_inside _ _ E). unfold py_prog. apply Forall_app.
      split; [destruct (fl_vars fl); repeat constructor|].
      apply pass_stands; [exact Logic.I|]. apply Forall_map. unfold results_inside in R. rewrite forallb_forall in R.
      apply Forall_forall. intros s I. apply inside_gen. auto.
    + apply (erase_Forall _ erase_differ _ _ E). unfold py_prog. apply Forall_app.
      split; [destruct (fl_vars fl); repeat constructor|].
      apply pass_stands; [exact Logic.I|]. apply Forall_map. apply flat_map_good in G. rewrite Forall_forall in *.
      intros s I. apply differ_gen. auto.
    + apply (erase_Forall _ erase_targets _ _ E). unfold py_prog. apply Forall_app.
      split; [destruct (fl_vars fl); repeat constructor|].
      apply pass_stands; [exact Logic.I|]. apply Forall_map, Forall_forall. intros s _. apply target_gen.
Qed.

Theorem compiled_valid : forall fl src text, fl_check fl = true -> fl_prefix fl = false -> compile fl src = Ok text ->
  exists p fl', wf p = true /\ scan src = Some (toks p) /\ settled fl p fl' /\
    (plain_strings p = true ->
     ((exists q, py_program text q) <-> results_inside p = true /\ plain_words fl' p = true)).
Proof.
  intros fl src text C P E. destruct (compiled fl src text C P E) as [p [fl' [W [S [H T]]]]].
  exists p, fl'. split; [exact W|split; [exact S|split; [exact H|]]]. intros PS. subst text.
  exact (valid_program fl' p (scan_good _ _ S) W PS).
Qed.
