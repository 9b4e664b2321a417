(** The reference reader of Python gives one answer. *)
From Coq Require Import String Ascii Bool List Arith Lia.
From Verif Require Import PySpec.
Import ListNotations.
Open Scope string_scope.
Open Scope list_scope.

Scheme reads_mind := Minimality for reads Sort Prop
with chain_mind := Minimality for chain Sort Prop
with loop_mind := Minimality for loop Sort Prop
with trailers_mind := Minimality for trailers Sort Prop
with items_mind := Minimality for items Sort Prop
with args_mind := Minimality for args Sort Prop
with arg_mind := Minimality for arg Sort Prop.
Combined Scheme reads_mut from reads_mind, chain_mind, loop_mind, trailers_mind, items_mind, args_mind, arg_mind.

(** What a reading of a high level begins with. *)
Lemma reads8_first : forall ts e r, reads 8 ts e r ->
  match ts with
  | [] => False
  | PO o :: _ => o = "(" \/ o = "[" \/ o = "{"
  | PN s :: _ => ~ In s py_keywords
  | _ => True
  end.
Proof. intros ts e r H. inversion H; subst; try lia; auto. Qed.

Lemma reads7_first : forall ts e r, reads 7 ts e r ->
  match ts with
  | [] => False
  | PO o :: _ => o = "(" \/ o = "[" \/ o = "{"
  | PN s :: _ => ~ In s py_keywords
  | _ => True
  end.
Proof. intros ts e r H. inversion H; subst; try lia. eapply reads8_first; eassumption. Qed.

Lemma reads6_first : forall ts e r, reads 6 ts e r ->
  match ts with
  | [] => False
  | PO o :: _ => o = "(" \/ o = "[" \/ o = "{"
  | PN s :: _ => ~ In s py_keywords
  | _ => True
  end.
Proof. intros ts e r H. inversion H; subst; try lia; eapply reads7_first; eassumption. Qed.

Lemma reads_first : forall k ts e r, reads k ts e r ->
  match ts with
  | [] => False
  | PO o :: _ => In o ["("; "["; "{"; "+"; "-"; "~"]
  | PN s :: _ => ~ In s py_keywords
  | _ => True
  end.
Proof.
  intros k ts e r H. induction H; try assumption; try (cbn; tauto); cbn in *; tauto.
Qed.

Lemma items_first : forall o r es r', items (PO o :: r) es r' -> In o ["("; "["; "{"; "+"; "-"; "~"; "]"].
Proof.
  intros o r es r' H. inversion H; subst; [cbn; tauto| |];
    match goal with X : reads _ _ _ _ |- _ => apply reads_first in X; cbn in X; cbn; tauto end.
Qed.

Theorem reads_det :
  (forall k ts e r, reads k ts e r -> forall e' r', reads k ts e' r' -> e = e' /\ r = r') /\
  (forall ts es r, chain ts es r -> forall es' r', chain ts es' r' -> es = es' /\ r = r') /\
  (forall k a ts e r, loop k a ts e r -> forall e' r', loop k a ts e' r' -> e = e' /\ r = r') /\
  (forall a ts e r, trailers a ts e r -> forall e' r', trailers a ts e' r' -> e = e' /\ r = r') /\
  (forall ts es r, items ts es r -> forall es' r', items ts es' r' -> es = es' /\ r = r') /\
  (forall ts es r, args ts es r -> forall es' r', args ts es' r' -> es = es' /\ r = r') /\
  (forall ts a r, arg ts a r -> forall a' r', arg ts a' r' -> a = a' /\ r = r').
Proof.
  apply reads_mut.
  - intros ts a r es r' _ IH1 _ IH2 e' r2 H. inversion H; subst; [|lia].
    match goal with X : reads 1 _ _ _ |- _ => apply IH1 in X; destruct X; subst end.
    match goal with X : chain _ _ _ |- _ => apply IH2 in X; destruct X; subst end. split; reflexivity.
  - intros k ts a r e r' K _ IH1 _ IH2 e' r2 H. inversion H; subst; try lia.
    match goal with X : reads (S k) _ _ _ |- _ => apply IH1 in X; destruct X; subst end.
    match goal with X : loop _ _ _ _ _ |- _ => apply IH2 in X; destruct X; subst end. split; reflexivity.
  - intros o ts e r I _ IH e' r2 H. inversion H; subst; try lia.
    + match goal with X : reads 5 _ _ _ |- _ => apply IH in X; destruct X; subst end. split; reflexivity.
    + match goal with X : next_not _ _ |- _ => cbn in X; cbn in I; tauto end.
  - intros ts e r N _ IH e' r2 H. inversion H; subst; try lia.
    + cbn in N. match goal with X : In _ _ |- _ => cbn in X; tauto end.
    + match goal with X : reads 6 _ _ _ |- _ => apply IH in X; exact X end.
  - intros ts a r b r' _ IH1 _ IH2 e' r2 H. inversion H; subst; try lia.
    + match goal with X : reads 7 _ _ _ |- _ => apply IH1 in X; destruct X as [-> X]; injection X as -> end.
      match goal with X : reads 5 _ _ _ |- _ => apply IH2 in X; destruct X; subst end. split; reflexivity.
    + match goal with X : reads 7 _ _ _ |- _ => apply IH1 in X; destruct X as [-> X]; subst end.
      match goal with X : next_not _ _ |- _ => cbn in X; tauto end.
  - intros ts a r _ IH N e' r2 H. inversion H; subst; try lia.
    + match goal with X : reads 7 _ _ _ |- _ => apply IH in X; destruct X as [-> X]; subst end. cbn in N. tauto.
    + match goal with X : reads 7 _ _ _ |- _ => apply IH in X; exact X end.
  - intros ts a r e r' _ IH1 _ IH2 e' r2 H. inversion H; subst; try lia.
    match goal with X : reads 8 _ _ _ |- _ => apply IH1 in X; destruct X as [<- <-] end.
    match goal with X : trailers _ _ _ _ |- _ => apply IH2 in X; exact X end.
  - intros s r N e' r2 H. inversion H; subst; try lia; split; reflexivity.
  - intros s r N e' r2 H. inversion H; subst; try lia; split; reflexivity.
  - intros s ps r E e' r2 H. inversion H; subst; try lia. split; congruence.
  - intros s r e' r2 H. inversion H; subst; try lia; split; reflexivity.
  - intros ts e r _ IH e' r2 H. inversion H; subst; try lia.
    match goal with X : reads 0 _ _ _ |- _ => apply IH in X; destruct X as [-> X]; injection X as -> end. split; reflexivity.
  - intros r e' r2 H. inversion H; subst; try lia; split; reflexivity.
  - intros ts es r _ IH e' r2 H. inversion H; subst; try lia.
    match goal with X : items _ _ _ |- _ => apply IH in X; destruct X as [-> X]; injection X as -> end. split; reflexivity.
  - intros r N es' r2 H. inversion H; subst; [split; reflexivity|]. cbn in N. contradiction.
  - intros o ts e r es r' I _ IH1 _ IH2 es' r2 H. inversion H; subst.
    + match goal with X : next_not _ _ |- _ => cbn in X; contradiction end.
    + match goal with X : reads 1 _ _ _ |- _ => apply IH1 in X; destruct X; subst end.
      match goal with X : chain _ _ _ |- _ => apply IH2 in X; destruct X; subst end. split; reflexivity.
  - intros k a r N e' r2 H. inversion H; subst; [split; reflexivity|]. cbn in N. contradiction.
  - intros k o a ts b r e r' I _ IH1 _ IH2 e' r2 H. inversion H; subst.
    + match goal with X : next_not _ _ |- _ => cbn in X; contradiction end.
    + match goal with X : reads (S k) _ _ _ |- _ => apply IH1 in X; destruct X; subst end.
      match goal with X : loop _ _ _ _ _ |- _ => apply IH2 in X; exact X end.
  - intros a r N e' r2 H. inversion H; subst; cbn in N; tauto.
  - intros a x r e r' N _ IH e' r2 H. inversion H; subst.
    + match goal with X : next_not _ _ |- _ => cbn in X; tauto end.
    + match goal with X : trailers _ _ _ _ |- _ => apply IH in X; exact X end.
  - intros a ts es r e r' _ IH1 _ IH2 e' r2 H. inversion H; subst.
    + match goal with X : next_not _ _ |- _ => cbn in X; tauto end.
    + match goal with X : args _ _ _ |- _ => apply IH1 in X; destruct X as [-> X]; injection X as -> end.
      match goal with X : trailers _ _ _ _ |- _ => apply IH2 in X; exact X end.
  - intros a ts i r e r' _ IH1 _ IH2 e' r2 H. inversion H; subst.
    + match goal with X : next_not _ _ |- _ => cbn in X; tauto end.
    + match goal with X : reads 0 _ _ _ |- _ => apply IH1 in X; destruct X as [-> X]; injection X as -> end.
      match goal with X : trailers _ _ _ _ |- _ => apply IH2 in X; exact X end.
  - intros r es' r2 H. inversion H; subst; [split; reflexivity| |];
      match goal with X : reads _ _ _ _ |- _ => apply reads_first in X; cbn in X; decompose [or] X; try discriminate; contradiction end.
  - intros ts e r R IH N es' r2 H. inversion H; subst.
    + apply reads_first in R. cbn in R. decompose [or] R; try discriminate; contradiction.
    + match goal with X : reads 0 _ _ _ |- _ => apply IH in X; destruct X; subst end. split; reflexivity.
    + match goal with X : reads 0 _ _ _ |- _ => apply IH in X; destruct X as [-> X]; subst end. cbn in N. tauto.
  - intros ts e r es r' R IH1 _ IH2 NE es' r2 H. inversion H; subst.
    + apply reads_first in R. cbn in R. decompose [or] R; try discriminate; contradiction.
    + match goal with X : reads 0 _ _ _ |- _ => apply IH1 in X; destruct X as [-> X]; subst end.
      match goal with X : next_not _ _ |- _ => cbn in X; tauto end.
    + match goal with X : reads 0 _ _ _ |- _ => apply IH1 in X; destruct X as [-> X]; injection X as -> end.
      match goal with X : items _ _ _ |- _ => apply IH2 in X; destruct X; subst end. split; reflexivity.
  - intros r es' r2 H. inversion H; subst; [split; reflexivity| |];
      match goal with X : arg _ _ _ |- _ => inversion X; subst end;
      match goal with X : reads _ _ _ _ |- _ => apply reads_first in X; cbn in X; decompose [or] X; try discriminate; contradiction end.
  - intros ts e r R IH N es' r2 H. inversion H; subst.
    + inversion R; subst. match goal with X : reads _ _ _ _ |- _ => apply reads_first in X; cbn in X; decompose [or] X; try discriminate; contradiction end.
    + match goal with X : arg _ _ _ |- _ => apply IH in X; destruct X; subst end. split; reflexivity.
    + match goal with X : arg _ _ _ |- _ => apply IH in X; destruct X as [-> X]; subst end. cbn in N. tauto.
  - intros ts e r es r' R IH1 _ IH2 NE es' r2 H. inversion H; subst.
    + inversion R; subst. match goal with X : reads _ _ _ _ |- _ => apply reads_first in X; cbn in X; decompose [or] X; try discriminate; contradiction end.
    + match goal with X : arg _ _ _ |- _ => apply IH1 in X; destruct X as [-> X]; subst end.
      match goal with X : next_not _ _ |- _ => cbn in X; tauto end.
    + match goal with X : arg _ _ _ |- _ => apply IH1 in X; destruct X as [-> X]; injection X as -> end.
      match goal with X : args _ _ _ |- _ => apply IH2 in X; destruct X; subst end. split; reflexivity.
  - intros ts e r N _ IH a' r2 H. inversion H; subst.
    + match goal with X : reads 0 _ _ _ |- _ => apply IH in X; destruct X; subst end. split; reflexivity.
    + exfalso. eapply N. reflexivity.
  - intros s ts e r N _ IH a' r2 H. inversion H; subst.
    + exfalso. match goal with X : forall s r, _ <> _ |- _ => eapply X; reflexivity end.
    + match goal with X : reads 0 _ _ _ |- _ => apply IH in X; destruct X; subst end. split; reflexivity.
Qed.

Theorem py_expression_det : forall s e e', py_expression s e -> py_expression s e' -> e = e'.
Proof.
  intros s e e' [ts [L R]] [ts' [L' R']]. assert (ts = ts') by congruence. subst ts'.
  exact (proj1 (proj1 reads_det 0 ts e [] R e' [] R')).
Qed.

Definition rd_det := proj1 reads_det.

Ltac use_reads :=
  match goal with
  | A : reads ?k ?ts ?e ?r, B : reads ?k ?ts ?e' ?r' |- _ =>
      let X := fresh "E" in let Y := fresh "F" in
      destruct (rd_det k ts e r A e' r' B) as [X Y]; clear B;
      try (injection Y as Y); subst
  end.

Lemma pparam_det : forall ts p r, pparam ts p r -> forall p' r', pparam ts p' r' -> p = p' /\ r = r'.
Proof.
  intros ts p r H p' r' H'. inversion H; subst; inversion H'; subst;
    try (match goal with X : next_not _ _ |- _ => cbn in X; tauto end).
  use_reads. split; reflexivity.
Qed.

Lemma pparams_det : forall ts ps r, pparams ts ps r -> forall ps' r', pparams ts ps' r' -> ps = ps' /\ r = r'.
Proof.
  intros ts ps r H. induction H as [r|ts p r P N|ts p r ps r' P _ IH NE]; intros ps' r2 H; inversion H; subst;
    try (match goal with X : pparam (PO _ :: _) _ _ |- _ => inversion X end).
  - split; reflexivity.
  - match goal with X : pparam ts _ _ |- _ => destruct (pparam_det _ _ _ X _ _ P); subst end. split; reflexivity.
  - match goal with X : pparam ts _ (PO "," :: _) |- _ => destruct (pparam_det _ _ _ X _ _ P) as [E1 E2]; subst end.
    cbn in N. tauto.
  - match goal with X : next_not _ ?r3, Y : pparam ts _ ?r3 |- _ => destruct (pparam_det _ _ _ Y _ _ P) as [E1 E2]; subst; cbn in X; tauto end.
  - match goal with Q : pparams ?r3 _ _, X : pparam ts _ (PO "," :: ?r3) |- _ =>
      destruct (pparam_det _ _ _ P _ _ X) as [E1 E2]; injection E2 as E2; subst; destruct (IH _ _ Q); subst end.
    split; reflexivity.
Qed.

Lemma not_name : forall w r k e r', In w py_keywords -> ~ reads k (PN w :: r) e r'.
Proof. intros w r k e r' I H. apply reads_first in H. contradiction. Qed.

Ltac keyword :=
  exfalso; match goal with
  | X : reads _ (PN ?w :: _) _ _ |- _ => eapply (not_name w); [|exact X]; cbn; tauto
  end.

Lemma simple_det : forall ts s r, simple ts s r -> forall s' r', simple ts s' r' -> s = s' /\ r = r'.
Proof.
  intros ts s r H s' r' H'. inversion H; subst; inversion H'; subst; try keyword;
    repeat use_reads; try (split; reflexivity);
    match goal with X : next_not _ _ |- _ => cbn in X; tauto end.
Qed.

Lemma simples_det : forall ts ss, simples ts ss -> forall ss', simples ts ss' -> ss = ss'.
Proof.
  intros ts ss H. induction H; intros ss' H'; inversion H'; subst;
    match goal with
    | A : simple ?ts ?a ?r, B : simple ?ts ?b ?r' |- _ =>
        destruct (simple_det _ _ _ A _ _ B) as [E1 E2]; subst; try (injection E2 as E2; subst)
    end; try reflexivity; try discriminate; try congruence.
  f_equal. now apply IHsimples.
Qed.

Lemma blocks_det : forall d ls bs r, blocks d ls bs r -> forall bs' r', blocks d ls bs' r' -> bs = bs' /\ r = r'.
Proof.
  intros d ls bs r H. induction H; intros bs' r3 H'; inversion H'; subst; try lia; try contradiction;
    try (split; reflexivity).
  - match goal with X : blocks _ _ _ _ |- _ => destruct (IHblocks _ _ X); subst end. split; reflexivity.
  - match goal with X : blocks m _ _ _ |- _ => destruct (IHblocks1 _ _ X); subst end.
    match goal with X : blocks d _ _ _, Y : blocks d _ _ _ |- _ =>
      first [ destruct (IHblocks2 _ _ X); subst | destruct (IHblocks2 _ _ Y); subst ] end.
    split; reflexivity.
Qed.

Scheme statements_mind := Minimality for statements Sort Prop
with orelse_mind := Minimality for orelse Sort Prop.
Combined Scheme statements_mut from statements_mind, orelse_mind.

Ltac same_lex :=
  repeat match goal with
  | A : py_lex ?t = Some ?x, B : py_lex ?t = Some ?y |- _ =>
      let X := fresh "E" in assert (X : x = y) by congruence; clear B;
      first [ discriminate X | injection X as; subst | subst ]
  end.

Lemma decorator_line : forall ds ss, ~ simples (PO "@" :: ds) ss.
Proof.
  intros ds ss H. inversion H; subst;
    match goal with X : simple _ _ _ |- _ => inversion X; subst end;
    match goal with X : reads _ _ _ _ |- _ => apply reads_first in X; cbn in X; decompose [or] X; try discriminate; contradiction end.
Qed.

Theorem statements_det :
  (forall bs ss, statements bs ss -> forall ss', statements bs ss' -> ss = ss') /\
  (forall bs els bs', orelse bs els bs' -> forall els2 bs2, orelse bs els2 bs2 -> els = els2 /\ bs' = bs2).
Proof.
  apply statements_mut.
  - intros ss' H. inversion H. reflexivity.
  - intros t ts ss bs ss' L S1 _ IH ss2 H. inversion H; subst; same_lex.
    + match goal with X : simples _ _ |- _ => rewrite (simples_det _ _ S1 _ X) end.
      f_equal. now apply IH.
    + exfalso. eapply decorator_line. exact S1.
  - intros t x ts e body ss bs ss' L _ R _ IH1 _ IH2 ss2 H. inversion H; subst; same_lex.
    use_reads. f_equal; [f_equal; now apply IH1|now apply IH2].
  - intros t ts c body ss bs els bs' ss' L R _ IH1 _ IH2 _ IH3 ss2 H. inversion H; subst; same_lex.
    use_reads. match goal with X : orelse _ _ _ |- _ => destruct (IH2 _ _ X); subst end.
    f_equal; [f_equal; now apply IH1|now apply IH3].
  - intros d ds dec t f ts ps body ss bs ss' L R L2 _ P _ IH1 _ IH2 ss2 H. inversion H; subst; same_lex.
    + exfalso. match goal with X : simples _ _ |- _ => eapply decorator_line; exact X end.
    + use_reads. match goal with X : pparams _ _ _ |- _ => destruct (pparams_det _ _ _ X _ _ P); subst end.
      f_equal; [f_equal; now apply IH1|now apply IH2].
  - intros bs N els2 bs2 H. inversion H; subst; [split; reflexivity| |];
      exfalso; match goal with X : py_lex _ = _ |- _ => destruct (N _ _ _ _ _ eq_refl X) end; congruence.
  - intros t body ss bs L _ IH els2 bs2 H. inversion H; subst; same_lex.
    + exfalso. match goal with X : forall t body bs' w r, _ |- _ => destruct (X _ _ _ _ _ eq_refl L) end. congruence.
    + match goal with X : statements _ _ |- _ => rewrite (IH _ X) end. split; reflexivity.
  - intros t ts c body ss els bs bs' L R _ IH1 _ IH2 els2 bs2 H. inversion H; subst; same_lex.
    + exfalso. match goal with X : forall t body bs' w r, _ |- _ => destruct (X _ _ _ _ _ eq_refl L) end. congruence.
    + use_reads. match goal with X : statements _ _ |- _ => rewrite (IH1 _ X) end.
      match goal with X : orelse _ _ _ |- _ => destruct (IH2 _ _ X); subst end. split; reflexivity.
Qed.

(** A text stands for one program at most. *)
Theorem py_program_det : forall s p p', py_program s p -> py_program s p' -> p = p'.
Proof.
  intros s p p' [[bs [B T]] _] [[bs' [B' T']] _]. destruct (blocks_det _ _ _ _ B _ _ B') as [-> _].
  exact (proj1 statements_det _ _ T _ T').
Qed.
