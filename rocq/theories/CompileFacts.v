(** Function names and the checks of the compiler. *)
From Coq Require Import String Ascii Bool List Arith Lia.
From Verif Require Import PyBase LexModel LexSpec LexFacts GramModel ParseModel SynSpec SynInd ParseSound ParseLaws NameSpec ResolveModel ResolveGen HeaderFacts ResolveFacts.
Import ListNotations.
Open Scope string_scope.
Open Scope list_scope.
Open Scope py_scope.

(** ** Joining words with underscores loses nothing *)

Definition plain_word (w : string) : Prop := w <> "" /\ all_chars (fun c => c <> "_"%char) w.

Lemma word_split : forall a b r r', all_chars (fun c => c <> "_"%char) a -> all_chars (fun c => c <> "_"%char) b ->
  (r = "" \/ exists x, r = String "_" x) -> (r' = "" \/ exists x, r' = String "_" x) ->
  (a ++ r)%string = (b ++ r')%string -> a = b /\ r = r'.
Proof.
  induction a as [|c a IH]; intros b r r' A B R R' E.
  - destruct b as [|d b]; [split; [reflexivity|exact E]|].
    pose proof (Forall_inv B) as B1. cbv beta in B1. destruct R as [->|[x ->]]; cbn in E; [discriminate|].
    injection E as E1 E2. congruence.
  - pose proof (Forall_inv A) as A1. pose proof (Forall_inv_tail A) as A2. cbv beta in A1. destruct b as [|d b].
    + destruct R' as [->|[x ->]]; cbn in E; [discriminate|]. injection E as E1 E2. congruence.
    + pose proof (Forall_inv_tail B) as B2. cbn in E. injection E as -> E2.
      destruct (IH b r r' A2 B2 R R' E2) as [-> ->]. split; reflexivity.
Qed.

Lemma app_empty : forall s, (s ++ "")%string = s.
Proof. induction s as [|c s IH]; [reflexivity|]. cbn. now rewrite IH. Qed.

Lemma join_cons : forall s x l, join s (x :: l) = match l with [] => x | _ => (x ++ s ++ join s l)%string end.
Proof. intros s x []; reflexivity. Qed.

Lemma join_inj : forall l l', Forall plain_word l -> Forall plain_word l' -> join "_" l = join "_" l' -> l = l'.
Proof.
  induction l as [|a l IH]; intros l' F F' E.
  - destruct l' as [|b l']; [reflexivity|]. rewrite join_cons in E. inversion F' as [|? ? [N _] _]; subst.
    destruct b; [congruence|]. destruct l'; discriminate.
  - inversion F as [|? ? [Na Aa] Fl]; subst. destruct l' as [|b l'].
    + rewrite join_cons in E. destruct a; [congruence|]. destruct l; discriminate.
    + inversion F' as [|? ? [Nb Ab] Fl']; subst. rewrite !join_cons in E.
      assert (X : (a ++ match l with [] => "" | _ => "_" ++ join "_" l end =
                   b ++ match l' with [] => "" | _ => "_" ++ join "_" l' end)%string).
      { destruct l, l'; rewrite ?app_empty; exact E. }
      apply word_split in X; [|exact Aa|exact Ab
        |destruct l; [now left|right; eexists; reflexivity]
        |destruct l'; [now left|right; eexists; reflexivity]].
      destruct X as [-> Y].
      f_equal. apply IH; [exact Fl|exact Fl'|].
        destruct l, l'; cbn in Y; try reflexivity; try discriminate. now injection Y.
Qed.

(** ** Names *)

Lemma lower_plain : forall w, lower_word w -> plain_word w /\ w <> "X".
Proof.
  intros w [N H]. split; [split; [exact N|]|].
  - unfold all_chars in *. eapply Forall_impl; [|exact H]. intros c A E. subst c.
    unfold lower_letter in A. cbn in A. decompose [or] A; try discriminate; assumption.
  - intros ->. pose proof (Forall_inv H) as A. unfold lower_letter in A. cbn in A.
    decompose [or] A; try discriminate; assumption.
Qed.

Definition part_name (x : option string) : string := match x with Some w => w | None => "X" end.

Lemma parts_plain : forall s, shape_words s -> Forall plain_word (map part_name s).
Proof.
  intros s H. induction H as [|x s Hx H IH]; cbn [map]; constructor; [|exact IH].
  destruct x as [w|]; [exact (proj1 (lower_plain w Hx))|]. cbn. split; [discriminate|].
  constructor; [discriminate|constructor].
Qed.

Lemma parts_inj : forall s s', shape_words s -> shape_words s' -> map part_name s = map part_name s' -> s = s'.
Proof.
  induction s as [|x s IH]; intros [|y s'] H H' E; try discriminate; [reflexivity|].
  pose proof (Forall_inv H) as Hx. pose proof (Forall_inv H') as Hy.
  apply Forall_inv_tail in H. apply Forall_inv_tail in H'.
  cbn [map] in E. injection E as E1 E2. f_equal; [|exact (IH s' H H' E2)].
  destruct x as [w|], y as [v|]; cbn in E1; [congruence| | |reflexivity].
  - destruct (lower_plain w Hx). congruence.
  - destruct (lower_plain v Hy). congruence.
Qed.

Lemma f_plain : plain_word "f".
Proof. split; [discriminate|]. constructor; [discriminate|constructor]. Qed.

Theorem mangle_inj : forall fl s s', shape_words s -> shape_words s' -> mangle fl s = mangle fl s' -> s = s'.
Proof.
  intros fl s s' H H' E. unfold mangle in E.
  apply join_inj in E.
  - apply app_inv_head in E. exact (parts_inj s s' H H' E).
  - apply Forall_app. split; [|exact (parts_plain s H)].
    destruct (fl_prefix fl); constructor; [exact f_plain|constructor].
  - apply Forall_app. split; [|exact (parts_plain s' H')].
    destruct (fl_prefix fl); constructor; [exact f_plain|constructor].
Qed.

(** ** The words of a program *)

Lemma word_good : forall w, good (word_tok w) -> lower_word (snd (word_tok w)).
Proof.
  intros w H. apply (LexFacts.word_token_text (fst (word_tok w))); [exact H|].
  destruct w as [s|[]]; reflexivity.
Qed.
Lemma d_lower : lower_word "d".
Proof. split; [discriminate|]. constructor; [|constructor]. unfold lower_letter. cbn. tauto. Qed.

Lemma header_words : forall hs, Forall good (flat_map toks_h hs) -> shape_words (header_shape hs).
Proof.
  intros hs G. induction hs as [|h hs IH]; [constructor|].
  cbn [flat_map] in G. apply Forall_app in G. destruct G as [G1 G2].
  constructor; [|exact (IH G2)]. destruct h; cbn; try exact Logic.I.
  - apply word_good. exact (Forall_inv G1).
  - exact d_lower.
Qed.

Lemma sepby_good : forall k l, Forall good (sepby k l) -> Forall (Forall good) l.
Proof.
  induction l as [|x l IH]; intros G; [constructor|].
  destruct l as [|y l].
  - constructor; [exact G|constructor].
  - cbn [sepby] in G. apply Forall_app in G. destruct G as [G1 G2]. constructor; [exact G1|].
    apply IH. exact (Forall_inv_tail G2).
Qed.

Lemma flat_map_good : forall A (f : A -> list tok) l, Forall good (flat_map f l) -> Forall (fun x => Forall good (f x)) l.
Proof.
  intros A f l G. induction l as [|x l IH]; [constructor|]. cbn [flat_map] in G. apply Forall_app in G.
  destruct G as [G1 G2]. constructor; [exact G1|exact (IH G2)].
Qed.

Lemma flat_map_Forall : forall A B (f : A -> list B) P l, Forall (fun x => Forall P (f x)) l -> Forall P (flat_map f l).
Proof.
  intros A B f P l F. induction F; cbn [flat_map]; [constructor|]. apply Forall_app. split; assumption.
Qed.

Lemma Forall_mp : forall A (P Q : A -> Prop) l, Forall (fun x => P x -> Q x) l -> Forall P l -> Forall Q l.
Proof.
  intros A P Q l F. induction F as [|x l Hx F IH]; intros G; [constructor|].
  constructor; [exact (Hx (Forall_inv G))|exact (IH (Forall_inv_tail G))].
Qed.

Lemma call_words : forall cs, Forall good (flat_map toks_c cs) -> shape_words (call_shape cs).
Proof.
  intros cs G. apply flat_map_good in G. unfold shape_words, call_shape. apply Forall_map.
  eapply Forall_impl; [|exact G]. intros [w|e] A; [|exact Logic.I]. apply word_good. exact (Forall_inv A).
Qed.

Lemma calls_words :
  (forall e, Forall good (toks_e e) -> Forall shape_words (calls_e e)) /\
  (forall t, Forall good (toks_t t) -> Forall shape_words (calls_t t)) /\
  (forall x, Forall good (toks_l x) -> Forall shape_words (calls_l x)) /\
  (forall c, Forall good (toks_c c) -> Forall shape_words (calls_c c)).
Proof.
  apply syn_ind.
  - intros o l r Hl Hr G. cbn [toks_e] in G. apply Forall_app in G. destruct G as [G1 G2].
    apply Forall_app in G2. destruct G2 as [_ G2]. cbn [calls_e]. apply Forall_app. split; auto.
  - intros n d Hn Hd G. cbn [toks_e] in G. apply Forall_app in G. destruct G as [G1 G2].
    apply Forall_inv_tail in G2. cbn [calls_e]. apply Forall_app. split; auto.
  - intros d Hd G. cbn [toks_e] in G. apply Forall_inv_tail in G. exact (Hd G).
  - intros t Ht G. exact (Ht G).
  - intros; constructor.
  - intros; constructor.
  - intros; constructor.
  - intros; constructor.
  - intros es F G. cbn [toks_t] in G. apply Forall_inv_tail in G. apply Forall_app in G. destruct G as [G _].
    apply sepby_good in G. cbn [calls_t]. apply flat_map_Forall.
    exact (Forall_mp _ _ _ _ F (proj1 (Forall_map toks_l (Forall good) es) G)).
  - intros e He G. cbn [toks_t] in G. apply Forall_inv_tail in G. apply Forall_app in G. exact (He (proj1 G)).
  - intros cs F G. cbn [toks_t] in G. apply Forall_inv_tail in G. apply Forall_app in G. destruct G as [G _].
    cbn [calls_t]. apply Forall_app. split.
    + apply flat_map_Forall. apply flat_map_good in G. exact (Forall_mp _ _ _ _ F G).
    + constructor; [exact (call_words cs G)|constructor].
  - intros u t Ht G. cbn [toks_t] in G. apply Forall_inv_tail in G. exact (Ht G).
  - intros t Ht G. cbn [toks_t] in G. apply Forall_inv_tail in G. exact (Ht G).
  - intros e He G. exact (He G).
  - intros a b Ha Hb G. cbn [toks_l] in G. apply Forall_app in G. destruct G as [G1 G2].
    apply Forall_inv_tail in G2. cbn [calls_l]. apply Forall_app. split; auto.
  - intros; constructor.
  - intros e He G. exact (He G).
Qed.

Lemma CW : forall e, Forall good (toks_e e) -> Forall shape_words (calls_e e).
Proof. exact (proj1 calls_words). Qed.

Lemma stmt_words :
  (forall s, Forall good (toks_s s) -> Forall shape_words (calls_s s) /\ Forall shape_words (defs_s s)) /\
  (forall b, Forall good (toks_b b) -> Forall shape_words (calls_b b) /\ Forall shape_words (defs_b b)).
Proof.
  assert (BODY : forall body, Forall (fun s => Forall good (toks_s s) -> Forall shape_words (calls_s s) /\ Forall shape_words (defs_s s)) body ->
    Forall good (flat_map toks_s body) ->
    Forall shape_words (flat_map calls_s body) /\ Forall shape_words (flat_map defs_s body)).
  { intros body F G. apply flat_map_good in G. pose proof (Forall_mp _ _ _ _ F G) as H.
    split; apply flat_map_Forall; (eapply Forall_impl; [|exact H]); intros s [A B]; assumption. }
  apply stmt_ind2.
  - intros e G. cbn [toks_s] in G. apply Forall_inv_tail in G. split; [exact (CW e G)|constructor].
  - intros e p ps G. cbn [toks_s] in G. apply Forall_inv_tail in G. apply Forall_app in G.
    split; [exact (CW e (proj1 G))|constructor].
  - intros h hs body F G. cbn [toks_s] in G. do 2 apply Forall_inv_tail in G. apply Forall_app in G.
    destruct G as [Gh Gb]. apply good_braces in Gb. destruct (BODY body F Gb) as [A B].
    cbn [calls_s defs_s]. split; [exact A|]. constructor; [exact (header_words (h :: hs) Gh)|exact B].
  - intros x e body F G. cbn [toks_s] in G. do 3 apply Forall_inv_tail in G. apply Forall_app in G.
    destruct G as [Ge Gb]. apply good_braces in Gb. destruct (BODY body F Gb) as [A B].
    cbn [calls_s defs_s]. split; [|exact B]. apply Forall_app. split; [exact (CW e Ge)|exact A].
  - intros e G. cbn [toks_s] in G. do 2 apply Forall_inv_tail in G. split; [exact (CW e G)|constructor].
  - intros p ps v G. cbn [toks_s] in G. apply Forall_inv_tail in G. apply Forall_app in G. destruct G as [_ G].
    apply Forall_inv_tail in G. split; [exact (CW v G)|constructor].
  - intros x e G. cbn [toks_s] in G. do 2 apply Forall_inv_tail in G. split; [exact (CW e G)|constructor].
  - intros b bs els Hb Hbs He G. cbn [toks_s] in G. apply Forall_inv_tail in G. apply Forall_app in G.
    destruct G as [Gb G]. apply Forall_app in G. destruct G as [Gbs Ge].
    destruct (Hb Gb) as [B1 B2].
    assert (BS : Forall shape_words (flat_map calls_b bs) /\ Forall shape_words (flat_map defs_b bs)).
    { apply flat_map_good in Gbs.
      assert (Gbs' : Forall (fun b => Forall good (toks_b b)) bs).
      { eapply Forall_impl; [|exact Gbs]. intros b0 A. exact (Forall_inv_tail (Forall_inv_tail A)). }
      pose proof (Forall_mp _ _ _ _ Hbs Gbs') as H.
      split; apply flat_map_Forall; (eapply Forall_impl; [|exact H]); intros s [A B]; assumption. }
    assert (EL : Forall shape_words (match els with None => [] | Some body => flat_map calls_s body end) /\
                 Forall shape_words (match els with None => [] | Some body => flat_map defs_s body end)).
    { destruct els as [body|]; [|split; constructor]. apply Forall_inv_tail in Ge. apply good_braces in Ge.
      exact (BODY body He Ge). }
    cbn [calls_s defs_s]. destruct BS, EL. split; repeat (apply Forall_app; split); assumption.
  - intros c body F G. cbn [toks_b] in G. apply Forall_app in G. destruct G as [Gc Gb].
    apply good_braces in Gb. destruct (BODY body F Gb) as [A B]. cbn [calls_b defs_b].
    split; [|exact B]. apply Forall_app. split; [exact (CW c Gc)|exact A].
Qed.

Lemma program_words : forall p, Forall good (toks p) ->
  Forall shape_words (calls p) /\ Forall shape_words (defs p).
Proof.
  intros p G. unfold toks in G. apply flat_map_good in G.
  split; apply flat_map_Forall; (eapply Forall_impl; [|exact G]); intros s A; apply (proj1 stmt_words s A).
Qed.

(** ** Library functions and helpers *)

Definition lowerb (w : string) : bool := negb (String.eqb w "") && forallb is_lower (list_ascii_of_string w).
Lemma lowerb_word : forall w, lowerb w = true -> lower_word w.
Proof.
  intros w H. apply andb_true_iff in H. destruct H as [A B]. split.
  - intros ->. discriminate.
  - unfold all_chars, chars. apply Forall_forall. intros c I. rewrite forallb_forall in B.
    apply is_lower_iff. exact (B c I).
Qed.
Definition shapeb (s : shape) : bool := forallb (fun x => match x with Some w => lowerb w | None => true end) s.
Lemma shapeb_words : forall s, shapeb s = true -> shape_words s.
Proof.
  intros s H. unfold shapeb in H. rewrite forallb_forall in H. apply Forall_forall. intros x I.
  specialize (H x I). destruct x; [exact (lowerb_word _ H)|exact Logic.I].
Qed.
Lemma shapes_words : forall l, forallb shapeb l = true -> Forall shape_words l.
Proof.
  intros l H. rewrite forallb_forall in H. apply Forall_forall. intros s I. exact (shapeb_words s (H s I)).
Qed.
Lemma library_words : Forall shape_words library_shapes.
Proof. apply shapes_words. reflexivity. Qed.
Lemma helper_words : Forall shape_words helper_shapes.
Proof. apply shapes_words. reflexivity. Qed.

Definition no_prefix (fl : flags) : Prop := fl_prefix fl = false.

Lemma library_names : forall fl, fl_prefix fl = false -> map (mangle fl) library_shapes = library.
Proof. intros fl H. unfold mangle. rewrite H. reflexivity. Qed.
Lemma helper_names : forall fl, fl_prefix fl = false -> map (mangle fl) helper_shapes = may_collide.
Proof. intros fl H. unfold mangle. rewrite H. reflexivity. Qed.

Lemma in_names : forall fl c l, shape_words c -> Forall shape_words l ->
  (In (mangle fl c) (map (mangle fl) l) <-> In c l).
Proof.
  intros fl c l H F. split.
  - intros I. apply in_map_iff in I. destruct I as [c' [E I]]. rewrite Forall_forall in F.
    apply mangle_inj in E; [now subst|exact (F c' I)|exact H].
  - apply in_map.
Qed.

Lemma prefixed_fresh : forall fl c l, fl_prefix fl = true -> shape_words c -> Forall shape_words l ->
  forallb (fun s => match s with Some w :: _ => negb (String.eqb w "f") | _ => true end) l = true ->
  ~ In (mangle fl c) (map (fun s => join "_" (map part_name s)) l).
Proof.
  intros fl c l P H F N I. apply in_map_iff in I. destruct I as [s [E I]].
  rewrite Forall_forall in F. rewrite forallb_forall in N. specialize (F s I). specialize (N s I).
  unfold mangle in E. rewrite P in E. cbn [app] in E.
  apply join_inj in E.
  - destruct s as [|[w|] s]; cbn in E; try discriminate.
    injection E as -> _. discriminate.
  - exact (parts_plain s F).
  - constructor; [exact f_plain|exact (parts_plain c H)].
Qed.

Lemma str_mem_in : forall x l, str_mem x l = true <-> In x l.
Proof. exact existsb_eqb. Qed.

(** ** One pass *)

Definition program_text (fl : flags) (p : program) : string :=
  ((if fl_vars fl then "vars = {}" ++ nl ++ nl else "") ++ block_text (map (gen_s fl) p) ++ nl)%string.

Lemma known_iff : forall fl p c, Forall good (toks p) -> shape_words c ->
  (In (mangle fl c) (r_defined (adv fl (defs p) (calls p) (outputs p) reset_state)) <->
   In c (defs p) \/ (negb (fl_prefix fl) = true /\ In c library_shapes)).
Proof.
  intros fl p c G H. destruct (program_words p G) as [_ D]. cbn [adv r_defined reset_state].
  rewrite in_app_iff, <- in_rev, in_names by assumption.
  destruct (fl_prefix fl) eqn:P.
  - split; [|intros [A|[A _]]; [now left|discriminate]]. intros [A|A]; [now left|]. exfalso.
    apply (prefixed_fresh fl c library_shapes P H library_words eq_refl). exact A.
  - rewrite <- (library_names fl P), in_names by (assumption || exact library_words). cbn [negb]. tauto.
Qed.

Theorem pass_ok : forall fl p, Forall good (toks p) -> fl_check fl = true ->
  (accepted (negb (fl_prefix fl)) p ->
   resolve_pass fl (tree p) = Ok (program_text fl p, adv fl (defs p) (calls p) (outputs p) reset_state)) /\
  (~ accepted (negb (fl_prefix fl)) p -> exists e, resolve_pass fl (tree p) = Err e).
Proof.
  intros fl p G K. destruct (program_words p G) as [C D].
  unfold resolve_pass. rewrite program_gen by exact G.
  set (st := adv fl (defs p) (calls p) (outputs p) reset_state).
  assert (O : r_outputs st = outputs p) by (unfold st, adv; cbn; lia).
  assert (Q : forallb (fun f => str_mem f (r_defined st)) (r_called st) = true <->
    forall c, In c (calls p) -> In c (defs p) \/ (negb (fl_prefix fl) = true /\ In c library_shapes)).
  { rewrite forallb_forall. unfold st at 1. cbn [adv r_called reset_state]. rewrite app_nil_r.
    rewrite Forall_forall in C. split.
    - intros A c I. apply (known_iff fl p c G (C c I)). apply str_mem_in. apply A.
      apply -> in_rev. now apply in_map.
    - intros A x I. apply in_rev in I. apply in_map_iff in I. destruct I as [c [<- I]].
      apply str_mem_in. apply (known_iff fl p c G (C c I)). exact (A c I). }
  rewrite K. cbn [andb]. split.
  - intros [H1 [H2 H3]]. rewrite H1. cbn [bind]. apply Q in H3. rewrite H3. cbn [negb].
    rewrite O. destruct (Nat.eqb_spec (outputs p) 0); [lia|]. reflexivity.
  - intros N. destruct (headers_ok p) eqn:H1; cbn [bind]; [|eexists; reflexivity].
    destruct (forallb (fun f => str_mem f (r_defined st)) (r_called st)) eqn:E; cbn [negb]; [|eexists; reflexivity].
    rewrite O. destruct (Nat.eqb_spec (outputs p) 0); [eexists; reflexivity|].
    exfalso. apply N. split; [exact H1|split; [lia|]]. now apply Q.
Qed.

Lemma collides_iff : forall fl p, Forall good (toks p) ->
  (collides (adv fl (defs p) (calls p) (outputs p) reset_state) = true <->
   fl_prefix fl = false /\ exists h, In h helper_shapes /\ In h (defs p)).
Proof.
  intros fl p G. destruct (program_words p G) as [_ D]. unfold collides. rewrite existsb_exists.
  cbn [adv r_defined reset_state]. split.
  - intros [f [I M]]. apply str_mem_in in M. apply in_app_or in M.
    assert (L : ~ In f library).
    { intros A. assert (X : existsb (fun f => str_mem f library) may_collide = true).
      { apply existsb_exists. exists f. split; [exact I|]. now apply str_mem_in. }
      discriminate. }
    destruct M as [M|M]; [|contradiction]. apply in_rev in M.
    destruct (fl_prefix fl) eqn:P.
    + apply in_map_iff in M. destruct M as [c [<- Ic]]. exfalso. rewrite Forall_forall in D.
      apply (prefixed_fresh fl c helper_shapes P (D c Ic) helper_words eq_refl). exact I.
    + split; [reflexivity|]. rewrite <- (helper_names fl P) in I. apply in_map_iff in I.
      destruct I as [h [<- Ih]]. exists h. split; [exact Ih|].
      apply in_names in M; [exact M| |exact D].
      pose proof helper_words as W. rewrite Forall_forall in W. exact (W h Ih).
  - intros [P [h [Ih Id]]]. exists (mangle fl h). split.
    + rewrite <- (helper_names fl P). now apply in_map.
    + apply str_mem_in. apply in_or_app. left. apply -> in_rev. now apply in_map.
Qed.

(** ** The whole compiler *)

Definition with_prefix (fl : flags) : flags := mkFlags (fl_vars fl) (fl_oplib fl) true (fl_check fl).

Lemma takes_dec : forall p, takes_helper p \/ ~ takes_helper p.
Proof.
  intros p. unfold takes_helper.
  assert (DEC : forall (x y : shape), {x = y} + {x <> y}).
  { apply list_eq_dec. decide equality. apply string_dec. }
  destruct (existsb (fun h => if in_dec DEC h (defs p) then true else false) helper_shapes) eqn:E.
  - left. apply existsb_exists in E. destruct E as [h [A B]]. destruct (in_dec DEC h (defs p)); [|discriminate].
    exists h. split; assumption.
  - right. intros [h [A B]].
    assert (X : existsb (fun h => if in_dec DEC h (defs p) then true else false) helper_shapes = true).
    { apply existsb_exists. exists h. split; [exact A|]. destruct (in_dec DEC h (defs p)); [reflexivity|contradiction]. }
    congruence.
Qed.

Lemma accepted_dec : forall lib p, accepted lib p \/ ~ accepted lib p.
Proof.
  intros lib p. unfold accepted.
  assert (DEC : forall (x y : shape), {x = y} + {x <> y}).
  { apply list_eq_dec. decide equality. apply string_dec. }
  destruct (headers_ok p); [|right; intros [X _]; discriminate].
  destruct (le_lt_dec 1 (outputs p)) as [L|L]; [|right; intros [_ [X _]]; lia].
  set (f := fun c => (if in_dec DEC c (defs p) then true else false) ||
                     (lib && if in_dec DEC c library_shapes then true else false)).
  assert (F : forall c, f c = true <-> In c (defs p) \/ (lib = true /\ In c library_shapes)).
  { intros c. unfold f. destruct (in_dec DEC c (defs p)); cbn [orb]; [tauto|].
    destruct (in_dec DEC c library_shapes), lib; cbn [andb]; intuition congruence. }
  destruct (forallb f (calls p)) eqn:E.
  - left. rewrite forallb_forall in E. split; [reflexivity|split; [exact L|]]. intros c I. apply F. exact (E c I).
  - right. intros [_ [_ X]].
    assert (Y : forallb f (calls p) = true) by (apply forallb_forall; intros c I; apply F; exact (X c I)).
    congruence.
Qed.

Theorem resolve_exact : forall fl p text, Forall good (toks p) -> fl_check fl = true -> fl_prefix fl = false ->
  (resolve fl (tree p) = Ok text <->
   (~ takes_helper p /\ accepted true p /\ text = squeeze (program_text fl p)) \/
   (takes_helper p /\ accepted false p /\ text = squeeze (program_text (with_prefix fl) p))).
Proof.
  intros fl p text G K P. unfold resolve.
  destruct (pass_ok fl p G K) as [A1 A2]. rewrite P in A1, A2. cbn [negb] in A1, A2.
  assert (K' : fl_check (with_prefix fl) = true) by exact K.
  destruct (pass_ok (with_prefix fl) p G K') as [B1 B2]. cbn [with_prefix fl_prefix negb] in B1, B2.
  change (mkFlags (fl_vars fl) (fl_oplib fl) true (fl_check fl)) with (with_prefix fl) in *.
  assert (W : accepted false p -> accepted true p).
  { intros [X [Y Z]]. split; [exact X|split; [exact Y|]]. intros c I. destruct (Z c I) as [Q|[Q _]]; [now left|discriminate]. }
  assert (NC : collides (adv (with_prefix fl) (defs p) (calls p) (outputs p) reset_state) = false).
  { destruct (collides _) eqn:E; [|reflexivity]. apply (collides_iff _ p G) in E. destruct E as [E _]. discriminate. }
  split.
  - intros E.
    destruct (resolve_pass fl (tree p)) as [[t st]|e] eqn:R; cbn [bind] in E; [|discriminate].
    assert (ACC : accepted true p).
    { destruct (accepted_dec true p) as [A|N]; [exact A|]. destruct (A2 N) as [e X']. discriminate. }
    pose proof (A1 ACC) as A1'. injection A1' as -> ->.
    destruct (takes_dec p) as [T|T].
    + right. assert (C : collides (adv fl (defs p) (calls p) (outputs p) reset_state) = true).
      { apply collides_iff; [exact G|]. split; [exact P|exact T]. }
      rewrite C, P in E.
      destruct (resolve_pass (with_prefix fl) (tree p)) as [[t' st']|e'] eqn:R'; cbn [bind] in E; [|discriminate].
      assert (ACC' : accepted false p).
      { destruct (accepted_dec false p) as [A|N]; [exact A|]. destruct (B2 N) as [e' X']. discriminate. }
      pose proof (B1 ACC') as B1'. injection B1' as -> ->. rewrite NC in E. injection E as <-.
      exact (conj T (conj ACC' eq_refl)).
    + left. assert (C : collides (adv fl (defs p) (calls p) (outputs p) reset_state) = false).
      { destruct (collides (adv fl _ _ _ _)) eqn:C; [|reflexivity]. apply (collides_iff fl p G) in C. destruct C as [_ C]. contradiction. }
      rewrite C in E. injection E as <-. exact (conj T (conj ACC eq_refl)).
  - intros [[T [ACC ->]]|[T [ACC ->]]].
    + rewrite (A1 ACC). cbn [bind].
      assert (C : collides (adv fl (defs p) (calls p) (outputs p) reset_state) = false).
      { destruct (collides (adv fl _ _ _ _)) eqn:C; [|reflexivity]. apply (collides_iff fl p G) in C. destruct C as [_ C]. contradiction. }
      rewrite C. reflexivity.
    + rewrite (A1 (W ACC)). cbn [bind].
      assert (C : collides (adv fl (defs p) (calls p) (outputs p) reset_state) = true).
      { apply collides_iff; [exact G|]. split; [exact P|exact T]. }
      rewrite C, P, (B1 ACC). cbn [bind]. rewrite NC. reflexivity.
Qed.

Lemma outputs_token :
  (forall s, 1 <= outputs_s s -> In (kwt kOutput) (toks_s s)) /\
  (forall b, 1 <= outputs_b b -> In (kwt kOutput) (toks_b b)).
Proof.
  assert (BODY : forall (A : Type) (o : A -> nat) (t : A -> list tok) l,
    Forall (fun s => 1 <= o s -> In (kwt kOutput) (t s)) l ->
    1 <= list_sum (map o l) -> In (kwt kOutput) (flat_map t l)).
  { intros A o t l F. induction F as [|x l Hx F IH]; cbn [map list_sum fold_right flat_map]; intros L; [lia|].
    apply in_or_app. destruct (le_lt_dec 1 (o x)) as [L1|L1]; [left; exact (Hx L1)|].
    right. apply IH. unfold list_sum. lia. }
  assert (BR : forall l x, In x l -> In x (braces l)).
  { intros l x I. unfold braces. right. apply in_or_app. now left. }
  apply stmt_ind2; intros; cbn [outputs_s outputs_b toks_s toks_b] in *; try lia.
  - now left.
  - now left.
  - do 2 right. apply in_or_app. right. apply BR. exact (BODY _ outputs_s toks_s body H H0).
  - do 3 right. apply in_or_app. right. apply BR. exact (BODY _ outputs_s toks_s body H H0).
  - right. apply in_or_app.
    destruct (le_lt_dec 1 (outputs_b b)) as [L1|L1]; [left; auto|]. right. apply in_or_app.
    destruct (le_lt_dec 1 (list_sum (map outputs_b bs))) as [L2|L2].
    + left. pose proof (BODY _ outputs_b toks_b bs H0 L2) as X. apply in_flat_map in X.
      destruct X as [b' [I1 I2]]. apply in_flat_map. exists b'. split; [exact I1|]. right. right. exact I2.
    + right. destruct els as [body|]; [|lia]. right. apply BR. apply (BODY _ outputs_s toks_s body H1). lia.
  - apply in_or_app. right. apply BR. exact (BODY _ outputs_s toks_s body H H0).
Qed.

Lemma sapp_assoc : forall a b c : string, (a ++ (b ++ c))%string = ((a ++ b) ++ c)%string.
Proof. induction a as [|x a IH]; intros b c; [reflexivity|]. cbn. now rewrite IH. Qed.

Lemma output_not_blank : forall s p, scan s = Some (toks p) -> 1 <= outputs p -> is_blank s = false.
Proof.
  intros s p S L.
  assert (I : In (kwt kOutput) (toks p)).
  { unfold outputs in L. unfold toks. induction p as [|x p IH]; cbn in L; [lia|]. cbn [flat_map].
    apply in_or_app. destruct (le_lt_dec 1 (outputs_s x)) as [L1|L1]; [left; exact (proj1 outputs_token x L1)|].
    right. assert (X : forall p, 1 <= list_sum (map outputs_s p) -> In (kwt kOutput) (flat_map toks_s p)).
    { clear. induction p as [|x p IH]; cbn; intros L; [lia|]. apply in_or_app.
      destruct (le_lt_dec 1 (outputs_s x)) as [L1|L1]; [left; exact (proj1 outputs_token x L1)|].
      right. apply IH. unfold list_sum. lia. }
    apply X. unfold list_sum. lia. }
  unfold scan in S. destruct (lex_ok s); [|discriminate]. injection S as S.
  destruct (lex_partition s) as [W _]. rewrite <- S in I.
  assert (X : exists a b, s = (a ++ "output" ++ b)%string).
  { rewrite <- W. clear -I. induction (fst (lex s)) as [|x l IH]; [contradiction|].
    unfold tokens_of in I. cbn [flat_map] in I. apply in_app_or in I. rewrite whole_cons. destruct I as [I|I].
    - destruct x as [t|t|t]; try contradiction. destruct I as [I|[]]. subst t.
      exists "", (whole_text l). reflexivity.
    - destruct (IH I) as [a [b E]]. rewrite E. exists (piece_text x ++ a)%string, b.
      apply sapp_assoc. }
  destruct X as [a [b ->]]. clear. remember ("output" ++ b)%string as y eqn:Ey.
  assert (Y : is_blank y = false) by (subst y; reflexivity). clear Ey.
  induction a as [|c a IH]; [exact Y|]. cbn [append is_blank]. rewrite IH. apply andb_false_r.
Qed.

Theorem compile_exact : forall fl src text, fl_check fl = true -> fl_prefix fl = false ->
  (compile fl src = Ok text <->
   exists p, wf p = true /\ scan src = Some (toks p) /\
   ((~ takes_helper p /\ accepted true p /\ text = squeeze (program_text fl p)) \/
    (takes_helper p /\ accepted false p /\ text = squeeze (program_text (with_prefix fl) p)))).
Proof.
  intros fl src text K P. unfold compile. split.
  - intros E. destruct (is_blank src); [discriminate|].
    destruct (scan src) as [ts|] eqn:S; [|discriminate]. pose proof (scan_good _ _ S) as G.
    destruct (parse ts) as [v|e] eqn:Q; cbn [bind] in E; [|discriminate].
    apply (parse_exact ts v G) in Q. destruct Q as [p [W [T V]]]. subst v ts.
    exists p. split; [exact W|split; [reflexivity|]]. now apply (resolve_exact fl p text G K P).
  - intros [p [W [S H]]]. pose proof (scan_good _ _ S) as G.
    assert (O : 1 <= outputs p) by (destruct H as [[_ [[_ [O _]] _]]|[_ [[_ [O _]] _]]]; exact O).
    rewrite (output_not_blank src p S O), S.
    replace (parse (toks p)) with (Ok (VNode (tree p))).
    2:{ symmetry. apply (parse_exact (toks p) _ G). exists p. split; [exact W|split; reflexivity]. }
    cbn [bind]. now apply (resolve_exact fl p text G K P).
Qed.

(** ** Names and arguments of headers and calls *)

Lemma slots_cons : forall x s, slots (x :: s) = (match x with None => 1 | Some _ => 0 end) + slots s.
Proof. intros [w|] s; reflexivity. Qed.

Lemma header_slots : forall hs, length (params hs) = slots (header_shape hs).
Proof.
  induction hs as [|h hs IH]; [reflexivity|]. unfold params, header_shape in *. cbn [flat_map map].
  rewrite app_length, slots_cons, IH. destruct h; reflexivity.
Qed.

Lemma call_slots : forall fl cs, length (flat_map (gen_c fl) cs) = slots (call_shape cs).
Proof.
  intros fl. induction cs as [|c cs IH]; [reflexivity|]. unfold call_shape in *. cbn [flat_map map].
  rewrite app_length, slots_cons, IH. destruct c; reflexivity.
Qed.

Theorem header_names : forall fl hs hs' n a s n' a' s',
  Forall good (flat_map toks_h hs) -> Forall good (flat_map toks_h hs') ->
  header fl (map node_h hs) = Ok (n, a, s) -> header fl (map node_h hs') = Ok (n', a', s') ->
  (n = n' <-> header_shape hs = header_shape hs') /\ length a = slots (header_shape hs).
Proof.
  intros fl hs hs' n a s n' a' s' G G' E E'. rewrite header_gen in E, E' by assumption.
  destruct (header_ok hs); [|discriminate]. destruct (header_ok hs'); [|discriminate].
  injection E as <- <- _. injection E' as <- _ _. split.
  - split; [|congruence]. apply mangle_inj; apply header_words; assumption.
  - rewrite map_length, renamed_length. apply header_slots.
Qed.

Theorem call_reaches : forall fl cs st, Forall good (flat_map toks_c cs) ->
  exists name args st', resolve_node fl (node_t (TCall cs)) st
      = Ok ((name ++ "(" ++ join ", " args ++ ")")%string, st') /\
    (exists rest, r_called st' = name :: rest) /\
    length args = slots (call_shape cs) + (if fl_vars fl then 1 else 0) /\
    forall hs n a s, Forall good (flat_map toks_h hs) -> header fl (map node_h hs) = Ok (n, a, s) ->
      (n = name <-> header_shape hs = call_shape cs).
Proof.
  intros fl cs st G. rewrite (proj1 (proj2 (expr_gen fl))).
  change (gen_t fl (TCall cs)) with (call_text fl (call_shape cs) (flat_map (gen_c fl) cs)).
  cbn [calls_t]. unfold call_text.
  exists (mangle fl (call_shape cs)). eexists _, _. split; [reflexivity|]. split; [|split].
  - unfold adv. cbn [r_called]. rewrite map_app, rev_app_distr. cbn [map rev app]. eexists. reflexivity.
  - rewrite app_length, call_slots. destruct (fl_vars fl); reflexivity.
  - intros hs n a s Gh E. rewrite header_gen in E by exact Gh. destruct (header_ok hs); [|discriminate].
    injection E as <- _ _. split; [|congruence].
    apply mangle_inj; [now apply header_words|now apply call_words].
Qed.

(** A program that defines a function with the name of a helper and calls a
    library function it does not define itself is refused. *)
Theorem helper_blocks_library : forall p src c, wf p = true -> scan src = Some (toks p) ->
  takes_helper p -> In c (calls p) -> In c library_shapes -> ~ In c (defs p) ->
  exists e, compile default_flags src = Err e.
Proof.
  intros p src c W S T Ic Il Nd.
  destruct (compile default_flags src) as [text|e] eqn:E; [|eauto]. exfalso.
  pose proof (scan_good _ _ S) as G.
  unfold compile in E. destruct (is_blank src); [discriminate|]. rewrite S in E.
  replace (parse (toks p)) with (Ok (VNode (tree p))) in E.
  2:{ symmetry. apply (parse_exact (toks p) _ G). exists p. split; [exact W|split; reflexivity]. }
  cbn [bind] in E. apply (resolve_exact default_flags p text G eq_refl eq_refl) in E.
  destruct E as [[N _]|[_ [[_ [_ A]] _]]]; [contradiction|].
  destruct (A c Ic) as [X|[X _]]; [contradiction|discriminate].
Qed.
