(** Two runtimes of which one follows the other: programs then follow too. *)
From Coq Require Import String Ascii List ZArith Bool.
From Verif Require Import PyBase LexModel ParseModel SynSpec SynInd NameSpec Runtime MeanSpec.
Import ListNotations.
Open Scope string_scope.
Open Scope nat_scope.
Open Scope list_scope.
Open Scope run_scope.

Section follow.
  Context {V1 W1 V2 W2 : Type}.
  Variables (RV : V1 -> V2 -> Prop) (RW : W1 -> W2 -> Prop).

  (** Whatever the first returns, the second returns something related. *)
  Definition follows {A1 A2} (R : A1 -> A2 -> Prop) (m1 : M W1 A1) (m2 : M W2 A2) : Prop :=
    forall w1 w2 a1 w1', RW w1 w2 -> m1 w1 = Some (Ok a1, w1') ->
      exists a2 w2', m2 w2 = Some (Ok a2, w2') /\ R a1 a2 /\ RW w1' w2'.

  Lemma fo_ret {A1 A2} (R : A1 -> A2 -> Prop) a1 a2 : R a1 a2 -> follows R (ret a1) (ret a2).
  Proof. intros H w1 w2 b w1' Rw E. injection E as <- <-. exists a2, w2. split; [reflexivity|auto]. Qed.
  Lemma fo_lift {A1 A2} (R : A1 -> A2 -> Prop) r1 r2 :
    (forall a1, r1 = Ok a1 -> exists a2, r2 = Ok a2 /\ R a1 a2) -> follows R (lift r1) (lift r2).
  Proof.
    intros H w1 w2 b w1' Rw E. injection E as E <-. destruct (H b E) as [a2 [E2 Rb]].
    exists a2, w2. unfold lift. rewrite E2. auto.
  Qed.
  Lemma fo_raise {A1 A2} (R : A1 -> A2 -> Prop) e m2 : follows R (raise e) m2.
  Proof. intros w1 w2 b w1' Rw E. discriminate. Qed.
  Lemma fo_bnd {A1 A2 B1 B2} (R : A1 -> A2 -> Prop) (R' : B1 -> B2 -> Prop) m1 m2 f1 f2 :
    follows R m1 m2 -> (forall a1 a2, R a1 a2 -> follows R' (f1 a1) (f2 a2)) -> follows R' (bnd m1 f1) (bnd m2 f2).
  Proof.
    intros Hm Hf w1 w2 b w1' Rw E. unfold bnd in E. destruct (m1 w1) as [[[a1|e] v1]|] eqn:E1; try discriminate.
    destruct (Hm _ _ _ _ Rw E1) as [a2 [v2 [E2 [Ra Rv]]]]. destruct (Hf _ _ Ra _ _ _ _ Rv E) as [b2 [u2 [E3 [Rb Ru]]]].
    exists b2, u2. unfold bnd. rewrite E2. auto.
  Qed.
  Lemma fo_each {A1 A2 B1 B2} (R : A1 -> A2 -> Prop) (R' : B1 -> B2 -> Prop) f1 f2 l1 l2 :
    (forall a1 a2, R a1 a2 -> follows R' (f1 a1) (f2 a2)) -> Forall2 R l1 l2 ->
    follows (Forall2 R') (each f1 l1) (each f2 l2).
  Proof.
    intros Hf Hl. induction Hl as [|a1 a2 l1 l2 Ha _ IH]; [apply fo_ret; constructor|].
    apply (fo_bnd R'); [exact (Hf _ _ Ha)|]. intros b1 b2 Hb. apply (fo_bnd (Forall2 R')); [exact IH|].
    intros c1 c2 Hc. apply fo_ret. constructor; assumption.
  Qed.
  Lemma fo_impl {A1 A2} (R R' : A1 -> A2 -> Prop) m1 m2 : (forall a b, R a b -> R' a b) -> follows R m1 m2 -> follows R' m1 m2.
  Proof.
    intros I H w1 w2 b w1' Rw E. destruct (H _ _ _ _ Rw E) as [a2 [v2 [E2 [Ra Rv]]]]. exists a2, v2. auto.
  Qed.

  Definition opt_rel (a : option V1) (b : option V2) : Prop :=
    match a, b with Some a, Some b => RV a b | None, None => True | _, _ => False end.

  (** Each part of the second runtime follows that of the first. *)
  Record simulates (rt1 : runtime V1 W1) (rt2 : runtime V2 W2) : Prop := {
    sm_int : forall z, RV (rt_int rt1 z) (rt_int rt2 z);
    sm_float : forall z k v, rt_float rt1 z k = Ok v -> exists v', rt_float rt2 z k = Ok v' /\ RV v v';
    sm_text : forall s, RV (rt_text rt1 s) (rt_text rt2 s);
    sm_list : forall l l', Forall2 RV l l' -> RV (rt_list rt1 l) (rt_list rt2 l');
    sm_none : RV (rt_none rt1) (rt_none rt2);
    sm_str : forall v v', RV v v' -> follows eq (rt_str rt1 v) (rt_str rt2 v');
    sm_truth : forall v v', RV v v' -> follows eq (rt_truth rt1 v) (rt_truth rt2 v');
    sm_iter : forall v v', RV v v' -> follows (Forall2 RV) (rt_iter rt1 v) (rt_iter rt2 v');
    sm_op : forall o a b a' b', RV a a' -> RV b b' -> follows RV (rt_op rt1 o a b) (rt_op rt2 o a' b');
    sm_un : forall u a a', RV a a' -> follows RV (rt_un rt1 u a) (rt_un rt2 u a');
    sm_len : forall a a', RV a a' -> follows RV (rt_len rt1 a) (rt_len rt2 a');
    sm_roll : forall a b a' b', RV a a' -> opt_rel b b' -> follows RV (rt_roll rt1 a b) (rt_roll rt2 a' b');
    sm_seq : forall a a', RV a a' -> follows RV (rt_seq rt1 a) (rt_seq rt2 a');
    sm_range : forall a b a' b', RV a a' -> RV b b' -> follows RV (rt_range rt1 a b) (rt_range rt2 a' b');
    sm_output : forall a b a' b', RV a a' -> opt_rel b b' -> follows RV (rt_output rt1 a b) (rt_output rt2 a' b');
    sm_set : forall a b a' b', RV a a' -> RV b b' -> follows RV (rt_set rt1 a b) (rt_set rt2 a' b');
    sm_my : forall m l l', Forall2 RV l l' -> follows RV (rt_my rt1 m l) (rt_my rt2 m l');
    sm_lib : forall f l l', Forall2 RV l l' -> follows RV (rt_lib rt1 f l) (rt_lib rt2 f l');
    sm_call : forall ks f f' l l', (forall a a', Forall2 RV a a' -> follows RV (f a) (f' a')) -> Forall2 RV l l' ->
      follows RV (rt_call rt1 ks f l) (rt_call rt2 ks f' l')
  }.

  Variables (rt1 : runtime V1 W1) (rt2 : runtime V2 W2).
  Hypothesis SM : simulates rt1 rt2.
  Variable oplib : bool.

  Definition vars_rel (a : @variables V1) (b : @variables V2) : Prop :=
    Forall2 (fun x y => fst x = fst y /\ RV (snd x) (snd y)) a b.
  Definition own_rel (a : option (@variables V1)) (b : option (@variables V2)) : Prop :=
    match a, b with Some a, Some b => vars_rel a b | None, None => True | _, _ => False end.
  Definition place_rel (a : @place V1) (b : @place V2) : Prop :=
    vars_rel (pl_globals a) (pl_globals b) /\ pl_functions a = pl_functions b /\ own_rel (pl_own a) (pl_own b).
  Definition ending_rel (a : @ending V1) (b : @ending V2) : Prop :=
    match a, b with Onward p, Onward q => place_rel p q | Result v, Result v' => RV v v' | _, _ => False end.

  Variables (call1 : @variables V1 -> functions -> fdef -> list V1 -> M W1 V1)
            (call2 : @variables V2 -> functions -> fdef -> list V2 -> M W2 V2).
  Hypothesis HC : forall g g' fs d l l', vars_rel g g' -> Forall2 RV l l' -> follows RV (call1 g fs d l) (call2 g' fs d l').

  Lemma variable_rel a b : vars_rel a b -> forall x,
    match variable_in x a, variable_in x b with Some v, Some v' => RV v v' | None, None => True | _, _ => False end.
  Proof.
    intros H x. induction H as [|[y v] [y' v'] a b [E Rv] _ IH]; [exact Logic.I|]. cbn [fst snd] in E, Rv. subst y'.
    cbn [variable_in]. destruct (String.eqb x y); [exact Rv|exact IH].
  Qed.
  Lemma find_rel x p q : place_rel p q -> follows RV (lift (find_variable x p)) (lift (find_variable x q)).
  Proof.
    intros [G [_ O]]. apply fo_lift. intros v. unfold find_variable.
    pose proof (variable_rel _ _ G x) as Hg. destruct (pl_own p) as [a|], (pl_own q) as [b|]; try contradiction.
    - cbn [own_rel] in O. pose proof (variable_rel _ _ O x) as Ho.
      destruct (variable_in x a) as [u|], (variable_in x b) as [u'|]; try contradiction.
      + intro E. injection E as <-. now exists u'.
      + destruct (variable_in x (pl_globals p)) as [u|], (variable_in x (pl_globals q)) as [u'|]; try contradiction; [|discriminate].
        intro E. injection E as <-. now exists u'.
    - destruct (variable_in x (pl_globals p)) as [u|], (variable_in x (pl_globals q)) as [u'|]; try contradiction; [|discriminate].
      intro E. injection E as <-. now exists u'.
  Qed.
  Lemma give_rel x v v' p q : RV v v' -> place_rel p q -> place_rel (give x v p) (give x v' q).
  Proof.
    intros Rv [G [F O]]. unfold give. destruct (pl_own p) as [a|] eqn:Ea, (pl_own q) as [b|] eqn:Eb; try contradiction.
    - split; [exact G|split; [exact F|]]. cbn [pl_own own_rel]. constructor; [now split|exact O].
    - split; [constructor; [now split|exact G]|split; [exact F|exact Logic.I]].
  Qed.

  Lemma fo_text p q : place_rel p q -> forall ps, follows eq (text rt1 p ps) (text rt2 q ps).
  Proof.
    intros R ps. induction ps as [|x ps IH]; [now apply fo_ret|].
    assert (L : forall s, follows eq (t <== text rt1 p ps ;; ret (s ++ t)%string) (t <== text rt2 q ps ;; ret (s ++ t)%string)).
    { intro s. apply (fo_bnd eq); [exact IH|]. intros t ? <-. now apply fo_ret. }
    destruct x as [s|s|x]; [exact (L s)|exact (L s)|]. cbn [text].
    apply (fo_bnd RV); [now apply find_rel|]. intros v v' Rv. apply (fo_bnd eq); [exact (sm_str _ _ SM _ _ Rv)|].
    intros s ? <-. exact (L s).
  Qed.

  Lemma fo_binary o a b a' b' : RV a a' -> RV b b' -> follows RV (binary rt1 oplib o a b) (binary rt2 oplib o a' b').
  Proof.
    intros Ra Rb. assert (L : Forall2 RV [a; b] [a'; b']) by (repeat constructor; assumption).
    unfold binary. destruct oplib, o; try (exact (sm_op _ _ SM _ _ _ _ _ Ra Rb)); exact (sm_my _ _ SM _ _ _ L).
  Qed.
  Lemma fo_unary u a a' : RV a a' -> follows RV (unary rt1 oplib u a) (unary rt2 oplib u a').
  Proof.
    intros Ra. assert (L : Forall2 RV [a] [a']) by (repeat constructor; assumption).
    unfold unary. destruct oplib, u; try (exact (sm_un _ _ SM _ _ _ Ra)); exact (sm_my _ _ SM _ _ _ L).
  Qed.
  Lemma fo_count a a' : RV a a' -> follows RV (count rt1 oplib a) (count rt2 oplib a').
  Proof.
    intros Ra. assert (L : Forall2 RV [a] [a']) by (repeat constructor; assumption).
    unfold count. destruct oplib; [exact (sm_my _ _ SM _ _ _ L)|exact (sm_len _ _ SM _ _ Ra)].
  Qed.

  Notation me1 := (mean_e rt1 oplib call1). Notation me2 := (mean_e rt2 oplib call2).
  Notation mt1 := (mean_t rt1 oplib call1). Notation mt2 := (mean_t rt2 oplib call2).
  Notation ml1 := (mean_l rt1 oplib call1). Notation ml2 := (mean_l rt2 oplib call2).
  Notation mc1 := (mean_c rt1 oplib call1). Notation mc2 := (mean_c rt2 oplib call2).

  Lemma fo_syntax :
    (forall e p q, place_rel p q -> follows RV (me1 p e) (me2 q e)) /\
    (forall t p q, place_rel p q -> follows RV (mt1 p t) (mt2 q t)) /\
    (forall x p q, place_rel p q -> follows RV (ml1 p x) (ml2 q x)) /\
    (forall c p q, place_rel p q -> follows (Forall2 RV) (mc1 p c) (mc2 q c)).
  Proof.
    apply syn_ind.
    - intros o l r Hl Hr p q R. apply (fo_bnd RV); [exact (Hl p q R)|]. intros a a' Ra.
      apply (fo_bnd RV); [exact (Hr p q R)|]. intros b b' Rb. now apply fo_binary.
    - intros n d Hn Hd p q R. apply (fo_bnd RV); [exact (Hn p q R)|]. intros a a' Ra.
      apply (fo_bnd RV); [exact (Hd p q R)|]. intros b b' Rb. exact (sm_roll _ _ SM a (Some b) a' (Some b') Ra Rb).
    - intros d Hd p q R. apply (fo_bnd RV); [exact (Hd p q R)|]. intros a a' Ra. exact (sm_roll _ _ SM a None a' None Ra Logic.I).
    - intros t Ht. exact Ht.
    - intros s p q R. apply fo_ret. apply (sm_int _ _ SM).
    - intros a b p q R. apply fo_lift. intros v E. exact (sm_float _ _ SM _ _ _ E).
    - intros x p q R. now apply find_rel.
    - intros s ss p q R. apply (fo_bnd eq); [exact (fo_text p q R (s :: ss))|]. intros t ? <-. apply fo_ret. apply (sm_text _ _ SM).
    - intros es Hes p q R. apply (fo_bnd (Forall2 RV)).
      + induction Hes as [|x es Hx _ IH]; [apply fo_ret; constructor|].
        apply (fo_bnd RV); [exact (Hx p q R)|]. intros v v' Rv. apply (fo_bnd (Forall2 RV)); [exact IH|].
        intros vs vs' Rvs. apply fo_ret. now constructor.
      + intros l l' Rl. exact (sm_seq _ _ SM _ _ (sm_list _ _ SM _ _ Rl)).
    - intros e He. exact He.
    - intros cs Hcs p q R. pose proof R as [G [F _]].
      apply (fo_bnd eq RV); [apply fo_lift; intros f Ef; exists f; rewrite <- F; auto|]. intros f ? <-.
      apply (fo_bnd (Forall2 RV)).
      + induction Hcs as [|x es Hx _ IH]; [apply fo_ret; constructor|].
        apply (fo_bnd (Forall2 RV)); [exact (Hx p q R)|]. intros v v' Rv. apply (fo_bnd (Forall2 RV)); [exact IH|].
        intros vs vs' Rvs. apply fo_ret. now apply Forall2_app.
      + intros l l' Rl. destruct f as [d|g]; [rewrite <- F; exact (HC _ _ _ _ _ _ G Rl)|exact (sm_lib _ _ SM _ _ _ Rl)].
    - intros u t Ht p q R. apply (fo_bnd RV); [exact (Ht p q R)|]. intros a a' Ra. now apply fo_unary.
    - intros t Ht p q R. apply (fo_bnd RV); [exact (Ht p q R)|]. intros a a' Ra. now apply fo_count.
    - intros e He. exact He.
    - intros a b Ha Hb p q R. apply (fo_bnd RV); [exact (Ha p q R)|]. intros x x' Rx.
      apply (fo_bnd RV); [exact (Hb p q R)|]. intros y y' Ry. exact (sm_range _ _ SM _ _ _ _ Rx Ry).
    - intros w p q R. apply fo_ret. constructor.
    - intros e He p q R. apply (fo_bnd RV); [exact (He p q R)|]. intros v v' Rv. apply fo_ret. repeat constructor. exact Rv.
  Qed.
  Lemma fo_e e p q : place_rel p q -> follows RV (me1 p e) (me2 q e).
  Proof. apply fo_syntax. Qed.

  Notation ms1 := (mean_s rt1 oplib call1). Notation ms2 := (mean_s rt2 oplib call2).
  Notation mb1 := (mean_b rt1 oplib call1). Notation mb2 := (mean_b rt2 oplib call2).
  Notation mbl1 := (mean_block rt1 oplib call1). Notation mbl2 := (mean_block rt2 oplib call2).

  Definition Fs (s : stmt) : Prop := forall p q, place_rel p q -> follows ending_rel (ms1 s p) (ms2 s q).
  Definition opt_ending (a : option (@ending V1)) (b : option (@ending V2)) : Prop :=
    match a, b with Some a, Some b => ending_rel a b | None, None => True | _, _ => False end.
  Definition Fb (b : branch) : Prop := forall p q, place_rel p q -> follows opt_ending (mb1 b p) (mb2 b q).

  Lemma fo_block : forall l, Forall Fs l -> forall p q, place_rel p q -> follows ending_rel (mbl1 l p) (mbl2 l q).
  Proof.
    intros l H. induction H as [|s l Hs _ IH]; intros p q R; [now apply fo_ret|].
    apply (fo_bnd ending_rel); [exact (Hs p q R)|].
    intros [p'|v] [q'|v'] R'; try contradiction; [exact (IH p' q' R')|now apply fo_ret].
  Qed.

  Definition loop_of {V W} (rt : runtime V W) call x body := fix loop (l : list V) (pl : @place V) : M W ending :=
    match l with
    | [] => ret (Onward pl)
    | v :: l' =>
        r <== mean_block rt oplib call body (give x v pl) ;;
        match r with Onward pl' => loop l' pl' | Result v => ret (Result v) end
    end.
  Definition otherwise_of {V W} (rt : runtime V W) call (els : option (list stmt)) :=
    fix otherwise (bs : list branch) (pl : @place V) : M W ending :=
    match bs with
    | [] => match els with Some body => mean_block rt oplib call body pl | None => ret (Onward pl) end
    | b :: bs' =>
        r <== mean_b rt oplib call b pl ;;
        match r with Some end_ => ret end_ | None => otherwise bs' pl end
    end.
  Lemma loop_eq {V W} (rt : runtime V W) call x e body pl :
    mean_s rt oplib call (SLoop x e body) pl =
    (v <== mean_e rt oplib call pl e ;; l <== rt_iter rt v ;; loop_of rt call x body l pl).
  Proof. reflexivity. Qed.
  Lemma if_eq {V W} (rt : runtime V W) call b bs els pl :
    mean_s rt oplib call (SIf b bs els) pl =
    (r <== mean_b rt oplib call b pl ;; match r with Some e => ret e | None => otherwise_of rt call els bs pl end).
  Proof. reflexivity. Qed.
  Lemma branch_eq {V W} (rt : runtime V W) call c body pl :
    mean_b rt oplib call (Branch c body) pl =
    (v <== mean_e rt oplib call pl c ;; t <== rt_truth rt v ;;
     if t : bool then (r <== mean_block rt oplib call body pl ;; ret (Some r)) else ret None).
  Proof. reflexivity. Qed.

  Lemma fo_stmt : (forall s, Fs s) /\ (forall b, Fb b).
  Proof.
    apply stmt_ind2.
    - intros e p q R. apply (fo_bnd RV); [exact (fo_e e p q R)|]. intros v v' Rv.
      apply (fo_bnd RV); [exact (sm_output _ _ SM v None v' None Rv Logic.I)|]. intros r r' _. now apply fo_ret.
    - intros e s ss p q R. apply (fo_bnd RV); [exact (fo_e e p q R)|]. intros v v' Rv.
      apply (fo_bnd eq); [exact (fo_text p q R (s :: ss))|]. intros t ? <-.
      apply (fo_bnd RV); [exact (sm_output _ _ SM v (Some _) v' (Some _) Rv (sm_text _ _ SM t))|]. intros r r' _. now apply fo_ret.
    - intros h hs body _ p q R.
      apply (fo_bnd eq); [apply fo_lift; intros ks E; now exists ks|]. intros ks ? <-. apply fo_ret.
      destruct R as [G [F O]]. split; [exact G|split; [|exact O]]. cbn [define pl_functions]. now rewrite F.
    - intros x e body Hb p q R. rewrite !loop_eq.
      apply (fo_bnd RV); [exact (fo_e e p q R)|]. intros v v' Rv.
      apply (fo_bnd (Forall2 RV)); [exact (sm_iter _ _ SM _ _ Rv)|]. intros l l' Rl. revert p q R.
      induction Rl as [|u u' l l' Ru _ IH]; intros p q R; [now apply fo_ret|]. cbn [loop_of].
      apply (fo_bnd ending_rel); [exact (fo_block body Hb _ _ (give_rel x _ _ _ _ Ru R))|].
      intros [p'|r] [q'|r'] R'; try contradiction; [exact (IH p' q' R')|now apply fo_ret].
    - intros e p q R. apply (fo_bnd RV); [exact (fo_e e p q R)|]. intros v v' Rv. now apply fo_ret.
    - intros s ss e p q R. apply (fo_bnd eq); [exact (fo_text p q R (s :: ss))|]. intros t ? <-.
      apply (fo_bnd RV); [exact (fo_e e p q R)|]. intros v v' Rv.
      apply (fo_bnd RV); [exact (sm_set _ _ SM _ _ _ _ (sm_text _ _ SM t) Rv)|]. intros r r' _. now apply fo_ret.
    - intros x e p q R. apply (fo_bnd RV); [exact (fo_e e p q R)|]. intros v v' Rv. apply fo_ret. exact (give_rel x _ _ _ _ Rv R).
    - intros b bs els Hb Hbs Hels p q R. rewrite !if_eq.
      apply (fo_bnd opt_ending); [exact (Hb p q R)|]. intros [r|] [r'|] Rr; try contradiction; [now apply fo_ret|]. clear Hb.
      induction Hbs as [|b' bs Hb' _ IH].
      + cbn [otherwise_of]. destruct els as [body|]; [exact (fo_block body Hels p q R)|now apply fo_ret].
      + cbn [otherwise_of]. apply (fo_bnd opt_ending); [exact (Hb' p q R)|].
        intros [r|] [r'|] Rr'; try contradiction; [now apply fo_ret|exact IH].
    - intros c body Hb p q R. rewrite !branch_eq.
      apply (fo_bnd RV); [exact (fo_e c p q R)|]. intros v v' Rv.
      apply (fo_bnd eq); [exact (sm_truth _ _ SM _ _ Rv)|]. intros t ? <-.
      destruct t; [|now apply fo_ret]. apply (fo_bnd ending_rel); [exact (fo_block body Hb p q R)|].
      intros r r' Rr. now apply fo_ret.
  Qed.

  Lemma give_all_rel ps : forall l l', Forall2 RV l l' ->
    match give_all ps l, give_all ps l' with Some a, Some b => vars_rel a b | None, None => True | _, _ => False end.
  Proof.
    induction ps as [|x ps IH]; intros l l' R; destruct R as [|v v' l l' Rv Rl]; cbn [give_all]; try exact Logic.I; [constructor|].
    specialize (IH _ _ Rl). destruct (give_all ps l) as [a|], (give_all ps l') as [b|]; try contradiction; [|exact Logic.I].
    cbn [option_map]. constructor; [now split|exact IH].
  Qed.
  Lemma fo_body g g' fs d l l' : vars_rel g g' -> Forall2 RV l l' ->
    follows RV (mean_body rt1 oplib call1 g fs d l) (mean_body rt2 oplib call2 g' fs d l').
  Proof.
    intros G Rl. unfold mean_body. pose proof (give_all_rel (d_params d) _ _ Rl) as H.
    destruct (give_all (d_params d) l) as [a|], (give_all (d_params d) l') as [b|]; try contradiction; [|apply fo_raise].
    apply (fo_bnd ending_rel).
    - apply fo_block; [|split; [exact G|split; [reflexivity|exact H]]]. apply Forall_forall. intros s _. apply (proj1 fo_stmt).
    - intros [p|v] [q|v'] R; try contradiction; apply fo_ret; [apply (sm_none _ _ SM)|exact R].
  Qed.
End follow.

Section programs.
  Context {V1 W1 V2 W2 : Type} (RV : V1 -> V2 -> Prop) (RW : W1 -> W2 -> Prop).
  Variables (rt1 : runtime V1 W1) (rt2 : runtime V2 W2).
  Hypothesis SM : simulates RV RW rt1 rt2.
  Variable oplib : bool.

  Lemma fo_call n : forall g g' fs d l l', vars_rel RV g g' -> Forall2 RV l l' ->
    follows RW RV (call_defined rt1 oplib n g fs d l) (call_defined rt2 oplib n g' fs d l').
  Proof.
    induction n as [|n IH]; intros g g' fs d l l' G Rl; [intros w1 w2 a1 w1' _ E; discriminate|].
    cbn [call_defined]. apply (fo_bnd RW eq); [apply fo_lift; intros ks E; now exists ks|]. intros ks ? <-.
    apply (sm_call _ _ _ _ SM); [|exact Rl]. intros a a' Ra. exact (fo_body RV RW rt1 rt2 SM oplib _ _ IH _ _ _ _ _ _ G Ra).
  Qed.

  Theorem programs_follow : forall lib n p, follows RW eq (mean_program rt1 oplib lib n p) (mean_program rt2 oplib lib n p).
  Proof.
    intros lib n p. unfold mean_program. apply (fo_bnd RW (ending_rel RV)); [|intros; now apply fo_ret].
    apply (fo_block RV RW).
    - apply Forall_forall. intros s _. exact (proj1 (fo_stmt RV RW rt1 rt2 SM oplib _ _ (fo_call n)) s).
    - split; [constructor|split; [reflexivity|exact Logic.I]].
  Qed.
End programs.
