(** Programs without set statements leave the settings alone. *)
From Coq Require Import String Ascii List ZArith Bool Arith Lia.
From Verif Require Import PyBase LexModel ParseModel SynSpec SynInd NameSpec ResolveModel Runtime MeanSpec PySem RunSpec ScopeSpec StartSpec SessSpec SemFacts SemStmt SemRun.
Import ListNotations.
Open Scope string_scope.
Open Scope list_scope.
Open Scope run_scope.

Section quiet.
  Context {V W D : Type} (rt : runtime V W).
  (** what holds at a depth, and after a failure *)
  Variables (P : D -> W -> Prop) (E : W -> Prop).
  Hypothesis fails : forall d w, P d w -> E w.

  Definition leaves {A} (m : M W A) : Prop :=
    forall d w r w', P d w -> m w = Some (r, w') -> match r with Ok _ => P d w' | Err _ => E w' end.

  Lemma le_ret {A} (a : A) : leaves (ret a).
  Proof. intros d w r w' H [= <- <-]. exact H. Qed.
  Lemma le_lift {A} (r : res A) : leaves (lift r).
  Proof. intros d w r' w' H [= <- <-]. destruct r; [exact H|exact (fails d w H)]. Qed.
  Lemma le_bnd {A B} (m : M W A) (f : A -> M W B) : leaves m -> (forall a, leaves (f a)) -> leaves (bnd m f).
  Proof.
    intros Hm Hf d w r w' H. unfold bnd. destruct (m w) as [[[a|e] w1]|] eqn:Em; [| |discriminate].
    - intro Er. exact (Hf a d w1 r w' (Hm d w (Ok a) w1 H Em) Er).
    - intros [= <- <-]. exact (Hm d w (Err e) w1 H Em).
  Qed.

  Record calm : Prop := {
    cm_str : forall v, leaves (rt_str rt v);
    cm_truth : forall v, leaves (rt_truth rt v);
    cm_iter : forall v, leaves (rt_iter rt v);
    cm_op : forall o a b, leaves (rt_op rt o a b);
    cm_un : forall u a, leaves (rt_un rt u a);
    cm_len : forall a, leaves (rt_len rt a);
    cm_roll : forall a b, leaves (rt_roll rt a b);
    cm_seq : forall a, leaves (rt_seq rt a);
    cm_range : forall a b, leaves (rt_range rt a b);
    cm_output : forall a b, leaves (rt_output rt a b);
    cm_my : forall m l, leaves (rt_my rt m l);
    cm_lib : forall f l, leaves (rt_lib rt f l);
    cm_call : forall ks f l, (forall a, leaves (f a)) -> leaves (rt_call rt ks f l) }.
  Hypothesis C : calm.
  Variable oplib : bool.

  Definition quiet_def (f : fdef) : Prop := existsb sets_something (d_body f) = false.
  Definition quiet_all (fs : functions) : Prop := forall s f, find_function s fs = Ok (Defined f) -> quiet_def f.
  Definition quiet_place (pl : @place V) : Prop := quiet_all (pl_functions pl).

  Variable callf : @variables V -> functions -> fdef -> list V -> M W V.
  Hypothesis HC : forall gs fs f l, quiet_all fs -> quiet_def f -> leaves (callf gs fs f l).

  Lemma le_text pl ps : leaves (text rt pl ps).
  Proof.
    induction ps as [|p ps IH]; [apply le_ret|]. destruct p as [s|s|x]; cbn [text].
    - apply le_bnd; [exact IH|]. intro t. apply le_ret.
    - apply le_bnd; [exact IH|]. intro t. apply le_ret.
    - apply le_bnd; [apply le_lift|]. intro v. apply le_bnd; [apply (cm_str C)|]. intro s. apply le_bnd; [exact IH|]. intro t. apply le_ret.
  Qed.
  Lemma le_binary o a b : leaves (binary rt oplib o a b).
  Proof. unfold binary. destruct oplib, o; first [apply (cm_my C)|apply (cm_op C)]. Qed.
  Lemma le_unary u a : leaves (unary rt oplib u a).
  Proof. unfold unary. destruct oplib, u; first [apply (cm_my C)|apply (cm_un C)]. Qed.
  Lemma le_count a : leaves (count rt oplib a).
  Proof. unfold count. destruct oplib; [apply (cm_my C)|apply (cm_len C)]. Qed.

  Lemma le_syntax :
    (forall e pl, quiet_place pl -> leaves (mean_e rt oplib callf pl e)) /\
    (forall t pl, quiet_place pl -> leaves (mean_t rt oplib callf pl t)) /\
    (forall x pl, quiet_place pl -> leaves (mean_l rt oplib callf pl x)) /\
    (forall c pl, quiet_place pl -> leaves (mean_c rt oplib callf pl c)).
  Proof.
    apply syn_ind.
    - intros o l r Hl Hr pl Q. apply le_bnd; [exact (Hl pl Q)|]. intro a. apply le_bnd; [exact (Hr pl Q)|]. intro b. apply le_binary.
    - intros n d Hn Hd pl Q. apply le_bnd; [exact (Hn pl Q)|]. intro a. apply le_bnd; [exact (Hd pl Q)|]. intro b. apply (cm_roll C).
    - intros d Hd pl Q. apply le_bnd; [exact (Hd pl Q)|]. intro a. apply (cm_roll C).
    - intros t Ht. exact Ht.
    - intros s pl Q. apply le_ret.
    - intros a b pl Q. apply le_lift.
    - intros x pl Q. apply le_lift.
    - intros s ss pl Q. apply le_bnd; [exact (le_text pl (s :: ss))|]. intro t. apply le_ret.
    - intros es Hes pl Q. apply le_bnd; [|intro l; apply (cm_seq C)].
      induction Hes as [|x es Hx _ IH]; [apply le_ret|]. apply le_bnd; [exact (Hx pl Q)|]. intro v. apply le_bnd; [exact IH|]. intro vs. apply le_ret.
    - intros e He. exact He.
    - intros cs Hcs pl Q.
      change (leaves (f <== lift (find_function (call_shape cs) (pl_functions pl)) ;;
        l <== (fix arguments (cs : list citem) : M W (list V) :=
                 match cs with
                 | [] => ret []
                 | c :: cs' => v <== mean_c rt oplib callf pl c ;; vs <== arguments cs' ;; ret (v ++ vs)
                 end) cs ;;
        match f with
        | Defined d => callf (pl_globals pl) (pl_functions pl) d l
        | Library g => rt_lib rt g l
        end)).
      intros d w r w' H. destruct (find_function (call_shape cs) (pl_functions pl)) as [f|e] eqn:Ef.
      2:{ intros [= <- <-]. exact (fails d w H). }
      intro Er. revert d w r w' H Er.
      match goal with |- forall d w r w', P d w -> bnd (lift (Ok f)) ?k w = _ -> _ => change (leaves (k f)); cbv beta end.
      apply le_bnd.
      + clear Ef. induction Hcs as [|x es Hx _ IH]; [apply le_ret|]. apply le_bnd; [exact (Hx pl Q)|]. intro v. apply le_bnd; [exact IH|]. intro vs. apply le_ret.
      + intro l. destruct f as [f|g]; [exact (HC _ _ _ _ Q (Q _ _ Ef))|apply (cm_lib C)].
    - intros u t Ht pl Q. apply le_bnd; [exact (Ht pl Q)|]. intro a. apply le_unary.
    - intros t Ht pl Q. apply le_bnd; [exact (Ht pl Q)|]. intro a. apply le_count.
    - intros e He. exact He.
    - intros a b Ha Hb pl Q. apply le_bnd; [exact (Ha pl Q)|]. intro x. apply le_bnd; [exact (Hb pl Q)|]. intro y. apply (cm_range C).
    - intros w pl Q. apply le_ret.
    - intros e He pl Q. apply le_bnd; [exact (He pl Q)|]. intro v. apply le_ret.
  Qed.
  Lemma le_e e pl : quiet_place pl -> leaves (mean_e rt oplib callf pl e).
  Proof. apply le_syntax. Qed.

  (** The place where a statement ends still has only functions that set nothing. *)
  Definition leaves_to {A} (Q : A -> Prop) (m : M W A) : Prop :=
    leaves m /\ forall d w a w', P d w -> m w = Some (Ok a, w') -> Q a.
  Lemma lt_ret {A} (Q : A -> Prop) a : Q a -> leaves_to Q (ret a).
  Proof. intro H. split; [apply le_ret|]. intros d w b w' _ [= <- _]. exact H. Qed.
  Lemma lt_bnd {A B} (Q : A -> Prop) (R : B -> Prop) (m : M W A) (f : A -> M W B) :
    leaves_to Q m -> (forall a, Q a -> leaves_to R (f a)) -> leaves_to R (bnd m f).
  Proof.
    intros [Hm Qm] Hf. split.
    - intros d w r w' H. unfold bnd. destruct (m w) as [[[a|e] w1]|] eqn:Em; [| |discriminate].
      + intro Er. exact (proj1 (Hf a (Qm d w a w1 H Em)) d w1 r w' (Hm d w (Ok a) w1 H Em) Er).
      + intros [= <- <-]. exact (Hm d w (Err e) w1 H Em).
    - intros d w b w' H. unfold bnd. destruct (m w) as [[[a|e] w1]|] eqn:Em; [|discriminate|discriminate].
      intro Er. exact (proj2 (Hf a (Qm d w a w1 H Em)) d w1 b w' (Hm d w (Ok a) w1 H Em) Er).
  Qed.
  Lemma lt_any {A B} (R : B -> Prop) (m : M W A) (f : A -> M W B) :
    leaves m -> (forall a, leaves_to R (f a)) -> leaves_to R (bnd m f).
  Proof. intros Hm Hf. apply (lt_bnd (fun _ => True)); [split; [exact Hm|intros; exact Logic.I]|]. intros a _. exact (Hf a). Qed.

  Definition quiet_end (r : @ending V) : Prop := match r with Onward pl => quiet_place pl | Result _ => True end.
  Definition quiet_some (r : option (@ending V)) : Prop := match r with Some r => quiet_end r | None => True end.

  Notation ms := (mean_s rt oplib callf).
  Notation mb := (mean_b rt oplib callf).
  Notation mbl := (mean_block rt oplib callf).

  Lemma le_block : forall l, Forall (fun s => sets_something s = false -> forall pl, quiet_place pl -> leaves_to quiet_end (ms s pl)) l ->
    existsb sets_something l = false -> forall pl, quiet_place pl -> leaves_to quiet_end (mbl l pl).
  Proof.
    intros l F. induction F as [|s l Hs _ IH]; intros S pl Q; [now apply lt_ret|].
    cbn [existsb] in S. apply orb_false_iff in S as [S1 S2]. cbn [mean_block].
    apply (lt_bnd quiet_end); [exact (Hs S1 pl Q)|]. intros [pl'|v] R; [exact (IH S2 pl' R)|now apply lt_ret].
  Qed.

  Lemma le_stmt :
    (forall s, sets_something s = false -> forall pl, quiet_place pl -> leaves_to quiet_end (ms s pl)) /\
    (forall b, sets_something_b b = false -> forall pl, quiet_place pl -> leaves_to quiet_some (mb b pl)).
  Proof.
    apply stmt_ind2.
    - intros e _ pl Q. apply lt_any; [exact (le_e e pl Q)|]. intro v. apply lt_any; [apply (cm_output C)|]. intros _. now apply lt_ret.
    - intros e s ss _ pl Q. apply lt_any; [exact (le_e e pl Q)|]. intro v. apply lt_any; [exact (le_text pl (s :: ss))|]. intro t.
      apply lt_any; [apply (cm_output C)|]. intros _. now apply lt_ret.
    - intros h hs body _ S pl Q. apply lt_any; [apply le_lift|]. intro ks. apply lt_ret. cbn [quiet_end]. intros s f.
      cbn [define pl_functions find_function]. destruct (shape_eqb s _); [|exact (Q s f)]. intros [= <-]. exact S.
    - intros x e body Hb S pl Q. change (existsb sets_something body = false) in S.
      pose (fl := mkFlags false oplib false true).
      change (leaves_to quiet_end (v <== mean_e rt oplib callf pl e ;; l <== rt_iter rt v ;; mean_loop rt fl callf x body l pl)).
      apply lt_any; [exact (le_e e pl Q)|]. intro v. apply lt_any; [apply (cm_iter C)|]. intro l. revert pl Q.
      induction l as [|u l IH]; intros pl Q; [now apply lt_ret|]. cbn [mean_loop].
      apply (lt_bnd quiet_end); [apply (le_block body Hb S)|].
      + destruct pl as [g f [o|]]; exact Q.
      + intros [pl'|r] R; [exact (IH pl' R)|now apply lt_ret].
    - intros e _ pl Q. apply lt_any; [exact (le_e e pl Q)|]. intro v. now apply lt_ret.
    - intros p ps e S. discriminate S.
    - intros x e _ pl Q. apply lt_any; [exact (le_e e pl Q)|]. intro v. apply lt_ret. destruct pl as [g f [o|]]; exact Q.
    - intros b bs els Hb Hbs Hels S pl Q. pose (fl := mkFlags false oplib false true).
      change (sets_something_b b || existsb sets_something_b bs
              || match els with None => false | Some body => existsb sets_something body end = false) in S.
      apply orb_false_iff in S as [S S3]. apply orb_false_iff in S as [S1 S2].
      change (leaves_to quiet_end (otherwise rt fl callf els (b :: bs) pl)).
      assert (O : leaves_to quiet_end (otherwise rt fl callf els bs pl)).
      { clear - Hbs Hels S2 S3 Q C fails. induction Hbs as [|b bs Hb Hbs IH]; cbn [otherwise].
        - destruct els as [body|]; [exact (le_block body Hels S3 pl Q)|now apply lt_ret].
        - cbn [existsb] in S2. apply orb_false_iff in S2 as [S1 S2]. apply (lt_bnd quiet_some); [exact (Hb S1 pl Q)|].
          intros [r|] R; [now apply lt_ret|exact (IH S2)]. }
      cbn [otherwise]. apply (lt_bnd quiet_some); [exact (Hb S1 pl Q)|]. intros [r|] R; [now apply lt_ret|exact O].
    - intros c body Hb S pl Q. change (existsb sets_something body = false) in S.
      change (leaves_to quiet_some (v <== mean_e rt oplib callf pl c ;; t <== rt_truth rt v ;;
        if t : bool then (r <== mbl body pl ;; ret (Some r)) else ret None)).
      apply lt_any; [exact (le_e c pl Q)|]. intro v. apply lt_any; [apply (cm_truth C)|]. intros [|]; [|now apply lt_ret].
      apply (lt_bnd quiet_end); [exact (le_block body Hb S pl Q)|]. intros r R. now apply lt_ret.
  Qed.
  Lemma le_quiet l pl : existsb sets_something l = false -> quiet_place pl -> leaves_to quiet_end (mbl l pl).
  Proof. intros S Q. apply le_block; [|exact S|exact Q]. apply Forall_forall. intros s _. apply (proj1 le_stmt). Qed.
End quiet.

Section programs.
  Context {V W D : Type} (rt : runtime V W).
  Variables (P : D -> W -> Prop) (E : W -> Prop).
  Hypothesis fails : forall d w, P d w -> E w.
  Hypothesis C : calm rt P E.
  Variable oplib : bool.

  Lemma le_defined n : forall gs fs f l, quiet_all fs -> quiet_def f -> leaves P E (call_defined rt oplib n gs fs f l).
  Proof.
    induction n as [|n IH]; intros gs fs f l Qa Qf; [intros d w r w' _ Er; discriminate|]. cbn [call_defined].
    apply le_bnd; [apply le_lift; exact fails|]. intro ks. apply (cm_call _ _ _ C). intro a. unfold mean_body.
    destruct (give_all (d_params f) a) as [own|]; [|exact (le_lift P E fails (Err TypeErr))].
    apply le_bnd; [|intro r; apply le_ret].
    exact (proj1 (le_quiet rt P E fails C oplib (call_defined rt oplib n) IH (d_body f) (mkPlace gs fs (Some own)) Qf Qa)).
  Qed.
  Lemma le_over n : forall gs fs f l, quiet_all fs -> quiet_def f -> leaves P E (call_over rt oplib n gs fs f l).
  Proof.
    induction n as [|n IH]; intros gs fs f l Qa Qf; [intros d w r w' _ Er; discriminate|]. cbn [call_over].
    apply le_bnd; [apply le_lift; exact fails|]. intro ks. apply (cm_call _ _ _ C). intro a. unfold body_over.
    destruct (give_all (d_params f) a) as [own|]; [|exact (le_lift P E fails (Err TypeErr))].
    apply le_bnd; [|intro r; apply le_ret].
    exact (proj1 (le_quiet rt P E fails C oplib (call_over rt oplib n) IH (d_body f) (mkPlace (own ++ gs) fs None) Qf Qa)).
  Qed.

  Lemma library_quiet (lib : bool) gs : quiet_place (V := V) (mkPlace gs (if lib then library_functions else []) None).
  Proof.
    intros s f. cbn [pl_functions]. destruct lib; cbn [library_functions find_function]; [|discriminate].
    repeat (destruct (shape_eqb s _); [discriminate|]). discriminate.
  Qed.
  Theorem quiet_with lib n gs p : sets_nothing p = true -> leaves P E (mean_with rt oplib lib n gs p).
  Proof.
    intro S. apply negb_true_iff in S. apply le_bnd; [|intro r; apply le_ret].
    exact (proj1 (le_quiet rt P E fails C oplib (call_defined rt oplib n) (le_defined n) p _ S (library_quiet lib gs))).
  Qed.
  Theorem quiet_program lib n p : sets_nothing p = true -> leaves P E (mean_program rt oplib lib n p).
  Proof. exact (quiet_with lib n [] p). Qed.
  Theorem quiet_over lib n p : sets_nothing p = true -> leaves P E (mean_over rt oplib lib n p).
  Proof.
    intro S. apply negb_true_iff in S. apply le_bnd; [|intro r; apply le_ret].
    exact (proj1 (le_quiet rt P E fails C oplib (call_over rt oplib n) (le_over n) p _ S (library_quiet lib []))).
  Qed.
End programs.
