(** What a program does to the world is what the operations of the library do to it, one after
    the other. *)
From Coq Require Import String Ascii List ZArith Bool Arith Lia.
From Verif Require Import PyBase LexModel ParseModel SynSpec SynInd NameSpec ResolveModel Runtime MeanSpec RunSpec SemFacts SemStmt SemRun.
Import ListNotations.
Open Scope string_scope.
Open Scope list_scope.
Open Scope run_scope.

Section steps.
  Context {V W : Type} (rt : runtime V W).
  Variable R : W -> W -> Prop.
  Hypotheses (refl : forall w, R w w) (trans : forall a b c, R a b -> R b c -> R a c).
  Definition steps {A} (m : M W A) : Prop := forall w r w', m w = Some (r, w') -> R w w'.

  Lemma sp_ret {A} (a : A) : steps (ret a).
  Proof. intros w r w' [= _ <-]. apply refl. Qed.
  Lemma sp_lift {A} (r : res A) : steps (lift r).
  Proof. intros w r' w' [= _ <-]. apply refl. Qed.
  Lemma sp_bnd {A B} (m : M W A) (f : A -> M W B) : steps m -> (forall a, steps (f a)) -> steps (bnd m f).
  Proof.
    intros Hm Hf w r w'. unfold bnd. destruct (m w) as [[[a|e] w1]|] eqn:E; [| |discriminate]; intros H.
    - exact (trans w w1 w' (Hm w _ w1 E) (Hf a w1 r w' H)).
    - injection H as _ <-. exact (Hm w _ w1 E).
  Qed.
  Lemma sp_each {A B} (f : A -> M W B) l : (forall a, steps (f a)) -> steps (each f l).
  Proof.
    intros H. induction l as [|a l IH]; [apply sp_ret|]. cbn [each]. apply sp_bnd; [apply H|intros b]. apply sp_bnd; [exact IH|intros bs; apply sp_ret].
  Qed.

  Record stepping : Prop := {
    sg_str : forall v, steps (rt_str rt v);
    sg_truth : forall v, steps (rt_truth rt v);
    sg_iter : forall v, steps (rt_iter rt v);
    sg_op : forall o a b, steps (rt_op rt o a b);
    sg_un : forall u a, steps (rt_un rt u a);
    sg_len : forall a, steps (rt_len rt a);
    sg_roll : forall a b, steps (rt_roll rt a b);
    sg_seq : forall a, steps (rt_seq rt a);
    sg_range : forall a b, steps (rt_range rt a b);
    sg_output : forall a b, steps (rt_output rt a b);
    sg_set : forall a b, steps (rt_set rt a b);
    sg_my : forall m l, steps (rt_my rt m l);
    sg_lib : forall f l, steps (rt_lib rt f l);
    sg_call : forall ks f l, (forall a, steps (f a)) -> steps (rt_call rt ks f l) }.
  Hypothesis C : stepping.
  Variable oplib : bool.
  Section inner.
  Variable callf : @variables V -> functions -> fdef -> list V -> M W V.
  Hypothesis HC : forall gs fs f l, steps (callf gs fs f l).

  Lemma sp_text pl ps : steps (text rt pl ps).
  Proof.
    induction ps as [|p ps IH]; [apply sp_ret|]. destruct p as [s|s|x]; cbn [text].
    - apply sp_bnd; [exact IH|]. intro t. apply sp_ret.
    - apply sp_bnd; [exact IH|]. intro t. apply sp_ret.
    - apply sp_bnd; [apply sp_lift|]. intro v. apply sp_bnd; [apply (sg_str C)|]. intro s. apply sp_bnd; [exact IH|]. intro t. apply sp_ret.
  Qed.
  Lemma sp_binary o a b : steps (binary rt oplib o a b).
  Proof. unfold binary. destruct oplib, o; first [apply (sg_my C)|apply (sg_op C)]. Qed.
  Lemma sp_unary u a : steps (unary rt oplib u a).
  Proof. unfold unary. destruct oplib, u; first [apply (sg_my C)|apply (sg_un C)]. Qed.
  Lemma sp_count a : steps (count rt oplib a).
  Proof. unfold count. destruct oplib; [apply (sg_my C)|apply (sg_len C)]. Qed.

  Lemma sp_syntax :
    (forall e pl, steps (mean_e rt oplib callf pl e)) /\
    (forall t pl, steps (mean_t rt oplib callf pl t)) /\
    (forall x pl, steps (mean_l rt oplib callf pl x)) /\
    (forall c pl, steps (mean_c rt oplib callf pl c)).
  Proof.
    apply syn_ind.
    - intros o l r Hl Hr pl. apply sp_bnd; [exact (Hl pl)|]. intro a. apply sp_bnd; [exact (Hr pl)|]. intro b. apply sp_binary.
    - intros n d Hn Hd pl. apply sp_bnd; [exact (Hn pl)|]. intro a. apply sp_bnd; [exact (Hd pl)|]. intro b. apply (sg_roll C).
    - intros d Hd pl. apply sp_bnd; [exact (Hd pl)|]. intro a. apply (sg_roll C).
    - intros t Ht. exact Ht.
    - intros s pl. apply sp_ret.
    - intros a b pl. apply sp_lift.
    - intros x pl. apply sp_lift.
    - intros s ss pl. apply sp_bnd; [exact (sp_text pl (s :: ss))|]. intro t. apply sp_ret.
    - intros es Hes pl. apply sp_bnd; [|intro l; apply (sg_seq C)].
      induction Hes as [|x es Hx _ IH]; [apply sp_ret|]. apply sp_bnd; [exact (Hx pl)|]. intro v. apply sp_bnd; [exact IH|]. intro vs. apply sp_ret.
    - intros e He. exact He.
    - intros cs Hcs pl. apply sp_bnd; [apply sp_lift|]. intro f. apply sp_bnd.
      + induction Hcs as [|x es Hx _ IH]; [apply sp_ret|]. apply sp_bnd; [exact (Hx pl)|]. intro v. apply sp_bnd; [exact IH|]. intro vs. apply sp_ret.
      + intro l. destruct f as [f|g]; [apply HC|apply (sg_lib C)].
    - intros u t Ht pl. apply sp_bnd; [exact (Ht pl)|]. intro a. apply sp_unary.
    - intros t Ht pl. apply sp_bnd; [exact (Ht pl)|]. intro a. apply sp_count.
    - intros e He. exact He.
    - intros a b Ha Hb pl. apply sp_bnd; [exact (Ha pl)|]. intro x. apply sp_bnd; [exact (Hb pl)|]. intro y. apply (sg_range C).
    - intros w pl. apply sp_ret.
    - intros e He pl. apply sp_bnd; [exact (He pl)|]. intro v. apply sp_ret.
  Qed.
  Lemma sp_e e pl : steps (mean_e rt oplib callf pl e).
  Proof. apply sp_syntax. Qed.

  Notation ms := (mean_s rt oplib callf).
  Notation mb := (mean_b rt oplib callf).
  Notation mbl := (mean_block rt oplib callf).
  Lemma sp_list : forall l, Forall (fun s => forall pl, steps (ms s pl)) l -> forall pl, steps (mbl l pl).
  Proof.
    intros l F. induction F as [|s l Hs _ IH]; intros pl; [apply sp_ret|]. cbn [mean_block].
    apply sp_bnd; [exact (Hs pl)|]. intros [pl'|v]; [exact (IH pl')|apply sp_ret].
  Qed.
  Lemma sp_stmt : (forall s pl, steps (ms s pl)) /\ (forall b pl, steps (mb b pl)).
  Proof.
    apply stmt_ind2.
    - intros e pl. apply sp_bnd; [apply sp_e|]. intro v. apply sp_bnd; [apply (sg_output C)|]. intros _. apply sp_ret.
    - intros e s ss pl. apply sp_bnd; [apply sp_e|]. intro v. apply sp_bnd; [exact (sp_text pl (s :: ss))|]. intro t.
      apply sp_bnd; [apply (sg_output C)|]. intros _. apply sp_ret.
    - intros h hs body _ pl. apply sp_bnd; [apply sp_lift|]. intro ks. apply sp_ret.
    - intros x e body Hb pl. apply sp_bnd; [apply sp_e|]. intro v. apply sp_bnd; [apply (sg_iter C)|]. intro l. revert pl.
      induction l as [|u l IH]; intros pl; [apply sp_ret|]. apply sp_bnd; [apply (sp_list body Hb)|].
      intros [pl'|r]; [exact (IH pl')|apply sp_ret].
    - intros e pl. apply sp_bnd; [apply sp_e|]. intro v. apply sp_ret.
    - intros p ps e pl. apply sp_bnd; [exact (sp_text pl (p :: ps))|]. intro t. apply sp_bnd; [apply sp_e|]. intro v.
      apply sp_bnd; [apply (sg_set C)|]. intros _. apply sp_ret.
    - intros x e pl. apply sp_bnd; [apply sp_e|]. intro v. apply sp_ret.
    - intros b bs els Hb Hbs Hels pl. apply sp_bnd; [exact (Hb pl)|]. intros [r|]; [apply sp_ret|].
      clear Hb. induction Hbs as [|b1 bs H1 _ IH].
      + destruct els as [body|]; [exact (sp_list body Hels pl)|apply sp_ret].
      + apply sp_bnd; [exact (H1 pl)|]. intros [r|]; [apply sp_ret|exact IH].
    - intros c body Hb pl. apply sp_bnd; [apply sp_e|]. intro v. apply sp_bnd; [apply (sg_truth C)|]. intros [|]; [|apply sp_ret].
      apply sp_bnd; [exact (sp_list body Hb pl)|]. intros r. apply sp_ret.
  Qed.
  Lemma sp_block l pl : steps (mbl l pl).
  Proof. apply sp_list. apply Forall_forall. intros s _. apply sp_stmt. Qed.
  End inner.

  Lemma sp_defined n : forall gs fs f l, steps (call_defined rt oplib n gs fs f l).
  Proof.
    induction n as [|n IH]; intros gs fs f l; [intros w r w' E; discriminate|]. cbn [call_defined].
    apply sp_bnd; [apply sp_lift|]. intro ks. apply (sg_call C). intro a. unfold mean_body.
    destruct (give_all (d_params f) a) as [own|]; [|exact (sp_lift (Err TypeErr))].
    apply sp_bnd; [|intro r; apply sp_ret]. apply sp_block. exact IH.
  Qed.
  Theorem sp_program lib n p : steps (mean_program rt oplib lib n p).
  Proof. unfold mean_program. apply sp_bnd; [apply sp_block, sp_defined|]. intro r. apply sp_ret. Qed.
End steps.
