(** The values of programs are never None or lists: programs. *)
From Coq Require Import String Ascii List ZArith Bool.
From Verif Require Import PyBase Num Val RVModel UtilModel Obj AtModel CastModel DispModel RollModel RollerModel
  LibModel SettingsModel LexModel ParseModel SynSpec SynInd NameSpec Runtime MeanSpec RunModel SemStmt KindSpec KindFacts.
Import ListNotations.
Open Scope string_scope.
Open Scope list_scope.
Open Scope run_scope.

Definition recorded (w : world) : Prop := Forall good_output (rw_outputs w).
(** Running [m] keeps what is recorded good, and gives a result with [P]. *)
Definition gives {A} (P : A -> Prop) (m : Run A) : Prop :=
  forall w r w', recorded w -> m w = Some (r, w') -> recorded w' /\ forall a, r = Ok a -> P a.

Lemma gi_ret {A} (P : A -> Prop) a : P a -> gives P (ret a).
Proof. intros H w r w' R [= <- <-]. split; [exact R|]. now intros b [= <-]. Qed.
Lemma gi_lift {A} (P : A -> Prop) (r : res A) : (forall a, r = Ok a -> P a) -> gives P (lift r).
Proof. intros H w r' w' R [= <- <-]. split; [exact R|exact H]. Qed.
Lemma gi_bnd {A B} (P : A -> Prop) (Q : B -> Prop) (m : Run A) (f : A -> Run B) :
  gives P m -> (forall a, P a -> gives Q (f a)) -> gives Q (bnd m f).
Proof.
  intros Hm Hf w r w' R. unfold bnd. destruct (m w) as [[[a|e] w1]|] eqn:E; [| |discriminate].
  - destruct (Hm w (Ok a) w1 R E) as [R1 P1]. exact (Hf a (P1 a eq_refl) w1 r w' R1).
  - intros [= <- <-]. split; [exact (proj1 (Hm w (Err e) w1 R E))|discriminate].
Qed.
Lemma gi_any {A B} (Q : B -> Prop) (m : Run A) (f : A -> Run B) : gives (fun _ => True) m -> (forall a, gives Q (f a)) -> gives Q (bnd m f).
Proof. intros Hm Hf. apply (gi_bnd (fun _ => True)); [exact Hm|]. intros a _. exact (Hf a). Qed.
Lemma gi_lift_any {A} (r : res A) : gives (fun _ => True) (lift r).
Proof. apply gi_lift. intros; exact Logic.I. Qed.
Lemma gi_impl {A} (P Q : A -> Prop) m : (forall a, P a -> Q a) -> gives P m -> gives Q m.
Proof. intros H G w r w' R E. destruct (G w r w' R E) as [R' K]. split; [exact R'|]. intros a Ea. apply H, K, Ea. Qed.
Lemma gi_each {A B} (P : A -> Prop) (Q : B -> Prop) (f : A -> Run B) l : (forall a, P a -> gives Q (f a)) -> Forall P l -> gives (Forall Q) (each f l).
Proof.
  intros H. induction 1 as [|x l Hx _ IH]; cbn [each]; [apply gi_ret; constructor|].
  apply (gi_bnd Q); [exact (H x Hx)|]. intros y Hy. apply (gi_bnd (Forall Q)); [exact IH|]. intros ys Hys. apply gi_ret. now constructor.
Qed.

(** *** The library as a runtime *)
Lemma gi_cfg {A} (P : A -> Prop) (f : cfg -> res A) : (forall c a, f c = Ok a -> P a) -> gives P (with_cfg f).
Proof.
  intros H. unfold with_cfg. apply gi_any; [|intros c; apply gi_lift, H]. unfold cfg_now. apply gi_any; [|intros s; apply gi_lift_any].
  intros w r w' R [= <- <-]. split; [exact R|intros; exact Logic.I].
Qed.
Lemma gi_okf f : (forall c, okf (f c)) -> gives fine (with_cfg f).
Proof. intros H. apply gi_cfg. intros c a E. specialize (H c). now rewrite E in H. Qed.
Lemma gi_number n : gives (fun _ => True) (number_now n).
Proof. unfold number_now. apply gi_any; [|intros s; apply gi_lift_any]. intros w r w' R [= <- <-]. split; [exact R|intros; exact Logic.I]. Qed.
Lemma gi_depth n : gives (fun _ => True) (RunModel.add_depth n).
Proof.
  unfold RunModel.add_depth. apply gi_any; [apply gi_number|]. intros d w r w' R [= <- <-]. split; [exact R|intros; exact Logic.I].
Qed.
Lemma gi_warn : gives (fun _ => True) RunModel.warn.
Proof.
  intros w r w' R. unfold RunModel.warn. destruct (as_flag (get "INTERNAL_CURR_DEPTH_WARNING_PRINTED" (rw_settings w))) as [[|]|]; intros [= <- <-];
    (split; [exact R|intros; exact Logic.I]).
Qed.

(** fine, or the None of a body without result: *)
Definition fine_or_none (o : obj) : Prop := fine o \/ o = ONone.
Lemma gi_call ks f l : (forall a, Forall fine a -> gives fine_or_none (f a)) -> Forall fine l -> gives fine (run_call ks f l).
Proof.
  intros H F. unfold run_call. apply gi_any; [apply gi_number|intros d]. apply gi_any; [apply gi_number|intros m].
  destruct (m <=? d)%Z; [apply gi_any; [apply gi_warn|intros _; now apply gi_ret]|].
  apply gi_any; [apply gi_depth|intros _]. apply (gi_bnd fine_or_none).
  - unfold run_cast. apply (gi_bnd (fun p => match p with PAbort => True | PDirect a' => fine_args a' | PProduct calls => Forall (fun aw => fine_args (fst aw)) calls end)).
    + apply gi_cfg. intros c p. apply plan_fine, positional_fine, F.
    + assert (S : forall a, fine_args a -> Forall fine (map snd a)) by (intros a Fa; apply Forall_map; exact Fa).
      intros [|a|calls] P; [apply gi_ret; now left|apply H, S, P|].
      apply gi_any.
      * apply (gi_impl (Forall (fun _ => True))); [intros; exact Logic.I|]. refine (gi_each _ _ _ calls _ P). intros aw Fa.
        apply gi_any; [|intros o; apply gi_lift_any]. apply (gi_impl fine_or_none); [intros; exact Logic.I|]. apply H, S, Fa.
      * intros os. apply (gi_impl fine); [now left|]. apply gi_okf. intros c. apply okf_merge.
  - intros o Fo. apply gi_any; [apply gi_depth|intros _]. apply gi_ret. destruct Fo as [Fo| ->]; [destruct o; first [exact Fo | destruct Fo]|exact Logic.I].
Qed.
Lemma gi_lib g l : Forall fine l -> gives fine (run_lib g l).
Proof.
  intros F. apply gi_okf. intros c. pose proof (positional_fine l F) as A. cbv zeta. destruct g.
  - now apply okf_absolute. - now apply okf_contains. - now apply okf_count_in. - now apply okf_explode. - now apply okf_highest.
  - now apply okf_lowest. - now apply okf_middle. - now apply okf_pick. - now apply okf_pick. - now apply okf_maximum. - now apply okf_reverse.
  - now apply okf_sort.
  - destruct F as [|x l Fx [|y l' Fy [|]]]; try exact Logic.I. now apply okf_py_op.
Qed.
Lemma gi_op o a b : fine a -> fine b -> gives fine (run_op o a b).
Proof. intros Fa Fb. apply gi_okf. intros c. destruct (python_op o); [now apply okf_py_op|now apply okf_matmul]. Qed.
Lemma gi_un u a : gives fine (run_un u a).
Proof.
  apply gi_okf. intros c. destruct u.
  - destruct a as [[n|t]|t|l|l|l|x|k|]; exact Logic.I.
  - apply okf_neg.
  - pose proof (okf_invert c a) as X. destruct a as [[[z|m e]|t]|t|l|l|l|x|k|]; first [exact X | exact Logic.I].
Qed.
Lemma gi_my m l : Forall fine l -> gives fine (run_my m l).
Proof.
  intros F. apply gi_okf. intros c. destruct m; destruct F as [|x l Fx [|y l' Fy [|]]]; try exact Logic.I;
    first [now apply okf_my_matmul | apply okf_map; intros; exact Logic.I | apply okf_invert | now apply okf_my_op].
Qed.
Lemma gi_roll a b : gives fine (rt_roll library a b).
Proof.
  cbn [library rt_roll]. unfold with_memo. apply gi_any.
  - unfold cfg_now. apply gi_any; [|intros s; apply gi_lift_any]. intros w r w' R [= <- <-]. split; [exact R|intros; exact Logic.I].
  - intros c w r w' R. pose proof (okf_roll c a b (rw_memo w)) as X. destruct (roll c a b (rw_memo w)) as [x m]. intros [= <- <-].
    split; [exact R|]. intros o ->. exact X.
Qed.

Section meaning.
  Variable oplib : bool.
  Variable callf : @variables obj -> functions -> fdef -> list obj -> Run obj.
  Definition fine_vars (vs : @variables obj) : Prop := Forall (fun xv => fine (snd xv)) vs.
  Definition fine_place (pl : @place obj) : Prop :=
    fine_vars (pl_globals pl) /\ match pl_own pl with Some own => fine_vars own | None => True end.
  Hypothesis HC : forall gs fs f l, fine_vars gs -> Forall fine l -> gives fine (callf gs fs f l).

  Lemma variable_fine x vs v : fine_vars vs -> variable_in x vs = Some v -> fine v.
  Proof.
    induction 1 as [|[y u] vs Hu _ IH]; cbn [variable_in]; [discriminate|]. destruct (String.eqb x y); [intros [= <-]; exact Hu|exact IH].
  Qed.
  Lemma find_fine x pl v : fine_place pl -> find_variable x pl = Ok v -> fine v.
  Proof.
    intros [G O]. unfold find_variable. pose proof (variable_fine x (pl_globals pl)) as HG. destruct (pl_own pl) as [own|].
    - pose proof (variable_fine x own) as HO. destruct (variable_in x own) as [u|]; [intros [= <-]; exact (HO u O eq_refl)|].
      destruct (variable_in x (pl_globals pl)) as [u|]; [intros [= <-]; exact (HG u G eq_refl)|discriminate].
    - destruct (variable_in x (pl_globals pl)) as [u|]; [intros [= <-]; exact (HG u G eq_refl)|discriminate].
  Qed.
  Lemma give_fine x v pl : fine v -> fine_place pl -> fine_place (give x v pl).
  Proof. intros F [G O]. unfold give. destruct (pl_own pl) as [own|]; split; cbn [pl_globals pl_own]; try assumption; try exact Logic.I; constructor; assumption. Qed.

  Lemma gi_binary o a b : fine a -> fine b -> gives fine (binary library oplib o a b).
  Proof. intros Fa Fb. unfold binary. destruct oplib, o; first [apply gi_op; assumption | apply gi_my; repeat constructor; assumption]. Qed.
  Lemma gi_unary u a : fine a -> gives fine (unary library oplib u a).
  Proof. intros Fa. unfold unary. destruct oplib, u; first [apply gi_un | apply gi_my; repeat constructor; assumption]. Qed.
  Lemma gi_count a : fine a -> gives fine (count library oplib a).
  Proof.
    intros Fa. unfold count. destruct oplib; [apply gi_my; repeat constructor; assumption|]. apply gi_lift. intros v.
    destruct (py_len a); [|discriminate]. intros [= <-]. exact Logic.I.
  Qed.
  Lemma gi_text pl ps : gives (fun _ => True) (text library pl ps).
  Proof.
    induction ps as [|[s|s|x] ps IH]; cbn [text].
    - now apply gi_ret.
    - apply gi_any; [exact IH|]. intros t. now apply gi_ret.
    - apply gi_any; [exact IH|]. intros t. now apply gi_ret.
    - apply gi_any; [apply gi_lift_any|]. intros v. apply gi_any; [apply gi_lift_any|]. intros s. apply gi_any; [exact IH|]. intros t. now apply gi_ret.
  Qed.

  Lemma gi_syntax :
    (forall e pl, fine_place pl -> gives fine (mean_e library oplib callf pl e)) /\
    (forall t pl, fine_place pl -> gives fine (mean_t library oplib callf pl t)) /\
    (forall x pl, fine_place pl -> gives (fun _ => True) (mean_l library oplib callf pl x)) /\
    (forall c pl, fine_place pl -> gives (Forall fine) (mean_c library oplib callf pl c)).
  Proof.
    apply syn_ind.
    - intros o l r Hl Hr pl Q. apply (gi_bnd fine); [exact (Hl pl Q)|]. intros a Fa. apply (gi_bnd fine); [exact (Hr pl Q)|]. intros b Fb. now apply gi_binary.
    - intros n d Hn Hd pl Q. apply (gi_bnd fine); [exact (Hn pl Q)|]. intros a Fa. apply (gi_bnd fine); [exact (Hd pl Q)|]. intros b Fb. apply gi_roll.
    - intros d Hd pl Q. apply (gi_bnd fine); [exact (Hd pl Q)|]. intros a Fa. apply gi_roll.
    - intros t Ht. exact Ht.
    - intros s pl Q. apply gi_ret. exact Logic.I.
    - intros a b pl Q. apply gi_lift. intros v. cbn [library rt_float].
      match goal with |- rmap _ ?m = _ -> _ => destruct m as [q|]; [|discriminate] end. intros [= <-]. exact Logic.I.
    - intros x pl Q. apply gi_lift. intros v. now apply find_fine.
    - intros s ss pl Q. apply gi_any; [exact (gi_text pl (s :: ss))|]. intros t. apply gi_ret. exact Logic.I.
    - intros es Hes pl Q. apply gi_any; [|intros l; apply gi_lift; intros v E; pose proof (okf_get_seq [rt_list library l]) as X; now rewrite E in X].
      induction Hes as [|x es Hx _ IH]; [now apply gi_ret|]. apply gi_any; [exact (Hx pl Q)|]. intros v. apply gi_any; [exact IH|]. intros vs. now apply gi_ret.
    - intros e He. exact He.
    - intros cs Hcs pl Q.
      change (gives fine (f <== lift (find_function (call_shape cs) (pl_functions pl)) ;;
        l <== (fix arguments (cs : list citem) : Run (list obj) :=
                 match cs with
                 | [] => ret []
                 | c :: cs' => v <== mean_c library oplib callf pl c ;; vs <== arguments cs' ;; ret (v ++ vs)
                 end) cs ;;
        match f with
        | Defined d => callf (pl_globals pl) (pl_functions pl) d l
        | Library g => rt_lib library g l
        end)).
      apply gi_any; [apply gi_lift_any|]. intros f. apply (gi_bnd (Forall fine)).
      + induction Hcs as [|x cs Hx _ IH]; [apply gi_ret; constructor|]. apply (gi_bnd (Forall fine)); [exact (Hx pl Q)|]. intros v Fv.
        apply (gi_bnd (Forall fine)); [exact IH|]. intros vs Fvs. apply gi_ret, Forall_app. now split.
      + intros l Fl. destruct f as [d|g]; [exact (HC _ _ _ _ (proj1 Q) Fl)|now apply gi_lib].
    - intros u t Ht pl Q. apply (gi_bnd fine); [exact (Ht pl Q)|]. intros a Fa. now apply gi_unary.
    - intros t Ht pl Q. apply (gi_bnd fine); [exact (Ht pl Q)|]. intros a Fa. now apply gi_count.
    - intros e He pl Q. apply (gi_impl fine); [intros; exact Logic.I|exact (He pl Q)].
    - intros a b Ha Hb pl Q. apply (gi_bnd fine); [exact (Ha pl Q)|]. intros x _. apply (gi_bnd fine); [exact (Hb pl Q)|]. intros y _. apply gi_lift_any.
    - intros w pl Q. apply gi_ret. constructor.
    - intros e He pl Q. apply (gi_bnd fine); [exact (He pl Q)|]. intros v Fv. apply gi_ret. now repeat constructor.
  Qed.
  Lemma gi_e e pl : fine_place pl -> gives fine (mean_e library oplib callf pl e).
  Proof. apply gi_syntax. Qed.

  Definition fine_end (r : @ending obj) : Prop := match r with Onward pl => fine_place pl | Result v => fine v end.
  Definition fine_some (r : option (@ending obj)) : Prop := match r with Some r => fine_end r | None => True end.
  Notation ms := (mean_s library oplib callf). Notation mb := (mean_b library oplib callf). Notation mbl := (mean_block library oplib callf).

  Lemma gi_output v n : fine v -> (n = None \/ exists s, n = Some (OStr s)) -> gives (fun _ => True) (record_output v n).
  Proof.
    intros F N w r w' R [= <- <-]. split; [|intros; exact Logic.I]. unfold recorded. cbn [rw_outputs]. apply Forall_app. split; [exact R|].
    constructor; [|constructor]. split; [now apply fine_value|exact N].
  Qed.
  Lemma gi_set n v : gives (fun _ => True) (set_setting n v).
  Proof.
    assert (U : gives (fun _ : obj => True) (raise Unmodelled)) by exact (gi_lift_any (Err Unmodelled)).
    assert (S : forall s, gives (fun _ : obj => True) (fun w => let (r, s') := settings_set s (setting_value v) (rw_settings w) in
                   Some (rmap (fun _ => ONone) r, mkWorld s' (rw_memo w) (rw_outputs w) (rw_printed w)))).
    { intros s w r w' R. destruct (settings_set s (setting_value v) (rw_settings w)) as [x s']. intros [= <- <-]. split; [exact R|intros; exact Logic.I]. }
    unfold set_setting. destruct n as [n|s|l|l|l|x|k|]; try exact U.
    destruct (String.eqb s "RV_TRUNC" || String.eqb s "RV_IGNORE_ZERO_PROBS")%bool; [|apply S].
    destruct v as [[[z|m e]|t]|t|l|l|l|x|k|]; first [exact U | apply S].
  Qed.
  Lemma gi_block l : Forall (fun s => forall pl, fine_place pl -> gives fine_end (ms s pl)) l -> forall pl, fine_place pl -> gives fine_end (mbl l pl).
  Proof.
    induction 1 as [|s l Hs _ IH]; intros pl Q; [now apply gi_ret|]. cbn [mean_block].
    apply (gi_bnd fine_end); [exact (Hs pl Q)|]. intros [pl'|v] R; [exact (IH pl' R)|now apply gi_ret].
  Qed.
  Lemma gi_stmt : (forall s pl, fine_place pl -> gives fine_end (ms s pl)) /\ (forall b pl, fine_place pl -> gives fine_some (mb b pl)).
  Proof.
    apply stmt_ind2.
    - intros e pl Q. apply (gi_bnd fine); [exact (gi_e e pl Q)|]. intros v Fv. apply gi_any; [apply gi_output; [exact Fv|now left]|]. intros _. now apply gi_ret.
    - intros e s ss pl Q. apply (gi_bnd fine); [exact (gi_e e pl Q)|]. intros v Fv. apply gi_any; [exact (gi_text pl (s :: ss))|]. intros t.
      apply gi_any; [apply gi_output; [exact Fv|right; now exists t]|]. intros _. now apply gi_ret.
    - intros h hs body _ pl Q. apply gi_any; [apply gi_lift_any|]. intros ks. apply gi_ret. exact Q.
    - intros x e body Hb pl Q.
      change (gives fine_end (v <== mean_e library oplib callf pl e ;; l <== lift (items_of v) ;;
        (fix loop (l : list obj) (pl : place) : Run ending :=
           match l with
           | [] => ret (Onward pl)
           | v :: l' => r <== mbl body (give x v pl) ;; match r with Onward pl' => loop l' pl' | Result v => ret (Result v) end
           end) l pl)).
      apply (gi_bnd fine); [exact (gi_e e pl Q)|]. intros v Fv. apply (gi_bnd (Forall fine)); [apply gi_lift; intros l; now apply fine_items|].
      intros l Fl. revert pl Q. induction Fl as [|u l Fu _ IH]; intros pl Q; [now apply gi_ret|].
      apply (gi_bnd fine_end); [apply (gi_block body Hb); now apply give_fine|]. intros [pl'|r] R; [exact (IH pl' R)|now apply gi_ret].
    - intros e pl Q. apply (gi_bnd fine); [exact (gi_e e pl Q)|]. intros v Fv. now apply gi_ret.
    - intros p ps e pl Q. apply gi_any; [exact (gi_text pl (p :: ps))|]. intros t. apply (gi_bnd fine); [exact (gi_e e pl Q)|]. intros v _.
      apply gi_any; [apply gi_set|]. intros _. now apply gi_ret.
    - intros x e pl Q. apply (gi_bnd fine); [exact (gi_e e pl Q)|]. intros v Fv. apply gi_ret. now apply give_fine.
    - intros b bs els Hb Hbs Hels pl Q.
      change (gives fine_end (r <== mb b pl ;; match r with Some end_ => ret end_ | None =>
        (fix otherwise (bs : list branch) (pl : place) : Run ending :=
          match bs with
          | [] => match els with Some body => mbl body pl | None => ret (Onward pl) end
          | b :: bs' => r <== mb b pl ;; match r with Some end_ => ret end_ | None => otherwise bs' pl end
          end) bs pl end)).
      apply (gi_bnd fine_some); [exact (Hb pl Q)|]. intros [r|] R; [now apply gi_ret|]. clear R Hb b.
      induction Hbs as [|b bs Hb _ IH].
      + destruct els as [body|]; [exact (gi_block body Hels pl Q)|now apply gi_ret].
      + apply (gi_bnd fine_some); [exact (Hb pl Q)|]. intros [r|] R; [now apply gi_ret|exact IH].
    - intros c body Hb pl Q.
      change (gives fine_some (v <== mean_e library oplib callf pl c ;; t <== rt_truth library v ;;
        if t : bool then (r <== mbl body pl ;; ret (Some r)) else ret None)).
      apply (gi_bnd fine); [exact (gi_e c pl Q)|]. intros v _. apply gi_any; [apply gi_lift_any|]. intros [|]; [|now apply gi_ret].
      apply (gi_bnd fine_end); [exact (gi_block body Hb pl Q)|]. intros r R. now apply gi_ret.
  Qed.
  Lemma gi_program l pl : fine_place pl -> gives fine_end (mbl l pl).
  Proof. apply gi_block, Forall_forall. intros s _. apply gi_stmt. Qed.
End meaning.

Lemma give_all_fine ps : forall l own, Forall fine l -> give_all ps l = Some own -> fine_vars own.
Proof.
  induction ps as [|p ps IH]; intros l own F; destruct F as [|v l Fv Fl]; cbn [give_all]; try discriminate; [intros [= <-]; constructor|].
  destruct (give_all ps l) as [o|] eqn:E; [|discriminate]. intros [= <-]. constructor; [exact Fv|exact (IH l o Fl E)].
Qed.
Lemma gi_defined oplib n : forall gs fs f l, fine_vars gs -> Forall fine l -> gives fine (call_defined library oplib n gs fs f l).
Proof.
  induction n as [|n IH]; intros gs fs f l G F; [intros w r w' _ E; discriminate|]. cbn [call_defined].
  apply gi_any; [apply gi_lift_any|]. intros ks. apply gi_call; [|exact F]. intros a Fa. unfold mean_body.
  destruct (give_all (d_params f) a) as [own|] eqn:E; [|exact (gi_lift fine_or_none (Err TypeErr) ltac:(discriminate))].
  apply (gi_bnd fine_end).
  - apply gi_program; [exact IH|]. split; [exact G|exact (give_all_fine _ _ _ Fa E)].
  - intros [pl|v] R; apply gi_ret; [now right|now left].
Qed.
Theorem outputs_good oplib lib n p w r w' : Forall good_output (rw_outputs w) ->
  mean_program library oplib lib n p w = Some (r, w') -> Forall good_output (rw_outputs w').
Proof.
  intros R E. assert (G : gives (fun _ : unit => True) (mean_program library oplib lib n p)).
  { unfold mean_program. apply (gi_bnd fine_end); [|intros; now apply gi_ret]. apply gi_program; [apply gi_defined|]. split; [constructor|exact Logic.I]. }
  exact (proj1 (G w r w' R E)).
Qed.
Definition good_place (pl : @place obj) : Prop :=
  Forall (fun xv => dice_value (snd xv)) (pl_globals pl) /\
  match pl_own pl with Some own => Forall (fun xv => dice_value (snd xv)) own | None => True end.
Theorem expression_value oplib n pl e w v w' : good_place pl -> Forall good_output (rw_outputs w) ->
  mean_e library oplib (call_defined library oplib n) pl e w = Some (Ok v, w') -> dice_value v.
Proof.
  intros [G O] R E. apply fine_value.
  assert (F : fine_place pl).
  { split; [|destruct (pl_own pl); [|exact Logic.I]]; (eapply Forall_impl; [|eassumption]); intros xv; apply fine_value. }
  exact (proj2 (gi_e oplib _ (gi_defined oplib n) e pl F w (Ok v) w' R E) v eq_refl).
Qed.
