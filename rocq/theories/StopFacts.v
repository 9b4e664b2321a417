(** Every program whose functions do not change the depth limit stops. *)
From Coq Require Import String Ascii List ZArith Bool Arith Lia.
From Verif Require Import PyBase Num Val RVModel UtilModel Obj AtModel CastModel DispModel RollModel RollerModel
  LibModel SettingsModel SettingsFacts LexModel ParseModel SynSpec SynInd NameSpec Runtime RunModel MeanSpec RunSpec StopSpec.
Import ListNotations.
Open Scope string_scope.
Open Scope nat_scope.
Open Scope list_scope.
Open Scope run_scope.

(** ** Computations with a bound on the depth of calls *)

(** From any world of [P], the computation has an outcome, the same for all large
    enough bounds, in a world of [P']; what it returns satisfies [Q]. *)
Definition settles2 {A} (P P' : world -> Prop) (m : nat -> Run A) (Q : A -> Prop) : Prop :=
  forall w, P w -> exists n r w', (forall k, n <= k -> m k w = Some (r, w')) /\
    match r with Ok a => Q a /\ P' w' | Err _ => P w' end.
Notation settles P m Q := (settles2 P P m Q).

Section rules.
  Variable P : world -> Prop.

  Lemma st_const {A} (P' : world -> Prop) (m : Run A) (Q : A -> Prop) :
    (forall w, P w -> exists r w', m w = Some (r, w') /\ match r with Ok a => Q a /\ P' w' | Err _ => P w' end) ->
    settles2 P P' (fun _ => m) Q.
  Proof.
    intros H w Pw. destruct (H w Pw) as (r & w' & E & H2). exists 0, r, w'. split; [intros k _; exact E|exact H2].
  Qed.
  Lemma st_ret {A} (a : A) (Q : A -> Prop) : Q a -> settles P (fun _ => ret a) Q.
  Proof. intro H. apply st_const. intros w Pw. exists (Ok a), w. auto. Qed.
  Lemma st_lift {A} (r : res A) (Q : A -> Prop) : (forall a, r = Ok a -> Q a) -> settles P (fun _ => lift r) Q.
  Proof. intro H. apply st_const. intros w Pw. exists r, w. split; [reflexivity|]. destruct r; auto. Qed.
  Lemma st_bnd2 {A B} (P' P'' : world -> Prop) (m : nat -> Run A) (f : nat -> A -> Run B) (Q : A -> Prop) (Q' : B -> Prop) :
    (forall w, P' w -> P w) ->
    settles2 P P' m Q -> (forall a, Q a -> settles2 P' P'' (fun n => f n a) Q') ->
    settles2 P P'' (fun n => bnd (m n) (f n)) Q'.
  Proof.
    intros I Hm Hf w Pw. destruct (Hm w Pw) as (n & r & w' & E & HQ). destruct r as [a|e].
    - destruct HQ as [Qa Pw']. destruct (Hf a Qa w' Pw') as (n2 & r2 & w2 & E2 & HQ2).
      exists (Nat.max n n2), r2, w2. split.
      + intros k Hk. unfold bnd. rewrite (E k) by lia. exact (E2 k ltac:(lia)).
      + destruct r2; [exact HQ2|exact (I _ HQ2)].
    - exists n, (Err e), w'. split; [|exact HQ]. intros k Hk. unfold bnd. rewrite (E k Hk). reflexivity.
  Qed.
  Lemma st_bnd {A B} (m : nat -> Run A) (f : nat -> A -> Run B) (Q : A -> Prop) (Q' : B -> Prop) :
    settles P m Q -> (forall a, Q a -> settles P (fun n => f n a) Q') ->
    settles P (fun n => bnd (m n) (f n)) Q'.
  Proof. apply st_bnd2. auto. Qed.
  Lemma st_impl {A} (m : nat -> Run A) (Q Q' : A -> Prop) :
    (forall a, Q a -> Q' a) -> settles P m Q -> settles P m Q'.
  Proof.
    intros I H w Pw. destruct (H w Pw) as (n & r & w' & E & HQ). exists n, r, w'. split; [exact E|].
    destruct r; [split; [apply I|]; apply HQ|exact HQ].
  Qed.
  Lemma st_each {A B} (f : nat -> A -> Run B) (l : list A) :
    (forall a, settles P (fun n => f n a) (fun _ => True)) ->
    settles P (fun n => each (f n) l) (fun _ => True).
  Proof.
    intro H. induction l as [|x l IH]; [exact (st_ret [] _ Logic.I)|].
    exact (st_bnd _ _ _ _ (H x) (fun y _ => st_bnd _ _ _ _ IH (fun ys _ => st_ret (y :: ys) _ Logic.I))).
  Qed.
End rules.

(** ** What each part of the runtime does to the settings *)

Section pieces.
  Variable P : world -> Prop.
  Hypothesis P_same : forall w w', rw_settings w = rw_settings w' -> P w -> P w'.

  Definition any {A} (_ : A) : Prop := True.

  Lemma st_cfg {A} (f : cfg -> res A) : settles P (fun _ => with_cfg f) any.
  Proof.
    apply st_const. intros w Pw. unfold with_cfg, cfg_now, settings_now, bnd, lift. cbn [fst snd].
    destruct (cfg_of (rw_settings w)) as [c|].
    - exists (f c), w. split; [reflexivity|]. destruct (f c); unfold any; auto.
    - exists (Err Unmodelled), w. auto.
  Qed.
  Lemma st_memo {A} (f : cfg -> ST A) : settles P (fun _ => with_memo f) any.
  Proof.
    apply st_const. intros w Pw. unfold with_memo, cfg_now, settings_now, bnd, lift. cbn [fst snd].
    destruct (cfg_of (rw_settings w)) as [c|]; [|exists (Err Unmodelled), w; auto].
    destruct (f c (rw_memo w)) as [r m].
    exists r, (mkWorld (rw_settings w) m (rw_outputs w) (rw_printed w)). split; [reflexivity|].
    assert (P (mkWorld (rw_settings w) m (rw_outputs w) (rw_printed w))) by (apply (P_same w); auto).
    destruct r; unfold any; auto.
  Qed.
  Lemma st_any_lift {A} (r : res A) : settles P (fun _ => lift r) any.
  Proof. apply st_lift. unfold any. auto. Qed.
  Lemma st_output v n : settles P (fun _ => record_output v n) any.
  Proof.
    apply st_const. intros w Pw. unfold record_output. eexists _, _. split; [reflexivity|]. cbn.
    split; [exact Logic.I|]. apply (P_same w); auto.
  Qed.
End pieces.

(** ** Expressions and statements *)

(** A function that does not set the depth. *)
Definition keeps_depth (f : fdef) : Prop := existsb sets_depth (d_body f) = false.
Definition keep_depth (fs : functions) : Prop :=
  forall s f, find_function s fs = Ok (Defined f) -> keeps_depth f.

Section statements.
  Variable P : world -> Prop.
  Hypothesis P_same : forall w w', rw_settings w = rw_settings w' -> P w -> P w'.
  (** Whether the depth may be set here. *)
  Variable free : bool.
  Hypothesis P_set : forall n v, free = true \/ n <> depth_setting ->
    settles P (fun _ => set_setting (OStr n) v) any.
  Variable oplib : bool.
  Variable callf : nat -> @variables obj -> functions -> fdef -> list obj -> Run obj.
  Hypothesis calls : forall gs fs f l, keep_depth fs -> keeps_depth f ->
    settles P (fun n => callf n gs fs f l) any.

  Lemma st_text : forall pl ps, settles P (fun _ => text library pl ps) any.
  Proof.
    intros pl ps. induction ps as [|p ps IH]; [exact (st_ret P "" _ Logic.I)|].
    assert (L : forall s, settles P (fun _ => t <== text library pl ps ;; ret (s ++ t)%string) any).
    { intro s. exact (st_bnd P _ _ _ _ IH (fun t _ => st_ret P _ _ Logic.I)). }
    destruct p as [s|s|x]; [exact (L s)|exact (L s)|].
    refine (st_bnd P _ (fun _ v => s <== rt_str library v ;; t <== text library pl ps ;; ret (s ++ t)%string) _ _
              (st_any_lift P (find_variable x pl)) _). intros v _.
    exact (st_bnd P _ _ _ _ (st_any_lift P (text_of v)) (fun s _ => L s)).
  Qed.
  Lemma st_literal : forall pl ps t, literal ps = Some t -> forall w, text library pl ps w = Some (Ok t, w).
  Proof.
    intros pl ps. induction ps as [|p ps IH]; intros t L w; [injection L as <-; reflexivity|].
    destruct p as [s|s|x]; cbn [literal text] in *; [| |discriminate].
    all: destruct (literal ps) as [t'|]; [|discriminate]; injection L as <-; unfold bnd; rewrite (IH _ eq_refl w); reflexivity.
  Qed.

  Notation me n := (mean_e library oplib (callf n)).
  Notation mt n := (mean_t library oplib (callf n)).
  Notation ml n := (mean_l library oplib (callf n)).
  Notation mc n := (mean_c library oplib (callf n)).

  Definition elements n (pl : @place obj) := fix elements (es : list element) : Run (list obj) :=
    match es with
    | [] => ret []
    | x :: es' => v <== ml n pl x ;; vs <== elements es' ;; ret (v :: vs)
    end.
  Definition arguments n (pl : @place obj) := fix arguments (cs : list citem) : Run (list obj) :=
    match cs with
    | [] => ret []
    | c :: cs' => v <== mc n pl c ;; vs <== arguments cs' ;; ret (v ++ vs)
    end.

  Lemma st_binary o a b : settles P (fun _ => binary library oplib o a b) any.
  Proof.
    unfold binary. destruct oplib; [destruct o|]; cbn [rt_op rt_my library]; unfold run_op, run_my; apply st_cfg.
  Qed.
  Lemma st_unary u a : settles P (fun _ => unary library oplib u a) any.
  Proof.
    unfold unary. destruct oplib; [destruct u|]; cbn [rt_un rt_my library]; unfold run_un, run_my; apply st_cfg.
  Qed.
  Lemma st_count a : settles P (fun _ => count library oplib a) any.
  Proof. unfold count. destruct oplib; cbn [rt_my rt_len library]; [unfold run_my; apply st_cfg|apply st_any_lift]. Qed.

  Lemma st_syntax :
    (forall e pl, keep_depth (pl_functions pl) -> settles P (fun n => me n pl e) any) /\
    (forall t pl, keep_depth (pl_functions pl) -> settles P (fun n => mt n pl t) any) /\
    (forall x pl, keep_depth (pl_functions pl) -> settles P (fun n => ml n pl x) any) /\
    (forall c pl, keep_depth (pl_functions pl) -> settles P (fun n => mc n pl c) any).
  Proof.
    apply syn_ind.
    - intros o l r Hl Hr pl K.
      exact (st_bnd P _ _ _ _ (Hl pl K) (fun a _ => st_bnd P _ _ _ _ (Hr pl K) (fun b _ => st_binary o a b))).
    - intros a b Ha Hb pl K.
      exact (st_bnd P _ _ _ _ (Ha pl K) (fun x _ => st_bnd P _ _ _ _ (Hb pl K) (fun y _ => st_memo P P_same _))).
    - intros d Hd pl K. exact (st_bnd P _ _ _ _ (Hd pl K) (fun x _ => st_memo P P_same _)).
    - intros t Ht. exact Ht.
    - intros s pl K. exact (st_ret P _ _ Logic.I).
    - intros a b pl K. exact (st_any_lift P _).
    - intros x pl K. exact (st_any_lift P _).
    - intros p ps pl K. exact (st_bnd P _ _ _ _ (st_text pl (p :: ps)) (fun s _ => st_ret P _ _ Logic.I)).
    - intros es Hes pl K.
      assert (E : settles P (fun n => elements n pl es) any).
      { induction Hes as [|x es Hx _ IH]; [exact (st_ret P _ _ Logic.I)|].
        exact (st_bnd P _ _ _ _ (Hx pl K) (fun v _ => st_bnd P _ _ _ _ IH (fun vs _ => st_ret P _ _ Logic.I))). }
      exact (st_bnd P _ _ _ _ E (fun l _ => st_any_lift P _)).
    - intros e He. exact He.
    - intros cs Hcs pl K.
      assert (E : settles P (fun n => arguments n pl cs) any).
      { induction Hcs as [|x es Hx _ IH]; [exact (st_ret P _ _ Logic.I)|].
        exact (st_bnd P _ _ _ _ (Hx pl K) (fun v _ => st_bnd P _ _ _ _ IH (fun vs _ => st_ret P _ _ Logic.I))). }
      refine (st_bnd P (fun _ => lift (find_function (call_shape cs) (pl_functions pl)))
                (fun n f => l <== arguments n pl cs ;;
                   match f with
                   | Defined d => callf n (pl_globals pl) (pl_functions pl) d l
                   | Library g => rt_lib library g l
                   end) (fun f => match f with Defined d => keeps_depth d | _ => True end) _ _ _).
      + apply st_lift. intros f Ef. destruct f as [d|g]; [exact (K _ _ Ef)|exact Logic.I].
      + intros f Kf. refine (st_bnd P _ _ _ _ E _). intros l _. destruct f as [d|g].
        * exact (calls _ _ _ _ K Kf).
        * cbn [rt_lib library]. unfold run_lib. apply st_cfg.
    - intros u t Ht pl K. exact (st_bnd P _ _ _ _ (Ht pl K) (fun x _ => st_unary u x)).
    - intros t Ht pl K. exact (st_bnd P _ _ _ _ (Ht pl K) (fun x _ => st_count x)).
    - intros e He. exact He.
    - intros a b Ha Hb pl K.
      exact (st_bnd P _ _ _ _ (Ha pl K) (fun x _ => st_bnd P _ _ _ _ (Hb pl K) (fun y _ => st_any_lift P _))).
    - intros w pl K. exact (st_ret P _ _ Logic.I).
    - intros e He pl K. exact (st_bnd P _ _ _ _ (He pl K) (fun x _ => st_ret P _ _ Logic.I)).
  Qed.
  Lemma st_e e pl : keep_depth (pl_functions pl) -> settles P (fun n => me n pl e) any.
  Proof. apply st_syntax. Qed.

  Notation ms n := (mean_s library oplib (callf n)).
  Notation mb n := (mean_b library oplib (callf n)).
  Notation mbl n := (mean_block library oplib (callf n)).

  Definition keeping (r : @ending obj) : Prop :=
    match r with Onward pl => keep_depth (pl_functions pl) | Result _ => True end.

  Definition all_steady (l : list (list (string * option ptype) * list stmt)) : Prop :=
    Forall (fun f => existsb sets_depth (snd f) = false) l.

  Definition St (s : stmt) : Prop :=
    all_steady (functions_s s) -> free = true \/ sets_depth s = false ->
    forall pl, keep_depth (pl_functions pl) -> settles P (fun n => ms n s pl) keeping.
  Definition Sb (b : branch) : Prop :=
    all_steady (functions_b b) -> free = true \/ sets_depth_b b = false ->
    forall pl, keep_depth (pl_functions pl) ->
      settles P (fun n => mb n b pl) (fun r => match r with Some e => keeping e | None => True end).

  Lemma steady_app l l' : all_steady (l ++ l') -> all_steady l /\ all_steady l'.
  Proof. apply Forall_app. Qed.
  Lemma free_or a b : free = true \/ (a || b)%bool = false -> (free = true \/ a = false) /\ (free = true \/ b = false).
  Proof. intros [H|H]; [auto|]. apply orb_false_iff in H. tauto. Qed.

  Lemma st_block : forall l, Forall St l ->
    all_steady (flat_map functions_s l) -> free = true \/ existsb sets_depth l = false ->
    forall pl, keep_depth (pl_functions pl) -> settles P (fun n => mbl n l pl) keeping.
  Proof.
    intros l H. induction H as [|s l Hs _ IH]; intros A F pl K; [exact (st_ret P (Onward pl) _ K)|].
    cbn [flat_map existsb] in A, F. apply steady_app in A as [A1 A2]. apply free_or in F as [F1 F2].
    refine (st_bnd P _ _ _ _ (Hs A1 F1 pl K) _). intros [pl'|v] K'; [exact (IH A2 F2 pl' K')|exact (st_ret P _ _ Logic.I)].
  Qed.

  Definition loop_ n x body := fix loop (l : list obj) (pl : @place obj) : Run ending :=
    match l with
    | [] => ret (Onward pl)
    | v :: l' =>
        r <== mbl n body (give x v pl) ;;
        match r with Onward pl' => loop l' pl' | Result v => ret (Result v) end
    end.
  Definition otherwise_ n (els : option (list stmt)) := fix otherwise (bs : list branch) (pl : @place obj) : Run ending :=
    match bs with
    | [] => match els with Some body => mbl n body pl | None => ret (Onward pl) end
    | b :: bs' =>
        r <== mb n b pl ;;
        match r with Some end_ => ret end_ | None => otherwise bs' pl end
    end.
  Lemma ms_loop n x e body pl :
    ms n (SLoop x e body) pl = (v <== me n pl e ;; l <== rt_iter library v ;; loop_ n x body l pl).
  Proof. reflexivity. Qed.
  Lemma ms_if n b bs els pl :
    ms n (SIf b bs els) pl = (r <== mb n b pl ;; match r with Some e => ret e | None => otherwise_ n els bs pl end).
  Proof. reflexivity. Qed.
  Lemma mb_branch n c body pl :
    mb n (Branch c body) pl
    = (v <== me n pl c ;; t <== rt_truth library v ;; if t : bool then (r <== mbl n body pl ;; ret (Some r)) else ret None).
  Proof. reflexivity. Qed.

  Lemma give_functions x (v : obj) pl : pl_functions (give x v pl) = pl_functions pl.
  Proof. unfold give. destruct (pl_own pl); reflexivity. Qed.

  Lemma st_stmt : (forall s, St s) /\ (forall b, Sb b).
  Proof.
    apply stmt_ind2.
    - intros e A F pl K.
      exact (st_bnd P _ _ _ _ (st_e e pl K) (fun v _ => st_bnd P _ _ _ _ (st_output P P_same v None) (fun _ _ => st_ret P (Onward pl) _ K))).
    - intros e p ps A F pl K.
      exact (st_bnd P _ _ _ _ (st_e e pl K) (fun v _ => st_bnd P _ _ _ _ (st_text pl (p :: ps)) (fun t _ =>
              st_bnd P _ _ _ _ (st_output P P_same v _) (fun _ _ => st_ret P (Onward pl) _ K)))).
    - intros h hs body _ A F pl K.
      refine (st_bnd P _ _ _ _ (st_any_lift P _) _). intros ks _. apply (st_ret P). cbn [keeping define pl_functions].
      cbn [functions_s] in A. pose proof (Forall_inv A) as A1. cbn [snd] in A1.
      intros s f. cbn [find_function]. destruct (shape_eqb s _); [|exact (K s f)].
      intro E. injection E as <-. exact A1.
    - intros x e body Hb A F pl K. cbn [functions_s sets_depth] in A, F.
      refine (st_bnd P _ (fun n v => l <== rt_iter library v ;; loop_ n x body l pl) _ _ (st_e e pl K) _). intros v _.
      refine (st_bnd P _ (fun n l => loop_ n x body l pl) _ _ (st_any_lift P _) _). intros l _. revert pl K.
      induction l as [|o l IH]; intros pl K; [exact (st_ret P (Onward pl) _ K)|].
      refine (st_bnd P _ (fun n r => match r with Onward pl' => loop_ n x body l pl' | Result v => ret (Result v) end)
                _ _ (st_block body Hb A F (give x o pl) _) _).
      + rewrite give_functions. exact K.
      + intros [pl'|r] K'; [exact (IH pl' K')|exact (st_ret P _ _ Logic.I)].
    - intros e A F pl K. exact (st_bnd P _ _ _ _ (st_e e pl K) (fun v _ => st_ret P (Result v) _ Logic.I)).
    - intros p ps e A F pl K. cbn [sets_depth] in F.
      refine (st_bnd P (fun _ => text library pl (p :: ps)) (fun n t => v <== me n pl e ;; r <== set_setting (OStr t) v ;; ret (Onward pl))
                (fun t => free = true \/ t <> depth_setting) _ _ _).
      + destruct (literal (p :: ps)) as [t|] eqn:L.
        * apply st_const. intros w Pw. exists (Ok t), w. split; [exact (st_literal pl _ t L w)|]. split; [|exact Pw].
          destruct F as [F|F]; [left; exact F|right]. exact (proj1 (String.eqb_neq _ _) F).
        * destruct F as [F|F]; [|discriminate]. apply (st_impl P _ any); [intros; left; exact F|exact (st_text pl (p :: ps))].
      + intros t Ht. refine (st_bnd P _ _ _ _ (st_e e pl K) _). intros v _.
        exact (st_bnd P _ _ _ _ (P_set t v Ht) (fun _ _ => st_ret P (Onward pl) _ K)).
    - intros x e A F pl K. refine (st_bnd P _ _ _ _ (st_e e pl K) _). intros v _. apply (st_ret P).
      cbn [keeping]. rewrite give_functions. exact K.
    - intros b bs els Hb Hbs Hels A F pl K. cbn [functions_s sets_depth] in A, F.
      apply steady_app in A as [A1 A]. apply steady_app in A as [A2 A3].
      apply free_or in F as [F F3]. apply free_or in F as [F1 F2].
      refine (st_bnd P _ (fun n r => match r with Some e => ret e | None => otherwise_ n els bs pl end) _ _ (Hb A1 F1 pl K) _).
      intros [r|] Kr; [exact (st_ret P r _ Kr)|]. clear Hb A1 F1 Kr.
      induction Hbs as [|b' bs Hb' _ IH].
      + cbn [otherwise_]. destruct els as [body|]; [exact (st_block body Hels A3 F3 pl K)|exact (st_ret P (Onward pl) _ K)].
      + cbn [flat_map existsb] in A2, F2. apply steady_app in A2 as [A2 A2']. apply free_or in F2 as [F2 F2'].
        refine (st_bnd P _ (fun n r => match r with Some e => ret e | None => otherwise_ n els bs pl end) _ _ (Hb' A2 F2 pl K) _).
        intros [r|] Kr; [exact (st_ret P r _ Kr)|exact (IH A2' F2')].
    - intros c body Hb A F pl K. cbn [functions_b sets_depth_b] in A, F.
      refine (st_bnd P _ (fun n v => t <== rt_truth library v ;; if t : bool then (r <== mbl n body pl ;; ret (Some r)) else ret None)
                _ _ (st_e c pl K) _). intros v _.
      refine (st_bnd P _ (fun n (t : bool) => if t then (r <== mbl n body pl ;; ret (Some r)) else ret None) _ _ (st_any_lift P _) _).
      intros [|] _; [|exact (st_ret P None _ Logic.I)].
      exact (st_bnd P _ _ _ _ (st_block body Hb A F pl K) (fun r Kr => st_ret P (Some r) _ Kr)).
  Qed.
End statements.

(** ** Calls *)

Definition num (n : string) (w : world) : Z :=
  match as_num (get n (rw_settings w)) with Some z => z | None => 0%Z end.
(** At least [k] calls are counted, and the limit is [m]. *)
Definition counted (k m : Z) (w : world) : Prop :=
  (k <= num "INTERNAL_CURR_DEPTH" w)%Z /\ num depth_setting w = m.

Lemma counted_same k m w w' : rw_settings w = rw_settings w' -> counted k m w -> counted k m w'.
Proof. intros E [A B]. unfold counted, num in *. rewrite E in *. auto. Qed.
Lemma counted_less k m w : counted (k + 1) m w -> counted k m w.
Proof. intros [A B]. split; [lia|exact B]. Qed.

Lemma number_now_some n w z : as_num (get n (rw_settings w)) = Some z -> number_now n w = Some (Ok z, w).
Proof. intro E. unfold number_now, settings_now, bnd, lift. cbn [fst snd]. rewrite E. reflexivity. Qed.
Lemma number_now_none n w : as_num (get n (rw_settings w)) = None -> number_now n w = Some (Err Unmodelled, w).
Proof. intro E. unfold number_now, settings_now, bnd, lift. cbn [fst snd]. rewrite E. reflexivity. Qed.

Definition with_depth (z : Z) (w : world) : world :=
  mkWorld (put "INTERNAL_CURR_DEPTH" (SInt z) (rw_settings w)) (rw_memo w) (rw_outputs w) (rw_printed w).
Lemma num_depth z w : num "INTERNAL_CURR_DEPTH" (with_depth z w) = z.
Proof. unfold num, with_depth. cbn [rw_settings]. rewrite get_put. reflexivity. Qed.
Lemma num_limit z w : num depth_setting (with_depth z w) = num depth_setting w.
Proof. unfold num, with_depth. cbn [rw_settings]. rewrite get_put. reflexivity. Qed.

Lemma run_call_settles k m ks (f : nat -> list obj -> Run obj) l :
  ((k < m)%Z -> forall l', settles (counted (k + 1) m) (fun n => f n l') any) ->
  settles (counted k m) (fun n => run_call ks (f n) l) any.
Proof.
  intros H w [Hd Hm].
  destruct (as_num (get "INTERNAL_CURR_DEPTH" (rw_settings w))) as [d|] eqn:Ed.
  2:{ exists 0, (Err Unmodelled), w. split; [|split; assumption]. intros n _. unfold run_call at 1. unfold bnd at 1.
      rewrite (number_now_none _ _ Ed). reflexivity. }
  destruct (as_num (get depth_setting (rw_settings w))) as [m'|] eqn:Em.
  2:{ exists 0, (Err Unmodelled), w. split; [|split; assumption]. intros n _. unfold run_call at 1. unfold bnd at 1.
      rewrite (number_now_some _ _ _ Ed). unfold bnd at 1. fold depth_setting. rewrite (number_now_none _ _ Em). reflexivity. }
  assert (U : forall n, run_call ks (f n) l w
     = (if (m' <=? d)%Z then (u <== warn ;; ret (OBlank false))
        else u <== add_depth 1 ;; o <== run_cast ks (f n) l ;; u <== add_depth (-1) ;;
             ret (match o with ONone => OBlank false | _ => o end)) w).
  { intro n. unfold run_call at 1. unfold bnd at 1. rewrite (number_now_some _ _ _ Ed). unfold bnd at 1. fold depth_setting.
    rewrite (number_now_some _ _ _ Em). reflexivity. }
  unfold num in Hd, Hm. rewrite Ed in Hd. rewrite Em in Hm. subst m'.
  destruct (Z.leb_spec m d) as [L|L].
  - destruct (as_flag (get "INTERNAL_CURR_DEPTH_WARNING_PRINTED" (rw_settings w))) as [[|]|] eqn:Ef.
    + exists 0, (Ok (OBlank false)), w. split.
      * intros n _. rewrite U. unfold bnd, warn. rewrite Ef. reflexivity.
      * split; [exact Logic.I|]. split; unfold num; [rewrite Ed; lia|rewrite Em; reflexivity].
    + eexists 0, (Ok (OBlank false)), _. split.
      * intros n _. rewrite U. unfold bnd, warn. rewrite Ef. reflexivity.
      * split; [exact Logic.I|]. split; unfold num; cbn [rw_settings]; rewrite get_put;
          match goal with |- context [if String.eqb ?a ?b then _ else _] => change (String.eqb a b) with false end; cbv iota.
        -- rewrite Ed. lia.
        -- rewrite Em. reflexivity.
    + exists 0, (Err Unmodelled), w. split.
      * intros n _. rewrite U. unfold bnd, warn. rewrite Ef. reflexivity.
      * split; unfold num; [rewrite Ed; lia|rewrite Em; reflexivity].
  - assert (C1 : counted (k + 1) m (with_depth (d + 1) w)).
    { split; [rewrite num_depth; lia|rewrite num_limit; unfold num; rewrite Em; reflexivity]. }
    assert (S1 : settles (counted (k + 1) m) (fun n => run_cast ks (f n) l) any).
    { assert (H' := H ltac:(lia)).
      refine (st_bnd _ _ (fun n p => match p with
                | PAbort => ret (OBlank true)
                | PDirect a => f n (map snd a)
                | PProduct calls =>
                    os <== each (fun aw => o <== f n (map snd (fst aw)) ;; lift (single o)) calls ;;
                    with_cfg (fun c => merge c os (map snd calls))
                end) any any (st_cfg _ _) _).
      intros [|a|calls] _.
      - exact (st_ret _ _ _ Logic.I).
      - exact (H' _).
      - refine (st_bnd _ _ _ _ _ (st_each _ (fun n aw => o <== f n (map snd (fst aw)) ;; lift (single o)) calls _) (fun os _ => st_cfg _ _)).
        intro aw. exact (st_bnd _ _ _ _ _ (H' _) (fun o _ => st_any_lift _ _)). }
    destruct (S1 _ C1) as (n & r & w2 & E & HQ). 
    assert (E1 : add_depth 1 w = Some (Ok Datatypes.tt, with_depth (d + 1) w)).
    { unfold add_depth, bnd. rewrite (number_now_some _ _ _ Ed). reflexivity. }
    destruct r as [o|e].
    + destruct HQ as [_ C2].
      destruct (as_num (get "INTERNAL_CURR_DEPTH" (rw_settings w2))) as [d2|] eqn:Ed2.
      * exists n, (Ok (match o with ONone => OBlank false | _ => o end)), (with_depth (d2 + -1) w2). split.
        -- intros n' Hn. rewrite U. unfold bnd at 1. rewrite E1. unfold bnd at 1. rewrite (E n' Hn).
           unfold add_depth, bnd. rewrite (number_now_some _ _ _ Ed2). reflexivity.
        -- split; [exact Logic.I|]. destruct C2 as [C2 C2']. unfold num at 1 in C2. rewrite Ed2 in C2.
           split; [rewrite num_depth; lia|rewrite num_limit; exact C2'].
      * exists n, (Err Unmodelled), w2. split; [|exact (counted_less _ _ _ C2)].
        intros n' Hn. rewrite U. unfold bnd at 1. rewrite E1. unfold bnd at 1. rewrite (E n' Hn).
        unfold add_depth, bnd. rewrite (number_now_none _ _ Ed2). reflexivity.
    + exists n, (Err e), w2. split; [|exact (counted_less _ _ _ HQ)].
      intros n' Hn. rewrite U. unfold bnd at 1. rewrite E1. unfold bnd at 1. rewrite (E n' Hn). reflexivity.
Qed.

Lemma settles_shift {A} P (m : nat -> Run A) Q : settles P (fun n => m (S n)) Q -> settles P m Q.
Proof.
  intros H w Pw. destruct (H w Pw) as (n & r & w' & E & HQ). exists (S n), r, w'. split; [|exact HQ].
  intros [|k] Hk; [lia|]. apply E. lia.
Qed.

Lemma checked_ok n v v' : checked n v = Ok v' -> n <> "INTERNAL_CURR_DEPTH".
Proof. intros E ->. vm_compute in E. discriminate. Qed.

Lemma counted_set k m n v : n <> depth_setting -> settles (counted k m) (fun _ => set_setting (OStr n) v) any.
Proof.
  intro N. apply st_const. intros w Pw. unfold set_setting.
  assert (R : exists r w', (let (r, s') := settings_set n (setting_value v) (rw_settings w) in
                   Some (rmap (fun _ => ONone) r, mkWorld s' (rw_memo w) (rw_outputs w) (rw_printed w))) = Some (r, w')
                /\ match r with Ok a => any a /\ counted k m w' | Err _ => counted k m w' end).
  { unfold settings_set. destruct (checked n (setting_value v)) as [v'|e] eqn:C.
    - eexists _, _. split; [reflexivity|]. cbn [rmap]. split; [exact Logic.I|].
      pose proof (checked_ok _ _ _ C) as N2. destruct Pw as [P1 P2]. unfold counted, num in *. cbn [rw_settings]. rewrite !get_put.
      rewrite (proj2 (String.eqb_neq _ _) N), (proj2 (String.eqb_neq _ _) N2). auto.
    - eexists _, _. split; [reflexivity|]. cbn [rmap]. apply (counted_same k m w); [reflexivity|exact Pw]. }
  destruct (String.eqb n "RV_TRUNC" || String.eqb n "RV_IGNORE_ZERO_PROBS")%bool; [|exact R].
  destruct v as [[[z|? ?]|?]| | | | | | |]; try exact R. exists (Err Unmodelled), w. split; [reflexivity|exact Pw].
Qed.

(** functions inside a function that keeps the depth keep it *)
Lemma inside_steady f : keeps_depth f -> all_steady (flat_map functions_s (d_body f)).
Proof.
  intro Kf. unfold keeps_depth in Kf.
  assert (I : (forall s, sets_depth s = false -> all_steady (functions_s s)) /\
              (forall b, sets_depth_b b = false -> all_steady (functions_b b))).
  { assert (L : forall l, Forall (fun s => sets_depth s = false -> all_steady (functions_s s)) l ->
                existsb sets_depth l = false -> all_steady (flat_map functions_s l)).
    { intros l H. induction H as [|s l Hs _ IH]; intro E; [constructor|]. cbn [existsb flat_map] in *.
      apply orb_false_iff in E as [E1 E2]. apply Forall_app. split; [exact (Hs E1)|exact (IH E2)]. }
    apply stmt_ind2; try (intros; constructor).
    - cbn [sets_depth snd] in *. assumption.
    - cbn [sets_depth] in *. apply L; assumption.
    - intros x e body Hb E. cbn [sets_depth functions_s] in *. exact (L body Hb E).
    - intros b bs els Hb Hbs Hels E. cbn [sets_depth functions_s] in *.
      apply orb_false_iff in E as [E E3]. apply orb_false_iff in E as [E1 E2].
      apply Forall_app. split; [exact (Hb E1)|]. apply Forall_app. split.
      + clear -Hbs E2. induction Hbs as [|b bs Hb _ IH]; [constructor|]. cbn [existsb flat_map] in *.
        apply orb_false_iff in E2 as [E1 E2]. apply Forall_app. split; [exact (Hb E1)|exact (IH E2)].
      + destruct els as [body|]; [exact (L body Hels E3)|constructor].
    - intros c body Hb E. cbn [sets_depth_b functions_b] in *. exact (L body Hb E). }
  induction (d_body f) as [|s b IHb]; [constructor|]. cbn [existsb flat_map] in *.
  apply orb_false_iff in Kf as [E1 E2]. apply Forall_app. split; [exact (proj1 I s E1)|exact (IHb E2)].
Qed.

Lemma calls_settle oplib : forall j k m, (m - k <= Z.of_nat j)%Z -> forall gs fs f l, keep_depth fs -> keeps_depth f ->
  settles (counted k m) (fun n => call_defined library oplib n gs fs f l) any.
Proof.
  induction j as [|j IH]; intros k m Hj gs fs f l Kfs Kf; apply settles_shift; cbn [call_defined rt_call library].
  - refine (st_bnd _ _ _ _ _ (st_any_lift _ _) _). intros ks _. apply run_call_settles. intro L. lia.
  - refine (st_bnd _ _ _ _ _ (st_any_lift _ _) _). intros ks _. apply run_call_settles. intros L l'.
    unfold mean_body. destruct (give_all (d_params f) l') as [own|]; [|exact (st_any_lift _ (Err TypeErr))].
    refine (st_bnd _ _ _ keeping _ (st_block (counted (k + 1) m) false oplib (call_defined library oplib) (d_body f) _ _ _ (mkPlace gs fs (Some own)) Kfs)
              (fun r _ => st_ret _ _ _ Logic.I)).
    + apply Forall_forall. intros s _. refine (proj1 (st_stmt (counted (k + 1) m) (counted_same (k + 1) m) false _ oplib (call_defined library oplib) _) s).
      * intros n v [N|N]; [discriminate|]. exact (counted_set _ _ n v N).
      * intros gs' fs' f' l'' Kfs' Kf'. apply IH; [lia|exact Kfs'|exact Kf'].
    + exact (inside_steady f Kf).
    + right. exact Kf.
Qed.

(** ** Programs *)

Definition anywhere (w : world) : Prop := True.

Lemma anywhere_set n v : settles anywhere (fun _ => set_setting (OStr n) v) any.
Proof.
  apply st_const. intros w _. unfold set_setting.
  assert (T : forall (r : res obj), match r with Ok a => any a /\ anywhere w | Err _ => anywhere w end)
    by (intros [a|e]; unfold any, anywhere; auto).
  assert (R : exists r w', (let (r, s') := settings_set n (setting_value v) (rw_settings w) in
                   Some (rmap (fun _ => ONone) r, mkWorld s' (rw_memo w) (rw_outputs w) (rw_printed w))) = Some (r, w')
                /\ match r with Ok a => any a /\ anywhere w' | Err _ => anywhere w' end).
  { destruct (settings_set n (setting_value v) (rw_settings w)) as [r s']. eexists _, _. split; [reflexivity|].
    destruct r; cbn; unfold any, anywhere; auto. }
  destruct (String.eqb n "RV_TRUNC" || String.eqb n "RV_IGNORE_ZERO_PROBS")%bool; [|exact R].
  destruct v as [[[z|? ?]|?]| | | | | | |]; try exact R. exists (Err Unmodelled), w. split; [reflexivity|exact Logic.I].
Qed.

(** A program has one outcome, for every large enough bound on the depth of calls. *)
Definition outcome (oplib lib : bool) (p : program) (w : world) (r : res unit) (w' : world) : Prop :=
  exists n, forall k, n <= k -> mean_program library oplib lib k p w = Some (r, w').

Theorem steady_stops : forall oplib lib p w, steady p = true -> exists r w', outcome oplib lib p w r w'.
Proof.
  intros oplib lib p w S.
  assert (A : all_steady (flat_map functions_s p)).
  { unfold steady in S. rewrite forallb_forall in S. apply Forall_forall. intros f Hf. specialize (S f Hf).
    apply negb_true_iff in S. exact S. }
  assert (B : settles anywhere (fun n => mean_block library oplib (call_defined library oplib n) p
                (mkPlace [] (if lib then library_functions else []) None)) keeping).
  { apply (st_block anywhere true); [| exact A | left; reflexivity |].
    - apply Forall_forall. intros s _.
      refine (proj1 (st_stmt anywhere (fun _ _ _ _ => Logic.I) true _ oplib (call_defined library oplib) _) s).
      + intros n v _. exact (anywhere_set n v).
      + intros gs fs f l Kfs Kf w0 _.
        destruct (calls_settle oplib (Z.to_nat (num depth_setting w0 - num "INTERNAL_CURR_DEPTH" w0))
                    (num "INTERNAL_CURR_DEPTH" w0) (num depth_setting w0) ltac:(lia) gs fs f l Kfs Kf w0 (conj (Z.le_refl _) eq_refl))
          as (n & r & w' & E & _).
        exists n, r, w'. split; [exact E|]. destruct r; unfold any, anywhere; auto.
    - cbn [pl_functions]. intros s f. destruct lib; cbn [library_functions find_function]; [|discriminate].
      repeat (destruct (shape_eqb s _); [discriminate|]). discriminate. }
  destruct (B w Logic.I) as (n & r & w' & E & _).
  exists (match r with Ok _ => Ok Datatypes.tt | Err e => Err e end), w', n. intros k Hk.
  unfold mean_program, bnd. rewrite (E k Hk). destruct r; reflexivity.
Qed.
