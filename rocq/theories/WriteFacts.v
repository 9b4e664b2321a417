(** Proofs about other ways to write the same. *)
From Coq Require Import String List ZArith Bool Lia.
From Verif Require Import PyBase Num Val RVModel Obj RollerModel RollObjFacts IntFacts LibModel LexModel ParseModel SynSpec SynInd NameSpec Runtime MeanSpec SemFacts SemLaws RunModel
  SameFacts WriteSpec.
Import ListNotations.
Open Scope list_scope.
Open Scope run_scope.

(** ** Parentheses *)
Section bare.
  Context {V W : Type} (rt : runtime V W).
  Variables (oplib : bool) (callf : variables (V := V) -> functions -> fdef -> list V -> M W V).
  Ltac step := eapply rel_bnd; [solve [apply rel_refl | eauto]|intros ? ? ->].
  Lemma bare_shape cs : call_shape (map bare_c cs) = call_shape cs.
  Proof. unfold call_shape. rewrite map_map. apply map_ext. intros [w|e]; reflexivity. Qed.
  Lemma bare_means :
    (forall e pl, rel_m eq (mean_e rt oplib callf pl e) (mean_e rt oplib callf pl (bare_e e))) /\
    (forall t pl, rel_m eq (mean_t rt oplib callf pl t) (mean_t rt oplib callf pl (bare_t t)) /\
                  rel_m eq (mean_t rt oplib callf pl t) (mean_e rt oplib callf pl (bare_e (ETerm t)))) /\
    (forall x pl, rel_m eq (mean_l rt oplib callf pl x) (mean_l rt oplib callf pl (bare_l x))) /\
    (forall c pl, rel_m eq (mean_c rt oplib callf pl c) (mean_c rt oplib callf pl (bare_c c))).
  Proof.
    apply syn_ind.
    - intros o l r IHl IHr pl. cbn [bare_e mean_e]. step. step. apply rel_refl.
    - intros n d IHn IHd pl. cbn [bare_e mean_e]. eapply rel_bnd; [exact (proj1 (IHn pl))|intros ? ? ->].
      eapply rel_bnd; [exact (proj1 (IHd pl))|intros ? ? ->]. apply rel_refl.
    - intros d IH pl. cbn [bare_e mean_e]. eapply rel_bnd; [exact (proj1 (IH pl))|intros ? ? ->]. apply rel_refl.
    - intros t IH pl. exact (proj2 (IH pl)).
    - intros s pl. split; apply rel_refl.
    - intros a b pl. split; apply rel_refl.
    - intros x pl. split; apply rel_refl.
    - intros p ps pl. split; apply rel_refl.
    - intros es IH pl.
      assert (H : rel_m eq (mean_t rt oplib callf pl (TSeq es)) (mean_t rt oplib callf pl (TSeq (map bare_l es)))).
      { cbn [mean_t]. eapply rel_bnd; [|intros a b ->; apply rel_refl].
        induction IH as [|x es Hx IH IHes]; cbn [map]; [apply rel_refl|]. step. eapply rel_bnd; [exact IHes|intros ? ? ->]. apply rel_refl. }
      split; exact H.
    - intros e IH pl. split; [|exact (IH pl)]. change (mean_t rt oplib callf pl (TGroup e)) with (mean_e rt oplib callf pl e).
      cbn [bare_t]. specialize (IH pl). destruct (bare_e e) as [o l r|n d|d|t]; exact IH.
    - intros cs IH pl.
      assert (H : rel_m eq (mean_t rt oplib callf pl (TCall cs)) (mean_t rt oplib callf pl (TCall (map bare_c cs)))).
      { cbn [mean_t]. rewrite bare_shape. step. eapply rel_bnd with (R := eq).
        { induction IH as [|x cs Hx IH IHcs]; cbn [map]; [apply rel_refl|]. step. eapply rel_bnd; [exact IHcs|intros ? ? ->]. apply rel_refl. }
        intros l ? ->. apply rel_refl. }
      split; exact H.
    - intros u t IH pl.
      assert (H : rel_m eq (mean_t rt oplib callf pl (TUn u t)) (mean_t rt oplib callf pl (TUn u (bare_t t)))).
      { cbn [mean_t]. eapply rel_bnd; [exact (proj1 (IH pl))|intros ? ? ->]. apply rel_refl. }
      split; exact H.
    - intros t IH pl.
      assert (H : rel_m eq (mean_t rt oplib callf pl (THash t)) (mean_t rt oplib callf pl (THash (bare_t t)))).
      { cbn [mean_t]. eapply rel_bnd; [exact (proj1 (IH pl))|intros ? ? ->]. apply rel_refl. }
      split; exact H.
    - intros e IH pl. exact (IH pl).
    - intros a b IHa IHb pl. cbn [bare_l mean_l]. step. step. apply rel_refl.
    - intros w pl. apply rel_refl.
    - intros e IH pl. cbn [bare_c mean_c]. step. apply rel_refl.
  Qed.
  Lemma same_tree_means e e' pl w : same_tree e e' -> mean_e rt oplib callf pl e w = mean_e rt oplib callf pl e' w.
  Proof.
    intros E. rewrite (proj1 (rel_same _ _) (proj1 bare_means e pl) w), (proj1 (rel_same _ _) (proj1 bare_means e' pl) w). now rewrite E.
  Qed.
End bare.

(** ** Places where functions have bodies that say the same *)
Definition alike_def (d d' : fdef) : Prop := d_params d' = d_params d /\ alike (d_body d) (d_body d').
Definition alike_callee (c c' : res callee) : Prop :=
  match c, c' with
  | Ok (Defined d), Ok (Defined d') => alike_def d d'
  | Ok (Library g), Ok (Library g') => g = g'
  | Err e, Err e' => e = e'
  | _, _ => False
  end.
Definition alike_fs (fs fs' : functions) : Prop := forall s, alike_callee (find_function s fs) (find_function s fs').
Definition alike_place {V} (pl pl' : @place V) : Prop :=
  pl_globals pl' = pl_globals pl /\ pl_own pl' = pl_own pl /\ alike_fs (pl_functions pl) (pl_functions pl').
Definition alike_ending {V} (r r' : @ending V) : Prop :=
  match r, r' with
  | Onward pl, Onward pl' => alike_place pl pl'
  | Result v, Result v' => v = v'
  | _, _ => False
  end.
Definition alike_branch {V} (r r' : option (@ending V)) : Prop :=
  match r, r' with
  | Some e, Some e' => alike_ending e e'
  | None, None => True
  | _, _ => False
  end.

Lemma callee_refl c : alike_callee c c.
Proof. destruct c as [[d|g]|e]; cbn; try reflexivity. split; [reflexivity|apply alike_refl]. Qed.
Lemma callee_sym c c' : alike_callee c c' -> alike_callee c' c.
Proof. destruct c as [[d|g]|e], c' as [[d'|g']|e']; cbn; auto. intros [P B]. split; [now symmetry|now apply alike_sym]. Qed.
Lemma callee_trans a b c : alike_callee a b -> alike_callee b c -> alike_callee a c.
Proof.
  destruct a as [[d|g]|e], b as [[d'|g']|e'], c as [[d2|g2]|e2]; cbn; try contradiction; try congruence.
  intros [P B] [P' B']. split; [congruence|exact (alike_trans _ _ _ B B')].
Qed.
Section places.
  Context {V : Type}.
  Lemma place_refl (pl : @place V) : alike_place pl pl.
  Proof. split; [reflexivity|split; [reflexivity|]]. intros s. apply callee_refl. Qed.
  Lemma place_sym (a b : @place V) : alike_place a b -> alike_place b a.
  Proof. intros (G & O & F). split; [now symmetry|split; [now symmetry|]]. intros s. apply callee_sym, F. Qed.
  Lemma place_trans (a b c : @place V) : alike_place a b -> alike_place b c -> alike_place a c.
  Proof. intros (G & O & F) (G' & O' & F'). split; [congruence|split; [congruence|]]. intros s. exact (callee_trans _ _ _ (F s) (F' s)). Qed.
  Lemma ending_refl (r : @ending V) : alike_ending r r.
  Proof. destruct r; cbn; [apply place_refl|reflexivity]. Qed.
  Lemma ending_sym (a b : @ending V) : alike_ending a b -> alike_ending b a.
  Proof. destruct a, b; cbn; auto. apply place_sym. Qed.
  Lemma ending_trans (a b c : @ending V) : alike_ending a b -> alike_ending b c -> alike_ending a c.
  Proof. destruct a, b, c; cbn; try contradiction; try congruence. apply place_trans. Qed.
  Lemma find_alike x (pl pl' : @place V) : alike_place pl pl' -> find_variable x pl' = find_variable x pl.
  Proof. intros (G & O & _). unfold find_variable. now rewrite G, O. Qed.
  Lemma give_alike x v (pl pl' : @place V) : alike_place pl pl' -> alike_place (give x v pl) (give x v pl').
  Proof.
    intros (G & O & F). unfold give. rewrite O. destruct (pl_own pl) as [own|]; split; try exact G; try (split; [reflexivity|exact F]).
    cbn [pl_globals]. now rewrite G.
  Qed.
  Lemma define_alike s d d' (pl pl' : @place V) : alike_def d d' -> alike_place pl pl' -> alike_place (define s d pl) (define s d' pl').
  Proof.
    intros D (G & O & F). split; [exact G|split; [exact O|]]. intros t. cbn [define pl_functions find_function].
    destruct (shape_eqb t s); [exact D|exact (F t)].
  Qed.
End places.

Lemma rel_sym {W A B} (R : A -> B -> Prop) (S : B -> A -> Prop) (m : M W A) (m' : M W B) : (forall a b, R a b -> S b a) -> rel_m R m m' -> rel_m S m' m.
Proof.
  intros I H w. specialize (H w). destruct (m w) as [[[a|e] w1]|], (m' w) as [[[b|e'] w2]|]; try contradiction; auto; destruct H as [-> H]; auto.
Qed.
Lemma rel_trans {W A B C} (R : A -> B -> Prop) (S : B -> C -> Prop) (T : A -> C -> Prop) (m : M W A) (m' : M W B) (m'' : M W C) :
  (forall a b c, R a b -> S b c -> T a c) -> rel_m R m m' -> rel_m S m' m'' -> rel_m T m m''.
Proof.
  intros I H K w. specialize (H w). specialize (K w).
  destruct (m w) as [[[a|e] w1]|], (m' w) as [[[b|e'] w2]|], (m'' w) as [[[c|e''] w3]|]; try contradiction; auto; destruct H as [-> H], K as [-> K].
  - split; [reflexivity|exact (I _ _ _ H K)].
  - split; congruence.
Qed.
Lemma rel_of_same {W A} (R : A -> A -> Prop) (m m' : M W A) : (forall a, R a a) -> (forall w, m w = m' w) -> rel_m R m m'.
Proof. intros I E w. rewrite (E w). destruct (m' w) as [[[a|e] w1]|]; auto. Qed.

(** ** The same statements in such places *)
Section inside.
  Context {V W : Type} (rt : runtime V W).
  Variable oplib : bool.
  Variable callf : variables (V := V) -> functions -> fdef -> list V -> M W V.
  Hypothesis call_alike : forall gs fs fs' d d' l, alike_fs fs fs' -> alike_def d d' -> rel_m eq (callf gs fs d l) (callf gs fs' d' l).
  Ltac step := eapply rel_bnd; [solve [apply rel_refl | eauto]|intros ? ? ->].

  Lemma text_alike ps pl pl' : alike_place pl pl' -> rel_m eq (text rt pl ps) (text rt pl' ps).
  Proof.
    intros R. induction ps as [|[s|s|x] ps IH]; cbn [text].
    - apply rel_refl.
    - step. apply rel_refl.
    - step. apply rel_refl.
    - rewrite (find_alike x pl pl' R). step. step. step. apply rel_refl.
  Qed.
  Lemma exprs_alike :
    (forall e pl pl', alike_place pl pl' -> rel_m eq (mean_e rt oplib callf pl e) (mean_e rt oplib callf pl' e)) /\
    (forall t pl pl', alike_place pl pl' -> rel_m eq (mean_t rt oplib callf pl t) (mean_t rt oplib callf pl' t)) /\
    (forall x pl pl', alike_place pl pl' -> rel_m eq (mean_l rt oplib callf pl x) (mean_l rt oplib callf pl' x)) /\
    (forall c pl pl', alike_place pl pl' -> rel_m eq (mean_c rt oplib callf pl c) (mean_c rt oplib callf pl' c)).
  Proof.
    apply syn_ind.
    - intros o l r IHl IHr pl pl' R. cbn [mean_e]. step. step. apply rel_refl.
    - intros n d IHn IHd pl pl' R. cbn [mean_e]. step. step. apply rel_refl.
    - intros d IH pl pl' R. cbn [mean_e]. step. apply rel_refl.
    - intros t IH pl pl' R. exact (IH pl pl' R).
    - intros s pl pl' R. apply rel_refl.
    - intros a b pl pl' R. apply rel_refl.
    - intros x pl pl' R. cbn [mean_t]. rewrite (find_alike x pl pl' R). apply rel_refl.
    - intros p ps pl pl' R. cbn [mean_t]. eapply rel_bnd; [exact (text_alike (p :: ps) pl pl' R)|]. intros a b ->. apply rel_refl.
    - intros es IH pl pl' R. cbn [mean_t]. eapply rel_bnd; [|intros a b ->; apply rel_refl].
      induction IH as [|x es Hx IH IHes]; [apply rel_refl|]. step. eapply rel_bnd; [exact IHes|intros ? ? ->]. apply rel_refl.
    - intros e IH pl pl' R. exact (IH pl pl' R).
    - intros cs IH pl pl' R. cbn [mean_t]. pose proof (proj2 (proj2 R) (call_shape cs)) as F.
      eapply (rel_bnd (fun c c' => alike_callee (Ok c) (Ok c'))).
      { intros w. unfold lift. destruct (find_function (call_shape cs) (pl_functions pl)) as [c|e],
          (find_function (call_shape cs) (pl_functions pl')) as [c'|e']; cbn [alike_callee] in F |- *.
        - split; [reflexivity|exact F].
        - destruct c; contradiction.
        - contradiction.
        - split; [reflexivity|exact F]. }
      clear F. intros c c' F. eapply rel_bnd with (R := eq).
      { induction IH as [|x cs Hx IH IHcs]; [apply rel_refl|]. step. eapply rel_bnd; [exact IHcs|intros ? ? ->]. apply rel_refl. }
      intros l l' ->. destruct c as [d|g], c' as [d'|g']; cbn [alike_callee] in F; try contradiction.
      + destruct R as (G & _ & Fs). rewrite G. now apply call_alike.
      + subst g'. apply rel_refl.
    - intros u t IH pl pl' R. cbn [mean_t]. step. apply rel_refl.
    - intros t IH pl pl' R. cbn [mean_t]. step. apply rel_refl.
    - intros e IH pl pl' R. exact (IH pl pl' R).
    - intros a b IHa IHb pl pl' R. cbn [mean_l]. step. step. apply rel_refl.
    - intros w pl pl' R. apply rel_refl.
    - intros e IH pl pl' R. cbn [mean_c]. step. apply rel_refl.
  Qed.
  Lemma expr_alike e pl pl' : alike_place pl pl' -> rel_m eq (mean_e rt oplib callf pl e) (mean_e rt oplib callf pl' e).
  Proof. apply exprs_alike. Qed.

  Notation mean_s := (mean_s rt oplib callf). Notation mean_b := (mean_b rt oplib callf). Notation mean_block := (mean_block rt oplib callf).
  (** Blocks that do the same in such places. *)
  Definition does (l l' : list stmt) : Prop := forall pl pl', alike_place pl pl' -> rel_m alike_ending (mean_block l pl) (mean_block l' pl').
  Definition PS (s : stmt) : Prop := forall pl pl', alike_place pl pl' -> rel_m alike_ending (mean_s s pl) (mean_s s pl').
  Definition PB (b : branch) : Prop := forall pl pl', alike_place pl pl' -> rel_m alike_branch (mean_b b pl) (mean_b b pl').

  Lemma does_cons s s' l l' : (forall pl pl', alike_place pl pl' -> rel_m alike_ending (mean_s s pl) (mean_s s' pl')) -> does l l' -> does (s :: l) (s' :: l').
  Proof.
    intros H K pl pl' R. cbn [MeanSpec.mean_block]. eapply rel_bnd; [exact (H pl pl' R)|].
    intros [pl1|v] [pl2|v'] E; cbn [alike_ending] in E; try contradiction; [exact (K pl1 pl2 E)|]. now apply rel_ret.
  Qed.
  Lemma does_nil : does [] [].
  Proof. intros pl pl' R. now apply rel_ret. Qed.
  Lemma does_block l : Forall PS l -> does l l.
  Proof. induction 1 as [|s l H F IH]; [exact does_nil|]. now apply does_cons. Qed.
  Lemma does_one s s' : (forall pl pl', alike_place pl pl' -> rel_m alike_ending (mean_s s pl) (mean_s s' pl')) -> does [s] [s'].
  Proof. intros H. apply does_cons; [exact H|exact does_nil]. Qed.

  Lemma loop_alike x l l' e : does l l' -> forall pl pl', alike_place pl pl' -> rel_m alike_ending (mean_s (SLoop x e l) pl) (mean_s (SLoop x e l') pl').
  Proof.
    intros H pl pl' R. cbn [MeanSpec.mean_s]. eapply rel_bnd; [exact (expr_alike e pl pl' R)|intros v v' ->]. eapply rel_bnd; [apply rel_refl|intros us ? ->].
    revert pl pl' R. induction b as [|u us IHl]; intros pl pl' R; [now apply rel_ret|].
    eapply rel_bnd; [exact (H _ _ (give_alike x u pl pl' R))|].
    intros [pl1|v1] [pl2|v2] E; cbn [alike_ending] in E; try contradiction; [exact (IHl pl1 pl2 E)|]. now apply rel_ret.
  Qed.
  Lemma branch_alike c l l' : does l l' -> forall pl pl', alike_place pl pl' -> rel_m alike_branch (mean_b (Branch c l) pl) (mean_b (Branch c l') pl').
  Proof.
    intros H pl pl' R. cbn [MeanSpec.mean_b]. eapply rel_bnd; [exact (expr_alike c pl pl' R)|intros v v' ->]. eapply rel_bnd; [apply rel_refl|intros t ? ->].
    destruct b; [|now apply rel_ret]. eapply rel_bnd; [exact (H pl pl' R)|]. intros r r' E. now apply rel_ret.
  Qed.
  Lemma if_alike b b' bs els els' :
    (forall pl pl', alike_place pl pl' -> rel_m alike_branch (mean_b b pl) (mean_b b' pl')) -> Forall PB bs ->
    match els, els' with Some l, Some l' => does l l' | None, None => True | _, _ => False end ->
    forall pl pl', alike_place pl pl' -> rel_m alike_ending (mean_s (SIf b bs els) pl) (mean_s (SIf b' bs els') pl').
  Proof.
    intros Hb Hbs He pl pl' R. cbn [MeanSpec.mean_s].
    eapply rel_bnd; [exact (Hb pl pl' R)|]. intros [r|] [r'|] E; cbn [alike_branch] in E; try contradiction; [now apply rel_ret|]. clear E.
    induction Hbs as [|b1 bs H1 Hbs IH].
    - destruct els as [l|], els' as [l'|]; try contradiction; [|now apply rel_ret]. exact (He pl pl' R).
    - eapply rel_bnd; [exact (H1 pl pl' R)|]. intros [r|] [r'|] E; cbn [alike_branch] in E; try contradiction; [now apply rel_ret|]. exact IH.
  Qed.
  Lemma stmts_alike : (forall s, PS s) /\ (forall b, PB b).
  Proof.
    apply stmt_ind2.
    - intros e pl pl' R. cbn [MeanSpec.mean_s]. eapply rel_bnd; [exact (expr_alike e pl pl' R)|intros v v' ->]. step. now apply rel_ret.
    - intros e p ps pl pl' R. cbn [MeanSpec.mean_s]. eapply rel_bnd; [exact (expr_alike e pl pl' R)|intros v v' ->].
      eapply rel_bnd; [exact (text_alike (p :: ps) pl pl' R)|intros t t' ->]. step. now apply rel_ret.
    - intros h hs body IH pl pl' R. cbn [MeanSpec.mean_s]. step. apply rel_ret. cbn [alike_ending].
      apply define_alike; [|exact R]. split; [reflexivity|apply alike_refl].
    - intros x e body IH. exact (loop_alike x body body e (does_block body IH)).
    - intros e pl pl' R. cbn [MeanSpec.mean_s]. eapply rel_bnd; [exact (expr_alike e pl pl' R)|intros v v' ->]. now apply rel_ret.
    - intros p ps e pl pl' R. cbn [MeanSpec.mean_s].
      eapply rel_bnd; [exact (text_alike (p :: ps) pl pl' R)|intros t t' ->]. eapply rel_bnd; [exact (expr_alike e pl pl' R)|intros v v' ->].
      step. now apply rel_ret.
    - intros x e pl pl' R. cbn [MeanSpec.mean_s]. eapply rel_bnd; [exact (expr_alike e pl pl' R)|intros v v' ->]. apply rel_ret. now apply give_alike.
    - intros b bs els IHb IHbs IHels. refine (if_alike b b bs els els IHb IHbs _). destruct els as [l|]; [exact (does_block l IHels)|exact Logic.I].
    - intros c body IH. exact (branch_alike c body body (does_block body IH)).
  Qed.
  Lemma does_refl l : does l l.
  Proof. apply does_block, Forall_forall. intros s _. apply stmts_alike. Qed.

  (** a block that means the same in every place *)
  Lemma does_same l l' : (forall pl w, mean_block l pl w = mean_block l' pl w) -> does l l'.
  Proof.
    intros E pl pl' R. eapply (rel_trans _ _ _ _ _ _ ending_trans); [exact (does_refl l pl pl' R)|]. apply rel_of_same; [exact ending_refl|exact (E pl')].
  Qed.
  Lemma block_app a b pl w : mean_block (a ++ b) pl w =
    (r <== mean_block a pl ;; match r with Onward pl' => mean_block b pl' | Result v => ret (Result v) end) w.
  Proof.
    revert pl w. induction a as [|s a IH]; intros pl w; [reflexivity|]. cbn [app MeanSpec.mean_block]. unfold bnd at 1 2 3.
    destruct (mean_s s pl w) as [[[[pl1|v]|e] w1]|]; [|reflexivity|reflexivity|reflexivity]. exact (IH pl1 w1).
  Qed.
  Lemma does_app a a' b b' : does a a' -> does b b' -> does (a ++ b) (a' ++ b').
  Proof.
    intros H K pl pl' R w. rewrite !block_app. revert w. change (rel_m alike_ending
      (r <== mean_block a pl ;; match r with Onward pl1 => mean_block b pl1 | Result v => ret (Result v) end)
      (r <== mean_block a' pl' ;; match r with Onward pl1 => mean_block b' pl1 | Result v => ret (Result v) end)).
    eapply rel_bnd; [exact (H pl pl' R)|]. intros [pl1|v] [pl2|v'] E; cbn [alike_ending] in E; try contradiction; [exact (K pl1 pl2 E)|]. now apply rel_ret.
  Qed.
  Lemma does_sym l l' : does l l' -> does l' l.
  Proof. intros H pl pl' R. apply (rel_sym _ _ _ _ (fun a b => ending_sym a b)). apply H. now apply place_sym. Qed.
  Lemma does_trans a b c : does a b -> does b c -> does a c.
  Proof. intros H K pl pl' R. exact (rel_trans _ _ _ _ _ _ ending_trans (H pl pl (place_refl pl)) (K pl pl' R)). Qed.
End inside.

(** ** Numbers in the library *)
Definition ints (zs : list Z) : list obj := map oint zs.
Lemma flatten_ints zs : flatten (ints zs) = ints zs.
Proof. unfold flatten, ints. induction zs as [|z zs IH]; [reflexivity|]. cbn [map flat_map]. now rewrite IH. Qed.
Lemma seq_of_ints src zs : flatten src = ints zs -> get_seq src = Ok (OSeq (map vint zs)).
Proof. intros E. rewrite <- (get_seq_ints zs). unfold get_seq. rewrite E. change (map oint zs) with (ints zs). now rewrite flatten_ints. Qed.
Lemma counts_range a b ss : counts a b ss -> map decimal_value ss = map (fun i => (a + Z.of_nat i)%Z) (seq 0 (Z.to_nat (b + 1 - a))).
Proof.
  induction 1 as [a b L|a b s ss L D C IH].
  - replace (Z.to_nat (b + 1 - a)) with O by lia. reflexivity.
  - replace (Z.to_nat (b + 1 - a)) with (S (Z.to_nat (b + 1 - (a + 1)))) by lia. cbn [map seq]. rewrite D, IH, Z.add_0_r. f_equal.
    rewrite <- seq_shift, map_map. apply map_ext. intros i. lia.
Qed.

Lemma range_of_ints a b : myrange (oint a) (oint b) = Ok (map (fun i => (a + Z.of_nat i)%Z) (seq 0 (Z.to_nat (b + 1 - a)))).
Proof.
  change (myrange (oint a) (oint b)) with (Ok (map (fun i => (ntrunc (NI a) + Z.of_nat i)%Z) (seq 0 (Z.to_nat (ntrunc (NI b) + 1 - ntrunc (NI a)))))).
  now rewrite !IntFacts.ntrunc_int.
Qed.

Section library.
  Variable oplib : bool.
  Variable callf : variables (V := obj) -> functions -> fdef -> list obj -> M world obj.
  Notation mean_block := (mean_block library oplib callf).
  Definition elements (pl : place) : list element -> M world (list obj) :=
    fix elements (es : list element) : M world (list obj) :=
    match es with
    | [] => ret []
    | x :: es' => v <== mean_l library oplib callf pl x ;; vs <== elements es' ;; ret (v :: vs)
    end.
  Lemma elements_cons pl x es w : elements pl (x :: es) w = (v <== mean_l library oplib callf pl x ;; vs <== elements pl es ;; ret (v :: vs)) w.
  Proof. reflexivity. Qed.
  Lemma entries_mean es ss pl w : entries es ss -> exists l, elements pl es w = Some (Ok l, w) /\ flatten l = ints (map decimal_value ss).
  Proof.
    induction 1 as [|s es ss E (l & EL & FL)|a b rs es ss C E (l & EL & FL)].
    - exists []. split; reflexivity.
    - exists (oint (decimal_value s) :: l). split.
      + rewrite elements_cons. unfold bnd at 1. change (mean_l library oplib callf pl (LOne (number s)) w) with (Some (Ok (oint (decimal_value s)), w)).
        cbv beta iota. unfold bnd. rewrite EL. reflexivity.
      + unfold flatten in FL |- *. cbn [flat_map flat1 map oint]. rewrite FL. reflexivity.
    - exists (OIter (ints (map decimal_value rs)) :: l). split.
      + rewrite elements_cons. unfold bnd at 1.
        assert (X : mean_l library oplib callf pl (LRange (number a) (number b)) w = Some (Ok (OIter (ints (map decimal_value rs))), w)).
        { transitivity (Some (rmap (fun l => OIter (map oint l)) (myrange (oint (decimal_value a)) (oint (decimal_value b))), w)); [reflexivity|].
          rewrite (counts_range _ _ _ C). rewrite range_of_ints. reflexivity. }
        rewrite X. cbv beta iota. unfold bnd. rewrite EL. reflexivity.
      + unfold flatten in FL |- *. cbn [flat_map flat1]. rewrite FL. rewrite map_app. unfold ints. rewrite map_app. f_equal. exact (flatten_ints (map decimal_value rs)).
  Qed.
  Lemma unrolled x body ss : forall pl w,
    mean_block (flat_map (fun s => SAssign x (number s) :: body) ss) pl w =
    (fix loop (l : list obj) (pl : place) : M world ending :=
       match l with
       | [] => ret (Onward pl)
       | v :: l' =>
           r <== mean_block body (give x v pl) ;;
           match r with Onward pl' => loop l' pl' | Result v => ret (Result v) end
       end) (ints (map decimal_value ss)) pl w.
  Proof.
    induction ss as [|s ss IH]; intros pl w; [reflexivity|]. cbn [flat_map app]. 
    transitivity (mean_block (body ++ flat_map (fun s => SAssign x (number s) :: body) ss) (give x (oint (decimal_value s)) pl) w); [reflexivity|].
    rewrite block_app. cbn [map ints]. unfold bnd. change (fun z : Z => oint z) with oint.
    destruct (mean_block body (give x (oint (decimal_value s)) pl) w) as [[[[pl1|v]|e] w1]|]; try reflexivity. exact (IH pl1 w1).
  Qed.
  Lemma unroll_same x es ss body pl w : entries es ss ->
    mean_block [SLoop x (ETerm (TSeq es)) body] pl w = mean_block (flat_map (fun s => SAssign x (number s) :: body) ss) pl w.
  Proof.
    intros E. destruct (entries_mean es ss pl w E) as (l & EL & FL). rewrite unrolled.
    assert (X : mean_e library oplib callf pl (ETerm (TSeq es)) w = Some (Ok (OSeq (map vint (map decimal_value ss))), w)).
    { transitivity ((l <== elements pl es ;; rt_seq library (rt_list library l)) w); [reflexivity|]. unfold bnd. rewrite EL.
      change (rt_seq library (rt_list library l) w) with (Some (get_seq [OIter l], w)). rewrite (seq_of_ints [OIter l] (map decimal_value ss)); [reflexivity|].
      unfold flatten in FL |- *. cbn [flat_map flat1]. rewrite app_nil_r. exact FL. }
    cbn [MeanSpec.mean_block MeanSpec.mean_s]. unfold bnd at 1. unfold bnd at 1. rewrite X. cbv beta iota. unfold bnd at 1.
    change (rt_iter library (OSeq (map vint (map decimal_value ss))) w) with (Some (Ok (map OV (map vint (map decimal_value ss))), w)). cbv beta iota.
    replace (map OV (map vint (map decimal_value ss))) with (ints (map decimal_value ss)) by (unfold ints; rewrite (map_map vint OV); reflexivity).
    match goal with |- match ?a with _ => _ end = ?b => change a with b; destruct b as [[[[pl1|v]|e] w1]|] end; reflexivity.
  Qed.
  Lemma unrolled_letters x body l : forall pl w,
    mean_block (flat_map (fun a => SAssign x (quoted (String a EmptyString)) :: body) l) pl w =
    (fix loop (l : list obj) (pl : place) : M world ending :=
       match l with
       | [] => ret (Onward pl)
       | v :: l' =>
           r <== mean_block body (give x v pl) ;;
           match r with Onward pl' => loop l' pl' | Result v => ret (Result v) end
       end) (map (fun a => OStr (String a EmptyString)) l) pl w.
  Proof.
    induction l as [|a l IH]; intros pl w; [reflexivity|]. cbn [flat_map app].
    transitivity (mean_block (body ++ flat_map (fun a => SAssign x (quoted (String a EmptyString)) :: body) l) (give x (OStr (String a EmptyString)) pl) w); [reflexivity|].
    rewrite block_app. cbn [map]. unfold bnd.
    destruct (mean_block body (give x (OStr (String a EmptyString)) pl) w) as [[[[pl1|v]|e] w1]|]; try reflexivity. exact (IH pl1 w1).
  Qed.
  Lemma no_more s : (s ++ "")%string = s.
  Proof. induction s as [|a s IH]; [reflexivity|]. cbn [String.append]. now rewrite IH. Qed.
  Lemma letters_same x s body pl w :
    mean_block [SLoop x (quoted s) body] pl w =
    mean_block (flat_map (fun a => SAssign x (quoted (String a EmptyString)) :: body) (list_ascii_of_string s)) pl w.
  Proof.
    rewrite unrolled_letters.
    assert (X : mean_e library oplib callf pl (quoted s) w = Some (Ok (OStr s), w)).
    { transitivity (Some (Ok (OStr (s ++ "")%string), w)); [reflexivity|]. now rewrite no_more. }
    cbn [MeanSpec.mean_block MeanSpec.mean_s]. unfold bnd at 1. unfold bnd at 1. rewrite X. cbv beta iota. unfold bnd at 1.
    change (rt_iter library (OStr s) w) with (Some (Ok (map (fun a => OStr (String a EmptyString)) (list_ascii_of_string s)), w)). cbv beta iota.
    match goal with |- match ?a with _ => _ end = ?b => change a with b; destruct b as [[[[pl1|v]|e] w1]|] end; reflexivity.
  Qed.
End library.

(** ** The rules hold *)
Section rules.
  Variable oplib : bool.
  Variable callf : variables (V := obj) -> functions -> fdef -> list obj -> M world obj.
  Hypothesis call_alike : forall gs fs fs' d d' l, alike_fs fs fs' -> alike_def d d' -> rel_m eq (callf gs fs d l) (callf gs fs' d' l).
  Notation mean_block := (mean_block library oplib callf). Notation mean_s := (mean_s library oplib callf). Notation mean_b := (mean_b library oplib callf).
  Notation does := (does library oplib callf).

  Lemma one_mean s pl w : mean_block [s] pl w = mean_s s pl w.
  Proof. cbn [MeanSpec.mean_block]. unfold bnd. destruct (mean_s s pl w) as [[[[pl1|v]|e] w1]|]; reflexivity. Qed.
  Lemma branch_number s body pl w : mean_b (Branch (number s) body) pl w =
    if Z.eqb (decimal_value s) 0 then Some (Ok None, w) else (r <== mean_block body pl ;; ret (Some r)) w.
  Proof.
    change (mean_b (Branch (number s) body) pl w) with ((t <== lift (truth (oint (decimal_value s))) ;;
      if t : bool then (r <== mean_block body pl ;; ret (Some r)) else ret None) w).
    replace (truth (oint (decimal_value s))) with (Ok (negb (Z.eqb (decimal_value s) 0))).
    - unfold bnd at 1. unfold lift. destruct (Z.eqb (decimal_value s) 0); reflexivity.
    - destruct (decimal_value s); reflexivity.
  Qed.
  Lemma if_mean b bs els pl w : mean_s (SIf b bs els) pl w =
    (r <== mean_b b pl ;; match r with
       | Some end_ => ret end_
       | None => match bs with
                 | [] => match els with Some l => mean_block l pl | None => ret (Onward pl) end
                 | b1 :: bs' => mean_s (SIf b1 bs' els) pl
                 end
       end) w.
  Proof. destruct bs; reflexivity. Qed.
  Lemma same_tree_does (f : expr -> stmt) e e' :
    (forall pl w, (forall w, mean_e library oplib callf pl e w = mean_e library oplib callf pl e' w) -> mean_s (f e) pl w = mean_s (f e') pl w) ->
    same_tree e e' -> does [f e] [f e'].
  Proof. intros H T. apply does_same; [exact call_alike|]. intros pl w. rewrite !one_mean. apply H. intros w0. now apply same_tree_means. Qed.
  Lemma bnd_same {A B} (m m' : M world A) (f : A -> M world B) w : (forall w, m w = m' w) -> bnd m f w = bnd m' f w.
  Proof. intros E. unfold bnd. now rewrite E. Qed.
  Lemma bnd_inner {A B} (m : M world A) (f g : A -> M world B) w : (forall a w, f a w = g a w) -> bnd m f w = bnd m g w.
  Proof. intros E. unfold bnd. destruct (m w) as [[[a|e] w1]|]; auto. Qed.

  Theorem alike_does l l' : alike l l' -> does l l'.
  Proof.
    induction 1 as [x es ss body E|x s body|s body bs els N|s body b bs els N|s body els N|e l|b b1 bs els|b bs
      |e e' T|e e' p ps T|e e' T|p ps e e' T|x e e' T|x e e' body T|c c' body bs els T
      |h hs l l' A IH|x e l l' A IH|c l l' bs els A IH|b l l' A IH|a a' b b' A IHa B IHb|l|l l' A IH|a b c A IHa B IHb].
    - apply does_same; [exact call_alike|]. intros pl w. now apply unroll_same.
    - apply does_same; [exact call_alike|]. intros pl w. apply letters_same.
    - apply does_same; [exact call_alike|]. intros pl w. rewrite one_mean, if_mean. unfold bnd at 1. rewrite branch_number.
      destruct (Z.eqb_spec (decimal_value s) 0) as [Z|_]; [contradiction|]. unfold bnd. destruct (mean_block body pl w) as [[[r|e] w1]|]; reflexivity.
    - apply does_same; [exact call_alike|]. intros pl w. rewrite !one_mean, if_mean. unfold bnd at 1. rewrite branch_number.
      destruct (Z.eqb_spec (decimal_value s) 0) as [_|Z]; [reflexivity|contradiction].
    - apply does_same; [exact call_alike|]. intros pl w. rewrite one_mean, if_mean. unfold bnd at 1. rewrite branch_number.
      destruct (Z.eqb_spec (decimal_value s) 0) as [_|Z]; [destruct els; reflexivity|contradiction].
    - apply does_same; [exact call_alike|]. intros pl w. cbn [MeanSpec.mean_block MeanSpec.mean_s]. unfold bnd.
      destruct (mean_e library oplib callf pl e w) as [[[v|er] w1]|]; reflexivity.
    - apply does_same; [exact call_alike|]. intros pl w. rewrite !one_mean.
      change (mean_s (SIf b [] (Some [SIf b1 bs els])) pl w) with
        ((r <== mean_b b pl ;; match r with Some end_ => ret end_ | None => mean_block [SIf b1 bs els] pl end) w).
      change (mean_s (SIf b (b1 :: bs) els) pl w) with
        ((r <== mean_b b pl ;; match r with Some end_ => ret end_ | None => mean_s (SIf b1 bs els) pl end) w).
      apply bnd_inner. intros [r|] w1; [reflexivity|]. symmetry. apply one_mean.
    - apply does_same; [exact call_alike|]. reflexivity.
    - apply (same_tree_does SOutput); [|exact T]. intros pl w H. cbn [MeanSpec.mean_s]. now apply bnd_same.
    - apply (same_tree_does (fun e => SNamed e p ps)); [|exact T]. intros pl w H. cbn [MeanSpec.mean_s]. now apply bnd_same.
    - apply (same_tree_does SResult); [|exact T]. intros pl w H. cbn [MeanSpec.mean_s]. now apply bnd_same.
    - apply (same_tree_does (fun e => SSet p ps e)); [|exact T]. intros pl w H. cbn [MeanSpec.mean_s]. apply bnd_inner. intros t w1. now apply bnd_same.
    - apply (same_tree_does (fun e => SAssign x e)); [|exact T]. intros pl w H. cbn [MeanSpec.mean_s]. now apply bnd_same.
    - apply (same_tree_does (fun e => SLoop x e body)); [|exact T]. intros pl w H. cbn [MeanSpec.mean_s]. now apply bnd_same.
    - apply (same_tree_does (fun c => SIf (Branch c body) bs els)); [|exact T]. intros pl w H. rewrite !if_mean. apply bnd_same.
      intros w1. cbn [MeanSpec.mean_b]. now apply bnd_same.
    - apply does_one. intros pl pl' R. cbn [MeanSpec.mean_s]. eapply rel_bnd; [apply rel_refl|intros ks ? ->]. apply rel_ret. cbn [alike_ending].
      apply define_alike; [|exact R]. split; [reflexivity|exact A].
    - apply does_one. now apply loop_alike.
    - apply does_one. apply if_alike; [now apply branch_alike| |].
      + apply Forall_forall. intros b1 _. apply stmts_alike. exact call_alike.
      + destruct els as [l1|]; [now apply does_refl|exact Logic.I].
    - apply does_one. apply if_alike; [|constructor|exact IH]. intros pl pl' R. now apply stmts_alike.
    - now apply does_app.
    - now apply does_refl.
    - now apply does_sym.
    - exact (does_trans _ _ _ _ _ _ IHa IHb).
  Qed.
End rules.

Lemma calls_alike oplib fuel : forall gs fs fs' d d' l, alike_fs fs fs' -> alike_def d d' ->
  rel_m eq (call_defined library oplib fuel gs fs d l) (call_defined library oplib fuel gs fs' d' l).
Proof.
  induction fuel as [|n IH]; intros gs fs fs' d d' l F D; [intros w; exact Logic.I|]. cbn [call_defined].
  destruct D as (P & B). rewrite P. eapply rel_bnd; [apply rel_refl|intros ks ? ->].
  apply rel_same. intros w. apply rt_call_ext. intros args w0. revert w0. apply rel_same. unfold mean_body. rewrite P.
  destruct (give_all (d_params d) args) as [own|]; [|apply rel_refl].
  eapply (rel_bnd alike_ending).
  - apply (alike_does oplib _ IH _ _ B). split; [reflexivity|split; [reflexivity|exact F]].
  - intros [pl1|v] [pl2|v'] E; cbn [alike_ending] in E; try contradiction; apply rel_ret; [reflexivity|exact E].
Qed.

Theorem alike_means oplib lib fuel p p' w : alike p p' ->
  mean_program library oplib lib fuel p' w = mean_program library oplib lib fuel p w.
Proof.
  intros A. symmetry. revert w. apply rel_same. unfold mean_program. eapply (rel_bnd alike_ending).
  - apply (alike_does oplib _ (calls_alike oplib fuel) _ _ A). apply place_refl.
  - intros r r' _. apply rel_refl.
Qed.
