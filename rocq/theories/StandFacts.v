(** Proofs about variables that have one value throughout a program. *)
From Coq Require Import String List Bool.
From Verif Require Import PyBase LexModel ParseModel SynSpec SynInd NameSpec Runtime MeanSpec SemFacts SemLaws SameFacts StandSpec.
Import ListNotations.
Open Scope list_scope.
Open Scope run_scope.

Section stand.
  Context {V W : Type} (rt : runtime V W).
  Variable oplib : bool.
  Variables (x : string) (t : term) (v : V).
  Notation use_e := (use_e x t). Notation use_t := (use_t x t). Notation use_l := (use_l x t). Notation use_c := (use_c x t).
  Notation use_s := (use_s x t). Notation use_b := (use_b x t).

  Definition st_def (d d' : fdef) : Prop :=
    d_params d' = d_params d /\ ~ In x (map fst (d_params d)) /\ d_body d' = map use_s (d_body d) /\ forallb (fixed_s x) (d_body d) = true.
  Definition st_callee (c c' : res callee) : Prop :=
    match c, c' with
    | Ok (Defined d), Ok (Defined d') => st_def d d'
    | Ok (Library g), Ok (Library g') => g = g'
    | Err e, Err e' => e = e'
    | _, _ => False
    end.
  Definition st_fs (fs fs' : functions) : Prop := forall s, st_callee (find_function s fs) (find_function s fs').
  Definition st_place (pl pl' : @place V) : Prop :=
    pl_globals pl' = pl_globals pl /\ pl_own pl' = pl_own pl /\ st_fs (pl_functions pl) (pl_functions pl') /\
    variable_in x (pl_globals pl) = Some v /\ match pl_own pl with Some own => variable_in x own = None | None => True end.

  (** ** Variables *)
  Lemma find_st y pl pl' : st_place pl pl' -> find_variable y pl' = find_variable y pl.
  Proof. intros (G & O & _). unfold find_variable. now rewrite G, O. Qed.
  Lemma find_x pl pl' : st_place pl pl' -> find_variable x pl = Ok v.
  Proof. intros (_ & _ & _ & G & O). unfold find_variable. destruct (pl_own pl); [rewrite O|]; now rewrite G. Qed.
  Lemma give_st y u pl pl' : String.eqb x y = false -> st_place pl pl' -> st_place (give y u pl) (give y u pl').
  Proof.
    intros E (G & O & F & X & Y). unfold give. rewrite O. destruct (pl_own pl) as [own|];
      (split; [|split; [|split; [exact F|split]]]); cbn [pl_globals pl_own variable_in]; rewrite ?E, ?G; trivial.
  Qed.
  Lemma text_st ps pl pl' : st_place pl pl' -> rel_m eq (text rt pl ps) (text rt pl' ps).
  Proof.
    intros R. induction ps as [|[s|s|y] ps IH]; cbn [text].
    - apply rel_refl.
    - eapply rel_bnd; [exact IH|]. intros a b ->. apply rel_refl.
    - eapply rel_bnd; [exact IH|]. intros a b ->. apply rel_refl.
    - rewrite (find_st y pl pl' R). eapply rel_bnd; [apply rel_refl|]. intros a b ->. eapply rel_bnd; [apply rel_refl|]. intros u w ->.
      eapply rel_bnd; [exact IH|]. intros a c ->. apply rel_refl.
  Qed.

  (** ** Expressions *)
  Variables (callf callf' : variables (V := V) -> functions -> fdef -> list V -> M W V).
  Hypothesis stands_for : forall pl w, mean_t rt oplib callf' pl t w = Some (Ok v, w).
  Hypothesis call_st : forall gs fs fs' d d' l, st_fs fs fs' -> st_def d d' -> variable_in x gs = Some v ->
    rel_m eq (callf gs fs d l) (callf' gs fs' d' l).

  Lemma shape_st cs : call_shape (map use_c cs) = call_shape cs.
  Proof. unfold call_shape. rewrite map_map. apply map_ext. intros [w|e]; reflexivity. Qed.

  Ltac step := eapply rel_bnd; [solve [apply rel_refl | eauto]|intros ? ? ->].

  Lemma exprs_st :
    (forall e pl pl', st_place pl pl' -> rel_m eq (mean_e rt oplib callf pl e) (mean_e rt oplib callf' pl' (use_e e))) /\
    (forall u pl pl', st_place pl pl' -> rel_m eq (mean_t rt oplib callf pl u) (mean_t rt oplib callf' pl' (use_t u))) /\
    (forall l pl pl', st_place pl pl' -> rel_m eq (mean_l rt oplib callf pl l) (mean_l rt oplib callf' pl' (use_l l))) /\
    (forall c pl pl', st_place pl pl' -> rel_m eq (mean_c rt oplib callf pl c) (mean_c rt oplib callf' pl' (use_c c))).
  Proof.
    apply syn_ind.
    - intros o l r IHl IHr pl pl' R. cbn [StandSpec.use_e mean_e]. step. step. apply rel_refl.
    - intros n d IHn IHd pl pl' R. cbn [StandSpec.use_e mean_e]. step. step. apply rel_refl.
    - intros d IH pl pl' R. cbn [StandSpec.use_e mean_e]. step. apply rel_refl.
    - intros u IH pl pl' R. exact (IH pl pl' R).
    - intros s pl pl' R. apply rel_refl.
    - intros a b pl pl' R. apply rel_refl.
    - intros y pl pl' R. cbn [StandSpec.use_t]. destruct (String.eqb_spec x y) as [<-|_].
      + intros w. cbn [mean_t]. rewrite (find_x pl pl' R), (stands_for pl' w). cbn. auto.
      + cbn [mean_t]. rewrite (find_st y pl pl' R). apply rel_refl.
    - intros p ps pl pl' R. cbn [StandSpec.use_t mean_t]. eapply rel_bnd; [exact (text_st (p :: ps) pl pl' R)|]. intros a b ->. apply rel_refl.
    - intros es IH pl pl' R. cbn [StandSpec.use_t mean_t]. eapply rel_bnd; [|intros a b ->; apply rel_refl].
      induction IH as [|l es Hl IH IHes]; cbn [map]; [apply rel_refl|].
      step. eapply rel_bnd; [exact IHes|intros ? ? ->]. apply rel_refl.
    - intros e IH pl pl' R. exact (IH pl pl' R).
    - intros cs IH pl pl' R. cbn [StandSpec.use_t mean_t]. rewrite shape_st.
      pose proof (proj1 (proj2 (proj2 R)) (call_shape cs)) as F.
      eapply (rel_bnd (fun c c' => st_callee (Ok c) (Ok c'))).
      { intros w. unfold lift. destruct (find_function (call_shape cs) (pl_functions pl)) as [c|e],
          (find_function (call_shape cs) (pl_functions pl')) as [c'|e']; cbn [st_callee] in F |- *.
        - split; [reflexivity|exact F].
        - destruct c; contradiction.
        - contradiction.
        - split; [reflexivity|exact F]. }
      clear F. intros c c' F. eapply rel_bnd with (R := eq).
      { induction IH as [|a cs Ha IH IHcs]; cbn [map]; [apply rel_refl|].
        step. eapply rel_bnd; [exact IHcs|intros ? ? ->]. apply rel_refl. }
      intros l l' ->. destruct c as [d|g], c' as [d'|g']; cbn [st_callee] in F; try contradiction.
      + destruct R as (G & _ & Fs & X & _). rewrite G. now apply call_st.
      + subst g'. apply rel_refl.
    - intros o u IH pl pl' R. cbn [StandSpec.use_t mean_t]. step. apply rel_refl.
    - intros u IH pl pl' R. cbn [StandSpec.use_t mean_t]. step. apply rel_refl.
    - intros e IH pl pl' R. exact (IH pl pl' R).
    - intros a b IHa IHb pl pl' R. cbn [StandSpec.use_l mean_l]. step. step. apply rel_refl.
    - intros w pl pl' R. apply rel_refl.
    - intros e IH pl pl' R. cbn [StandSpec.use_c mean_c]. step. apply rel_refl.
  Qed.
  Definition expr_st e := proj1 exprs_st e.

  (** ** Statements *)
  Definition st_ending (r r' : @ending V) : Prop :=
    match r, r' with
    | Onward pl, Onward pl' => st_place pl pl'
    | Result u, Result u' => u = u'
    | _, _ => False
    end.
  Definition st_branch (r r' : option (@ending V)) : Prop :=
    match r, r' with
    | Some e, Some e' => st_ending e e'
    | None, None => True
    | _, _ => False
    end.
  Notation mean_s := (mean_s rt oplib). Notation mean_b := (mean_b rt oplib). Notation mean_block := (mean_block rt oplib).

  Lemma st_fs_define s d d' fs fs' : st_def d d' -> st_fs fs fs' -> st_fs ((s, Defined d) :: fs) ((s, Defined d') :: fs').
  Proof. intros D F u. cbn [find_function]. destruct (shape_eqb u s); [exact D|exact (F u)]. Qed.

  Definition PS (s : stmt) : Prop := forall pl pl', fixed_s x s = true -> st_place pl pl' ->
    rel_m st_ending (mean_s callf s pl) (mean_s callf' (use_s s) pl').
  Definition PB (b : branch) : Prop := forall pl pl', fixed_b x b = true -> st_place pl pl' ->
    rel_m st_branch (mean_b callf b pl) (mean_b callf' (use_b b) pl').

  Lemma block_st l : Forall PS l -> forall pl pl', forallb (fixed_s x) l = true -> st_place pl pl' ->
    rel_m st_ending (mean_block callf l pl) (mean_block callf' (map use_s l) pl').
  Proof.
    induction 1 as [|s l Hs Hl IH]; intros pl pl' A R; [now apply rel_ret|].
    cbn [forallb] in A. apply andb_true_iff in A. destruct A as [A B]. cbn [map MeanSpec.mean_block].
    eapply rel_bnd; [exact (Hs pl pl' A R)|].
    intros [pl1|u] [pl2|u'] E; cbn [st_ending] in E; try contradiction; [exact (IH pl1 pl2 B E)|]. now apply rel_ret.
  Qed.

  Lemma not_param ps : negb (existsb (String.eqb x) ps) = true -> ~ In x ps.
  Proof.
    intros H I. apply negb_true_iff in H. assert (X : existsb (String.eqb x) ps = true); [|congruence].
    apply existsb_exists. exists x. split; [exact I|apply String.eqb_refl].
  Qed.

  Lemma stmts_st : (forall s, PS s) /\ (forall b, PB b).
  Proof.
    apply stmt_ind2.
    - intros e pl pl' A R. cbn [StandSpec.use_s MeanSpec.mean_s].
      eapply rel_bnd; [exact (expr_st e pl pl' R)|intros u u' ->]. eapply rel_bnd; [apply rel_refl|intros ? ? ->]. now apply rel_ret.
    - intros e p ps pl pl' A R. cbn [StandSpec.use_s MeanSpec.mean_s].
      eapply rel_bnd; [exact (expr_st e pl pl' R)|intros u u' ->]. eapply rel_bnd; [exact (text_st (p :: ps) pl pl' R)|intros ? ? ->].
      eapply rel_bnd; [apply rel_refl|intros ? ? ->]. now apply rel_ret.
    - intros h hs body IH pl pl' A R. cbn [fixed_s] in A. apply andb_true_iff in A. destruct A as [A B].
      cbn [StandSpec.use_s MeanSpec.mean_s].
      eapply rel_bnd; [apply rel_refl|intros ks ? ->]. apply rel_ret. cbn [st_ending].
      destruct R as (G & O & F & X). split; [exact G|split; [exact O|split; [|exact X]]]. apply st_fs_define; [|exact F].
      split; [reflexivity|]. split; [now apply not_param|]. split; [reflexivity|exact B].
    - intros y e body IH pl pl' A R. cbn [fixed_s] in A. apply andb_true_iff in A. destruct A as [A B]. apply negb_true_iff in A.
      cbn [StandSpec.use_s MeanSpec.mean_s].
      eapply rel_bnd; [exact (expr_st e pl pl' R)|intros u u' ->]. eapply rel_bnd; [apply rel_refl|intros l l' ->].
      revert pl pl' R. induction l' as [|z l IHl]; intros pl pl' R; [now apply rel_ret|].
      eapply rel_bnd.
      + exact (block_st body IH _ _ B (give_st y z pl pl' A R)).
      + intros [pl1|v1] [pl2|v2] E; cbn [st_ending] in E; try contradiction; [exact (IHl pl1 pl2 E)|]. now apply rel_ret.
    - intros e pl pl' A R. cbn [StandSpec.use_s MeanSpec.mean_s].
      eapply rel_bnd; [exact (expr_st e pl pl' R)|intros u u' ->]. now apply rel_ret.
    - intros p ps e pl pl' A R. cbn [StandSpec.use_s MeanSpec.mean_s].
      eapply rel_bnd; [exact (text_st (p :: ps) pl pl' R)|intros ? ? ->]. eapply rel_bnd; [exact (expr_st e pl pl' R)|intros u u' ->].
      eapply rel_bnd; [apply rel_refl|intros ? ? ->]. now apply rel_ret.
    - intros y e pl pl' A R. cbn [fixed_s] in A. apply negb_true_iff in A. cbn [StandSpec.use_s MeanSpec.mean_s].
      eapply rel_bnd; [exact (expr_st e pl pl' R)|intros u u' ->]. apply rel_ret. now apply give_st.
    - intros b bs els IHb IHbs IHels pl pl' A R. cbn [fixed_s] in A. apply andb_true_iff in A. destruct A as [A C]. apply andb_true_iff in A. destruct A as [A B].
      cbn [StandSpec.use_s MeanSpec.mean_s].
      eapply rel_bnd; [exact (IHb pl pl' A R)|]. intros [r|] [r'|] E; cbn [st_branch] in E; try contradiction; [now apply rel_ret|]. clear A E.
      induction IHbs as [|b1 bs Hb IHbs IH].
      + cbn [map]. destruct els as [body|]; cbn [option_map]; [|now apply rel_ret]. exact (block_st body IHels pl pl' C R).
      + cbn [forallb] in B. apply andb_true_iff in B. destruct B as [B1 B2]. cbn [map].
        eapply rel_bnd; [exact (Hb pl pl' B1 R)|]. intros [r|] [r'|] E; cbn [st_branch] in E; try contradiction; [now apply rel_ret|]. exact (IH B2).
    - intros c body IH pl pl' A R. cbn [fixed_b] in A. cbn [StandSpec.use_b MeanSpec.mean_b].
      eapply rel_bnd; [exact (expr_st c pl pl' R)|intros u u' ->]. eapply rel_bnd; [apply rel_refl|intros q ? ->].
      destruct b; [|now apply rel_ret]. eapply rel_bnd.
      + exact (block_st body IH pl pl' A R).
      + intros r r' E. now apply rel_ret.
  Qed.
  Lemma program_st l pl pl' : forallb (fixed_s x) l = true -> st_place pl pl' ->
    rel_m st_ending (mean_block callf l pl) (mean_block callf' (map use_s l) pl').
  Proof. apply block_st, Forall_forall. intros s _. apply stmts_st. Qed.
End stand.

(** ** Calls, and whole programs *)
Section programs.
  Context {V W : Type} (rt : runtime V W).
  Variable oplib : bool.
  Variables (x : string) (t : term).
  (** [t] does not depend on where it stands, and changes nothing *)
  Variable r : res V.
  Hypothesis constant : forall callf pl w, mean_t rt oplib callf pl t w = Some (r, w).

  Lemma own_without ps (l : list V) own : ~ In x (map fst ps) -> give_all ps l = Some own -> variable_in x own = None.
  Proof.
    revert l own. induction ps as [|[y ty] ps IH]; intros [|u l] own N E; try discriminate E; [injection E as <-; reflexivity|].
    cbn [give_all fst] in E. destruct (give_all ps l) as [own'|] eqn:G; [|discriminate E]. injection E as <-. cbn [variable_in].
    cbn [map fst] in N. destruct (String.eqb_spec x y) as [->|_]; [exfalso; apply N; now left|].
    apply (IH l own'); [|exact G]. intros I. apply N. now right.
  Qed.
  Lemma calls_st v fuel : r = Ok v -> forall gs fs fs' d d' l, st_fs x t fs fs' -> st_def x t d d' -> variable_in x gs = Some v ->
    rel_m eq (call_defined rt oplib fuel gs fs d l) (call_defined rt oplib fuel gs fs' d' l).
  Proof.
    intros Ev. induction fuel as [|n IH]; intros gs fs fs' d d' l F D X; [intros w; exact Logic.I|]. cbn [call_defined].
    destruct D as (P & N & B & A). rewrite P. eapply rel_bnd; [apply rel_refl|intros ks ? ->].
    apply rel_same. intros w. apply rt_call_ext. intros args w0. revert w0. apply rel_same. unfold mean_body. rewrite P.
    destruct (give_all (d_params d) args) as [own|] eqn:G; [|apply rel_refl].
    eapply (rel_bnd (st_ending x t v)).
    - rewrite B. apply program_st; [|exact IH|exact A|].
      + intros pl w0. rewrite constant, Ev. reflexivity.
      + split; [reflexivity|split; [reflexivity|split; [exact F|split; [exact X|]]]]. exact (own_without _ _ _ N G).
    - intros [pl1|u] [pl2|u'] E; cbn [st_ending] in E; try contradiction; apply rel_ret; [reflexivity|exact E].
  Qed.
  Lemma st_library (lib : bool) : st_fs x t (if lib then library_functions else []) (if lib then library_functions else []).
  Proof.
    intros s. destruct lib; [|reflexivity]. pose proof (library_only s) as L.
    destruct (find_function s library_functions) as [[d|g]|e]; cbn [st_callee]; try reflexivity. exfalso. exact (L d eq_refl).
  Qed.

  Lemma assigned cf p pl w : mean_block rt oplib cf (SAssign x (ETerm t) :: p) pl w =
    match r with Ok v => mean_block rt oplib cf p (give x v pl) w | Err e => Some (Err e, w) end.
  Proof.
    change (bnd (bnd (mean_t rt oplib cf pl t) (fun v => ret (Onward (give x v pl))))
      (fun r => match r with Onward pl' => mean_block rt oplib cf p pl' | Result v => ret (Result v) end) w = 
      match r with Ok v => mean_block rt oplib cf p (give x v pl) w | Err e => Some (Err e, w) end).
    pose proof (constant cf pl w) as C. revert C. generalize (mean_t rt oplib cf pl t). intros m C.
    unfold bnd. rewrite C. destruct r; reflexivity.
  Qed.
  Theorem used_means_for lib fuel p w : fixed x p = true ->
    mean_program rt oplib lib fuel (SAssign x (ETerm t) :: used x t p) w = mean_program rt oplib lib fuel (SAssign x (ETerm t) :: p) w.
  Proof.
    intros A. symmetry. revert w. apply rel_same. unfold mean_program.
    apply (rel_bnd (fun _ _ => True)); [|intros a b _; apply rel_refl]. intros w. rewrite !assigned.
    assert (D : (exists v, r = Ok v) \/ exists e, r = Err e) by (clear; destruct r; eauto).
    destruct D as [[v Er]|[e Er]]; rewrite !Er; [|auto].
    assert (K : rel_m (st_ending x t v)
      (mean_block rt oplib (call_defined rt oplib fuel) p (give x v (mkPlace [] (if lib then library_functions else []) None)))
      (mean_block rt oplib (call_defined rt oplib fuel) (used x t p) (give x v (mkPlace [] (if lib then library_functions else []) None)))).
    { apply program_st; [|exact (calls_st v fuel Er)|exact A|].
      - intros pl w0. rewrite constant, Er. reflexivity.
      - split; [reflexivity|split; [reflexivity|split; [apply st_library|split; [|exact Logic.I]]]]. cbn [give pl_own pl_globals variable_in]. now rewrite String.eqb_refl. }
    specialize (K w). revert K.
    destruct (mean_block rt oplib (call_defined rt oplib fuel) p _ w) as [[[a|e] w1]|],
      (mean_block rt oplib (call_defined rt oplib fuel) (used x t p) _ w) as [[[b|e'] w2]|]; auto. intros [-> _]. auto.
  Qed.
End programs.

Theorem numeral_means {V W} (rt : runtime V W) oplib lib fuel x t p w : is_numeral t = true -> fixed x p = true ->
  mean_program rt oplib lib fuel (SAssign x (ETerm t) :: used x t p) w = mean_program rt oplib lib fuel (SAssign x (ETerm t) :: p) w.
Proof.
  intros N A. destruct t as [s|a b| | | | | | |]; try discriminate N.
  - apply (used_means_for rt oplib x (TNum s) (Ok (rt_int rt (decimal_value s)))); [reflexivity|exact A].
  - apply (used_means_for rt oplib x (TDec a b) (rt_float rt (decimal_value (a ++ b)) (String.length b))); [|exact A].
    intros callf pl w0. reflexivity.
Qed.
