(** Proofs about changes to a program that make no difference. *)
From Coq Require Import String List Bool Permutation.
From Verif Require Import PyBase LexModel ParseModel SynSpec SynInd NameSpec Runtime MeanSpec SemFacts SemLaws SameSpec.
Import ListNotations.
Open Scope list_scope.
Open Scope run_scope.

(** ** Two runs side by side *)
Section related.
  Context {W : Type}.
  Definition rel_m {A B : Type} (R : A -> B -> Prop) (m : M W A) (m' : M W B) : Prop :=
    forall w, match m w, m' w with
              | None, None => True
              | Some (Ok a, w1), Some (Ok b, w2) => w1 = w2 /\ R a b
              | Some (Err e, w1), Some (Err e', w2) => w1 = w2 /\ e = e'
              | _, _ => False
              end.
  Lemma rel_bnd {A B C D} (R : A -> B -> Prop) (S : C -> D -> Prop) m m' f f' :
    rel_m R m m' -> (forall a b, R a b -> rel_m S (f a) (f' b)) -> rel_m S (bnd m f) (bnd m' f').
  Proof.
    intros H K w. specialize (H w). unfold bnd.
    destruct (m w) as [[[a|e] w1]|], (m' w) as [[[b|e'] w2]|]; try contradiction; [|exact H|exact Logic.I].
    destruct H as [-> H]. exact (K a b H w2).
  Qed.
  Lemma rel_refl {A} (m : M W A) : rel_m eq m m.
  Proof. intros w. destruct (m w) as [[[a|e] w1]|]; auto. Qed.
  Lemma rel_ret {A B} (R : A -> B -> Prop) a b : R a b -> rel_m R (ret a) (ret b).
  Proof. intros H w. now split. Qed.
  Lemma rel_same {A} (m m' : M W A) : rel_m eq m m' <-> forall w, m w = m' w.
  Proof.
    split; intros H w.
    - specialize (H w). destruct (m w) as [[[a|e] w1]|], (m' w) as [[[b|e'] w2]|]; try contradiction; [| |reflexivity]; destruct H as [-> ->]; reflexivity.
    - rewrite (H w). exact (rel_refl m' w).
  Qed.
End related.

Section same.
  Context {V W : Type} (rt : runtime V W).
  Variable oplib : bool.
  Variable name : string -> string.
  Hypothesis name_inj : forall x y, name x = name y -> x = y.
  Variable dead : shape -> bool.
  Notation new_e := (new_e name). Notation new_t := (new_t name). Notation new_l := (new_l name). Notation new_c := (new_c name).
  Notation new_h := (new_h name). Notation new_part := (new_part name).
  Notation new_s := (new_s name dead). Notation new_b := (new_b name dead). Notation new_block := (new_program name dead).

  Definition alive (l : list shape) : Prop := forall s, In s l -> dead s = false.
  Lemma alive_app a b : alive (a ++ b) -> alive a /\ alive b.
  Proof. intros H. split; intros s I; apply H, in_or_app; auto. Qed.
  Lemma alive_flat {A} (f : A -> list shape) l x : alive (flat_map f l) -> In x l -> alive (f x).
  Proof. intros H I s J. apply H, in_flat_map. now exists x. Qed.

  Definition new_vars (vs : variables (V := V)) : variables := map (fun p => (name (fst p), snd p)) vs.
  Definition rel_def (d d' : fdef) : Prop :=
    d_params d' = map (fun p => (name (fst p), snd p)) (d_params d) /\ d_body d' = new_block (d_body d) /\
    alive (calls (d_body d')).
  Definition rel_callee (c c' : res callee) : Prop :=
    match c, c' with
    | Ok (Defined d), Ok (Defined d') => rel_def d d'
    | Ok (Library g), Ok (Library g') => g = g'
    | Err e, Err e' => e = e'
    | _, _ => False
    end.
  Definition rel_fs (fs fs' : functions) : Prop :=
    forall s, dead s = false -> rel_callee (find_function s fs) (find_function s fs').
  Definition rel_place (pl pl' : @place V) : Prop :=
    pl_globals pl' = new_vars (pl_globals pl) /\ pl_own pl' = option_map new_vars (pl_own pl) /\ rel_fs (pl_functions pl) (pl_functions pl').

  (** ** Variables *)
  Lemma variable_new x vs : variable_in (name x) (new_vars vs) = variable_in x vs.
  Proof.
    induction vs as [|[y v] vs IH]; [reflexivity|]. cbn [new_vars map variable_in fst snd].
    destruct (String.eqb_spec (name x) (name y)) as [E|N], (String.eqb_spec x y) as [E'|N']; try reflexivity.
    - apply name_inj in E. contradiction.
    - subst y. contradiction.
    - exact IH.
  Qed.
  Lemma find_new x pl pl' : rel_place pl pl' -> find_variable (name x) pl' = find_variable x pl.
  Proof.
    intros (G & O & _). unfold find_variable. rewrite G, O. destruct (pl_own pl) as [own|]; cbn [option_map]; rewrite !variable_new; reflexivity.
  Qed.
  Lemma give_new x v pl pl' : rel_place pl pl' -> rel_place (give x v pl) (give (name x) v pl').
  Proof.
    intros (G & O & F). unfold give. rewrite O. destruct (pl_own pl) as [own|] eqn:E; cbn [option_map]; split; [exact G|split; [reflexivity|exact F]| |].
    - cbn [pl_globals]. now rewrite G.
    - cbn [pl_own]. split; [reflexivity|exact F].
  Qed.
  Lemma text_new ps pl pl' : rel_place pl pl' -> rel_m eq (text rt pl ps) (text rt pl' (map new_part ps)).
  Proof.
    intros R. induction ps as [|[s|s|x] ps IH]; cbn [map SameSpec.new_part text].
    - apply rel_refl.
    - eapply rel_bnd; [exact IH|]. intros a b ->. apply rel_refl.
    - eapply rel_bnd; [exact IH|]. intros a b ->. apply rel_refl.
    - rewrite (find_new x pl pl' R). eapply rel_bnd; [apply rel_refl|]. intros a b ->. eapply rel_bnd; [apply rel_refl|]. intros s t ->.
      eapply rel_bnd; [exact IH|]. intros u v ->. apply rel_refl.
  Qed.

  (** ** Expressions *)
  Variables (callf callf' : variables (V := V) -> functions -> fdef -> list V -> M W V).
  Hypothesis call_new : forall gs fs fs' d d' l, rel_fs fs fs' -> rel_def d d' ->
    rel_m eq (callf gs fs d l) (callf' (new_vars gs) fs' d' l).

  Lemma shape_new cs : call_shape (map new_c cs) = call_shape cs.
  Proof. unfold call_shape. rewrite map_map. apply map_ext. intros [w|e]; reflexivity. Qed.

  Ltac step := eapply rel_bnd; [solve [apply rel_refl | eauto]|intros ? ? ->].

  Lemma calls_new :
    (forall e, calls_e (new_e e) = calls_e e) /\ (forall t, calls_t (new_t t) = calls_t t) /\
    (forall x, calls_l (new_l x) = calls_l x) /\ (forall c, calls_c (new_c c) = calls_c c).
  Proof.
    apply syn_ind; try reflexivity.
    - intros o l r H K. exact (f_equal2 (@app _) H K).
    - intros n d H K. exact (f_equal2 (@app _) H K).
    - intros d H. exact H.
    - intros t H. exact H.
    - intros es H. change (flat_map calls_l (map new_l es) = flat_map calls_l es). induction H as [|x l Hx H IH]; [reflexivity|]. cbn [map flat_map]. now rewrite Hx, IH.
    - intros e H. exact H.
    - intros cs H. change (flat_map calls_c (map new_c cs) ++ [call_shape (map new_c cs)] = flat_map calls_c cs ++ [call_shape cs]).
      rewrite shape_new. f_equal. induction H as [|x l Hx H IH]; [reflexivity|]. cbn [map flat_map]. now rewrite Hx, IH.
    - intros u t H. exact H.
    - intros t H. exact H.
    - intros e H. exact H.
    - intros a b H K. exact (f_equal2 (@app _) H K).
    - intros e H. exact H.
  Qed.
  Lemma exprs_new :
    (forall e pl pl', alive (calls_e e) -> rel_place pl pl' -> rel_m eq (mean_e rt oplib callf pl e) (mean_e rt oplib callf' pl' (new_e e))) /\
    (forall t pl pl', alive (calls_t t) -> rel_place pl pl' -> rel_m eq (mean_t rt oplib callf pl t) (mean_t rt oplib callf' pl' (new_t t))) /\
    (forall x pl pl', alive (calls_l x) -> rel_place pl pl' -> rel_m eq (mean_l rt oplib callf pl x) (mean_l rt oplib callf' pl' (new_l x))) /\
    (forall c pl pl', alive (calls_c c) -> rel_place pl pl' -> rel_m eq (mean_c rt oplib callf pl c) (mean_c rt oplib callf' pl' (new_c c))).
  Proof.
    apply syn_ind.
    - intros o l r IHl IHr pl pl' A R. cbn [calls_e] in A. apply alive_app in A. destruct A as [A B]. cbn [SameSpec.new_e mean_e]. step. step. apply rel_refl.
    - intros n d IHn IHd pl pl' A R. cbn [calls_e] in A. apply alive_app in A. destruct A as [A B]. cbn [SameSpec.new_e mean_e]. step. step. apply rel_refl.
    - intros d IH pl pl' A R. cbn [SameSpec.new_e mean_e]. step. apply rel_refl.
    - intros t IH pl pl' A R. exact (IH pl pl' A R).
    - intros s pl pl' A R. apply rel_refl.
    - intros a b pl pl' A R. apply rel_refl.
    - intros x pl pl' A R. cbn [SameSpec.new_t mean_t]. rewrite (find_new x pl pl' R). apply rel_refl.
    - intros p ps pl pl' A R. cbn [SameSpec.new_t mean_t]. eapply rel_bnd; [exact (text_new (p :: ps) pl pl' R)|]. intros a b ->. apply rel_refl.
    - intros es IH pl pl' A R. cbn [SameSpec.new_t mean_t]. eapply rel_bnd; [|intros a b ->; apply rel_refl].
      cbn [calls_t] in A. induction IH as [|x es Hx IH IHes]; cbn [map]; [apply rel_refl|].
      cbn [flat_map] in A. apply alive_app in A. destruct A as [A B]. step. eapply rel_bnd; [exact (IHes B)|intros ? ? ->]. apply rel_refl.
    - intros e IH pl pl' A R. exact (IH pl pl' A R).
    - intros cs IH pl pl' A R. cbn [SameSpec.new_t mean_t]. cbn [calls_t] in A. apply alive_app in A. destruct A as [A B]. rewrite shape_new.
      pose proof (proj2 (proj2 R) (call_shape cs) (B _ (or_introl eq_refl))) as F.
      eapply (rel_bnd (fun c c' => rel_callee (Ok c) (Ok c'))).
      { intros w. unfold lift. destruct (find_function (call_shape cs) (pl_functions pl)) as [c|e],
          (find_function (call_shape cs) (pl_functions pl')) as [c'|e']; cbn [rel_callee] in F |- *.
        - split; [reflexivity|exact F].
        - destruct c; contradiction.
        - contradiction.
        - split; [reflexivity|exact F]. }
      clear F B. intros c c' F. eapply rel_bnd with (R := eq).
      { induction IH as [|x cs Hx IH IHcs]; cbn [map]; [apply rel_refl|].
        cbn [flat_map] in A. apply alive_app in A. destruct A as [A B]. step. eapply rel_bnd; [exact (IHcs B)|intros ? ? ->]. apply rel_refl. }
      intros l l' ->. destruct c as [d|g], c' as [d'|g']; cbn [rel_callee] in F; try contradiction.
      + destruct R as (G & _ & Fs). rewrite G. now apply call_new.
      + subst g'. apply rel_refl.
    - intros u t IH pl pl' A R. cbn [SameSpec.new_t mean_t]. step. apply rel_refl.
    - intros t IH pl pl' A R. cbn [SameSpec.new_t mean_t]. step. apply rel_refl.
    - intros e IH pl pl' A R. exact (IH pl pl' A R).
    - intros a b IHa IHb pl pl' A R. cbn [calls_l] in A. apply alive_app in A. destruct A as [A B]. cbn [SameSpec.new_l mean_l]. step. step. apply rel_refl.
    - intros w pl pl' A R. apply rel_refl.
    - intros e IH pl pl' A R. cbn [SameSpec.new_c mean_c]. step. apply rel_refl.
  Qed.
  Lemma expr_new e pl pl' : alive (calls_e (new_e e)) -> rel_place pl pl' ->
    rel_m eq (mean_e rt oplib callf pl e) (mean_e rt oplib callf' pl' (new_e e)).
  Proof. rewrite (proj1 calls_new). apply exprs_new. Qed.

  (** ** Statements *)
  Definition rel_ending (r r' : @ending V) : Prop :=
    match r, r' with
    | Onward pl, Onward pl' => rel_place pl pl'
    | Result v, Result v' => v = v'
    | _, _ => False
    end.
  Definition rel_branch (r r' : option (@ending V)) : Prop :=
    match r, r' with
    | Some e, Some e' => rel_ending e e'
    | None, None => True
    | _, _ => False
    end.
  Notation mean_s := (mean_s rt oplib). Notation mean_b := (mean_b rt oplib). Notation mean_block := (mean_block rt oplib).

  Lemma params_new hs : params (map new_h hs) = map (fun p => (name (fst p), snd p)) (params hs).
  Proof. induction hs as [|[w| |x|x ty] hs IH]; cbn [map params flat_map SameSpec.new_h param_of app fst snd]; [reflexivity| | | |]; try exact IH; f_equal; exact IH. Qed.
  Lemma kinds_new ps : kinds_of (map (fun p => (name (fst p), snd p)) ps) = kinds_of ps.
  Proof. unfold kinds_of. induction ps as [|[x ty] ps IH]; [reflexivity|]. cbn [map mapM fst snd]. now rewrite IH. Qed.
  Lemma header_new hs : header_shape (map new_h hs) = header_shape hs.
  Proof. unfold header_shape. rewrite map_map. apply map_ext. intros [w| |x|x ty]; reflexivity. Qed.

  (** a definition that is left out makes no difference *)
  Lemma rel_fs_dead s d fs fs' : dead s = true -> rel_fs fs fs' -> rel_fs ((s, Defined d) :: fs) fs'.
  Proof.
    intros D F t T. cbn [find_function]. destruct (shape_eqb_spec t s) as [->|_]; [congruence|]. exact (F t T).
  Qed.
  Lemma rel_fs_define s d d' fs fs' : rel_def d d' -> rel_fs fs fs' -> rel_fs ((s, Defined d) :: fs) ((s, Defined d') :: fs').
  Proof. intros D F t T. cbn [find_function]. destruct (shape_eqb t s); [exact D|exact (F t T)]. Qed.

  Definition PS (s : stmt) : Prop := forall pl pl', alive (calls_s (new_s s)) -> rel_place pl pl' ->
    kept dead s = true -> rel_m rel_ending (mean_s callf s pl) (mean_s callf' (new_s s) pl').
  Definition PB (b : branch) : Prop := forall pl pl', alive (calls_b (new_b b)) -> rel_place pl pl' ->
    rel_m rel_branch (mean_b callf b pl) (mean_b callf' (new_b b) pl').

  Lemma dropped_new s pl pl' : kept dead s = false -> rel_place pl pl' ->
    exists pl1, rel_place pl1 pl' /\ forall w, mean_s callf s pl w = Some (Ok (Onward pl1), w).
  Proof.
    intros K R. destruct s as [e|e p ps|h hs body|x e body|e|p ps e|x e|b bs els]; try discriminate K.
    cbn [kept] in K. apply negb_false_iff, andb_true_iff in K. destruct K as [D K].
    destruct (kinds_of (params (h :: hs))) as [ks|e] eqn:E; [|discriminate K].
    exists (define (header_shape (h :: hs)) (mkDef (params (h :: hs)) body) pl). split.
    - destruct R as (G & O & F). split; [exact G|split; [exact O|]]. now apply rel_fs_dead.
    - intros w. cbn [MeanSpec.mean_s]. unfold bnd. rewrite E. reflexivity.
  Qed.

  Lemma block_new l : Forall PS l -> forall pl pl', alive (calls (new_block l)) -> rel_place pl pl' ->
    rel_m rel_ending (mean_block callf l pl) (mean_block callf' (new_block l) pl').
  Proof.
    induction 1 as [|s l Hs Hl IH]; intros pl pl' A R; [now apply rel_ret|].
    unfold new_program in A |- *. cbn [flat_map] in A |- *. destruct (kept dead s) eqn:K.
    - cbn [app] in A |- *. unfold calls in A. cbn [flat_map] in A. apply alive_app in A. destruct A as [A B].
      cbn [MeanSpec.mean_block]. eapply rel_bnd; [exact (Hs pl pl' A R K)|].
      intros [pl1|v] [pl2|v'] E; cbn [rel_ending] in E; try contradiction; [exact (IH pl1 pl2 B E)|]. now apply rel_ret.
    - cbn [app] in A |- *. destruct (dropped_new s pl pl' K R) as (pl1 & R1 & E). cbn [MeanSpec.mean_block].
      intros w. unfold bnd at 1. rewrite E. exact (IH pl1 pl' A R1 w).
  Qed.

  Lemma stmts_new : (forall s, PS s) /\ (forall b, PB b).
  Proof.
    apply stmt_ind2.
    - intros e pl pl' A R _. cbn [SameSpec.new_s MeanSpec.mean_s calls_s] in A |- *.
      eapply rel_bnd; [exact (expr_new e pl pl' A R)|intros v v' ->]. eapply rel_bnd; [apply rel_refl|intros ? ? ->]. now apply rel_ret.
    - intros e p ps pl pl' A R _. cbn [SameSpec.new_s MeanSpec.mean_s calls_s] in A |- *.
      eapply rel_bnd; [exact (expr_new e pl pl' A R)|intros v v' ->]. eapply rel_bnd; [exact (text_new (p :: ps) pl pl' R)|intros t t' ->].
      eapply rel_bnd; [apply rel_refl|intros ? ? ->]. now apply rel_ret.
    - intros h hs body IH pl pl' A R K. cbn [SameSpec.new_s MeanSpec.mean_s calls_s] in A |- *.
      change (new_h h :: map new_h hs) with (map new_h (h :: hs)). rewrite params_new, kinds_new, header_new.
      eapply rel_bnd; [apply rel_refl|intros ks ? ->]. apply rel_ret. cbn [rel_ending].
      destruct R as (G & O & F). split; [exact G|split; [exact O|]]. apply rel_fs_define; [|exact F].
      split; [reflexivity|]. split; [reflexivity|exact A].
    - intros x e body IH pl pl' A R _. cbn [SameSpec.new_s MeanSpec.mean_s calls_s] in A |- *. apply alive_app in A. destruct A as [A B].
      eapply rel_bnd; [exact (expr_new e pl pl' A R)|intros v v' ->]. eapply rel_bnd; [apply rel_refl|intros l ? ->]. clear A.
      revert pl pl' R. induction b as [|u l IHl]; intros pl pl' R; [now apply rel_ret|].
      eapply rel_bnd.
      + exact (block_new body IH _ _ B (give_new x u pl pl' R)).
      + intros [pl1|v1] [pl2|v2] E; cbn [rel_ending] in E; try contradiction; [exact (IHl pl1 pl2 E)|]. now apply rel_ret.
    - intros e pl pl' A R _. cbn [SameSpec.new_s MeanSpec.mean_s calls_s] in A |- *.
      eapply rel_bnd; [exact (expr_new e pl pl' A R)|intros v v' ->]. now apply rel_ret.
    - intros p ps e pl pl' A R _. cbn [SameSpec.new_s MeanSpec.mean_s calls_s] in A |- *.
      eapply rel_bnd; [exact (text_new (p :: ps) pl pl' R)|intros t t' ->]. eapply rel_bnd; [exact (expr_new e pl pl' A R)|intros v v' ->].
      eapply rel_bnd; [apply rel_refl|intros ? ? ->]. now apply rel_ret.
    - intros x e pl pl' A R _. cbn [SameSpec.new_s MeanSpec.mean_s calls_s] in A |- *.
      eapply rel_bnd; [exact (expr_new e pl pl' A R)|intros v v' ->]. apply rel_ret. now apply give_new.
    - intros b bs els IHb IHbs IHels pl pl' A R _. cbn [SameSpec.new_s MeanSpec.mean_s calls_s] in A |- *.
      apply alive_app in A. destruct A as [A B]. apply alive_app in B. destruct B as [B C].
      eapply rel_bnd; [exact (IHb pl pl' A R)|]. intros [r|] [r'|] E; cbn [rel_branch] in E; try contradiction; [now apply rel_ret|]. clear A E.
      induction IHbs as [|b1 bs Hb IHbs IH].
      + cbn [map]. destruct els as [body|]; cbn [option_map] in C |- *; [|now apply rel_ret]. exact (block_new body IHels pl pl' C R).
      + cbn [map flat_map] in B |- *. apply alive_app in B. destruct B as [B1 B2].
        eapply rel_bnd; [exact (Hb pl pl' B1 R)|]. intros [r|] [r'|] E; cbn [rel_branch] in E; try contradiction; [now apply rel_ret|]. exact (IH B2).
    - intros c body IH pl pl' A R. cbn [SameSpec.new_b MeanSpec.mean_b calls_b] in A |- *. apply alive_app in A. destruct A as [A B].
      eapply rel_bnd; [exact (expr_new c pl pl' A R)|intros v v' ->]. eapply rel_bnd; [apply rel_refl|intros t ? ->].
      destruct b; [|now apply rel_ret]. eapply rel_bnd.
      + exact (block_new body IH pl pl' B R).
      + intros r r' E. now apply rel_ret.
  Qed.

  Lemma program_new l pl pl' : alive (calls (new_block l)) -> rel_place pl pl' ->
    rel_m rel_ending (mean_block callf l pl) (mean_block callf' (new_block l) pl').
  Proof. apply block_new, Forall_forall. intros s _. apply stmts_new. Qed.
End same.

(** ** Calls, and whole programs *)
Section programs.
  Context {V W : Type} (rt : runtime V W).
  Variable oplib : bool.
  Variable name : string -> string.
  Hypothesis name_inj : forall x y, name x = name y -> x = y.
  Variable dead : shape -> bool.

  Lemma give_all_new ps (l : list V) :
    give_all (map (fun p => (name (fst p), snd p)) ps) l = option_map (new_vars name) (give_all ps l).
  Proof.
    revert l. induction ps as [|[x ty] ps IH]; intros [|v l]; try reflexivity. cbn [map give_all fst snd]. rewrite IH.
    destruct (give_all ps l); reflexivity.
  Qed.

  Lemma calls_defined fuel : forall gs fs fs' d d' l, rel_fs name dead fs fs' -> rel_def name dead d d' ->
    rel_m eq (call_defined rt oplib fuel gs fs d l) (call_defined rt oplib fuel (new_vars name gs) fs' d' l).
  Proof.
    induction fuel as [|n IH]; intros gs fs fs' d d' l F D; [intros w; exact Logic.I|]. cbn [call_defined].
    destruct D as (P & B & A). rewrite P, kinds_new. eapply rel_bnd; [apply rel_refl|intros ks ? ->].
    apply rel_same. intros w. apply rt_call_ext. intros args w0. revert w0. apply rel_same. unfold mean_body. rewrite P, give_all_new.
    destruct (give_all (d_params d) args) as [own|]; cbn [option_map]; [|apply rel_refl].
    eapply (rel_bnd (rel_ending name dead)).
    - rewrite B. rewrite B in A. apply program_new; [exact name_inj|exact IH|exact A|]. split; [reflexivity|split; [reflexivity|exact F]].
    - intros [pl1|v] [pl2|v'] E; cbn [rel_ending] in E; try contradiction; apply rel_ret; [reflexivity|exact E].
  Qed.

  Lemma rel_library (lib : bool) : rel_fs name dead (if lib then library_functions else []) (if lib then library_functions else []).
  Proof.
    intros s _. destruct lib; [|reflexivity]. pose proof (library_only s) as L.
    destruct (find_function s library_functions) as [[d|g]|e]; cbn [rel_callee]; try reflexivity. exfalso. exact (L d eq_refl).
  Qed.

  (** the rest of a program, from two places where the same functions are known *)
  Lemma rest_new fuel p pl pl' : alive dead (calls (new_program name dead p)) -> rel_place name dead pl pl' -> forall w,
    (r <== mean_block rt oplib (call_defined rt oplib fuel) p pl ;; ret Datatypes.tt) w =
    (r <== mean_block rt oplib (call_defined rt oplib fuel) (new_program name dead p) pl' ;; ret Datatypes.tt) w.
  Proof.
    intros A R. apply rel_same. eapply (rel_bnd (rel_ending name dead)).
    - apply program_new; [exact name_inj|apply calls_defined|exact A|exact R].
    - intros r r' _. apply rel_refl.
  Qed.
  Theorem changed lib fuel p w : alive dead (calls (new_program name dead p)) ->
    mean_program rt oplib lib fuel (new_program name dead p) w = mean_program rt oplib lib fuel p w.
  Proof.
    intros A. symmetry. apply rest_new; [exact A|]. split; [reflexivity|]. split; [reflexivity|]. apply rel_library.
  Qed.
End programs.

Theorem renamed_means {V W} (rt : runtime V W) oplib lib fuel name p w : (forall x y, name x = name y -> x = y) ->
  mean_program rt oplib lib fuel (renamed name p) w = mean_program rt oplib lib fuel p w.
Proof. intros I. apply changed; [exact I|]. intros s _. reflexivity. Qed.

Theorem without_means {V W} (rt : runtime V W) oplib lib fuel dead p w : (forall s, In s (calls (without dead p)) -> dead s = false) ->
  mean_program rt oplib lib fuel (without dead p) w = mean_program rt oplib lib fuel p w.
Proof. intros A. apply changed; [auto|exact A]. Qed.

(** ** The order of definitions *)
Lemma new_part_id p : new_part (fun x => x) p = p.
Proof. destruct p; reflexivity. Qed.
Lemma map_same {A} (f : A -> A) l : Forall (fun x => f x = x) l -> map f l = l.
Proof. induction 1 as [|x l H F IH]; [reflexivity|]. cbn [map]. now rewrite H, IH. Qed.
Lemma parts_id ps : map (new_part (fun x => x)) ps = ps.
Proof. apply map_same, Forall_forall. intros p _. apply new_part_id. Qed.
Lemma exprs_id :
  (forall e, new_e (fun x => x) e = e) /\ (forall t, new_t (fun x => x) t = t) /\
  (forall x, new_l (fun x => x) x = x) /\ (forall c, new_c (fun x => x) c = c).
Proof.
  apply syn_ind; try reflexivity.
  - intros o l r H K. exact (f_equal2 (EBin o) H K).
  - intros n d H K. exact (f_equal2 EDice H K).
  - intros d H. exact (f_equal EDie H).
  - intros t H. exact (f_equal ETerm H).
  - intros p ps. exact (f_equal2 TStr (new_part_id p) (parts_id ps)).
  - intros es H. exact (f_equal TSeq (map_same _ _ H)).
  - intros e H. exact (f_equal TGroup H).
  - intros cs H. exact (f_equal TCall (map_same _ _ H)).
  - intros u t H. exact (f_equal (TUn u) H).
  - intros t H. exact (f_equal THash H).
  - intros e H. exact (f_equal LOne H).
  - intros a b H K. exact (f_equal2 LRange H K).
  - intros e H. exact (f_equal CArg H).
Qed.
Lemma kept_all s : kept (fun _ => false) s = true.
Proof. destruct s; reflexivity. Qed.
Lemma headers_id hs : map (new_h (fun x => x)) hs = hs.
Proof. apply map_same, Forall_forall. intros [w| |x|x ty] _; reflexivity. Qed.
Lemma block_id l : Forall (fun s => new_s (fun x => x) (fun _ => false) s = s) l -> new_program (fun x => x) (fun _ => false) l = l.
Proof. induction 1 as [|s l H F IH]; [reflexivity|]. unfold new_program in *. cbn [flat_map]. now rewrite kept_all, H, IH. Qed.
Lemma stmts_id :
  (forall s, new_s (fun x => x) (fun _ => false) s = s) /\ (forall b, new_b (fun x => x) (fun _ => false) b = b).
Proof.
  destruct exprs_id as (E & _). apply stmt_ind2.
  - intros e. exact (f_equal SOutput (E e)).
  - intros e p ps. transitivity (SNamed (new_e (fun x => x) e) (new_part (fun x => x) p) (map (new_part (fun x => x)) ps)); [reflexivity|].
    now rewrite E, new_part_id, parts_id.
  - intros h hs body H. transitivity (SFunction (new_h (fun x => x) h) (map (new_h (fun x => x)) hs) (new_program (fun x => x) (fun _ => false) body)); [reflexivity|].
    rewrite headers_id, (block_id body H). f_equal. destruct h; reflexivity.
  - intros x e body H. transitivity (SLoop x (new_e (fun x => x) e) (new_program (fun x => x) (fun _ => false) body)); [reflexivity|].
    now rewrite E, (block_id body H).
  - intros e. exact (f_equal SResult (E e)).
  - intros p ps e. transitivity (SSet (new_part (fun x => x) p) (map (new_part (fun x => x)) ps) (new_e (fun x => x) e)); [reflexivity|].
    now rewrite E, new_part_id, parts_id.
  - intros x e. exact (f_equal (SAssign x) (E e)).
  - intros b bs els H K L.
    transitivity (SIf (new_b (fun x => x) (fun _ => false) b) (map (new_b (fun x => x) (fun _ => false)) bs) (option_map (new_program (fun x => x) (fun _ => false)) els));
      [reflexivity|]. rewrite H, (map_same _ _ K). f_equal. destruct els as [body|]; [|reflexivity]. cbn [option_map]. now rewrite (block_id body L).
  - intros c body H. transitivity (Branch (new_e (fun x => x) c) (new_program (fun x => x) (fun _ => false) body)); [reflexivity|].
    now rewrite E, (block_id body H).
Qed.
Lemma program_id p : new_program (fun x => x) (fun _ => false) p = p.
Proof. apply block_id, Forall_forall. intros s _. apply stmts_id. Qed.

Definition entry_of (s : stmt) : shape * callee :=
  match s with SFunction h hs body => (header_shape (h :: hs), Defined (mkDef (params (h :: hs)) body)) | _ => ([], Library LDiv) end.
Lemma definitions_run {V W} (rt : runtime V W) oplib cf ds p pl : Forall is_definition ds -> forall w,
  mean_block rt oplib cf (ds ++ p) pl w =
  mean_block rt oplib cf p (mkPlace (pl_globals pl) (rev (map entry_of ds) ++ pl_functions pl) (pl_own pl)) w.
Proof.
  intros D. revert pl. induction D as [|s ds H D IH]; intros pl w; [destruct pl; reflexivity|].
  destruct s as [e|e q ps|h hs body|x e body|e|q ps e|x e|b bs els]; try contradiction. destruct H as [ks K].
  cbn [app mean_block mean_s]. unfold bnd at 1. unfold bnd at 1. rewrite K. unfold lift, ret. rewrite IH.
  unfold define. cbn [map rev entry_of pl_globals pl_functions pl_own]. rewrite <- app_assoc. reflexivity.
Qed.
Lemma find_in s c l fs : NoDup (map fst l) -> In (s, c) l -> find_function s (l ++ fs) = Ok c.
Proof.
  intros N I. induction l as [|[t d] l IH]; [contradiction|]. cbn [map fst] in N. inversion N as [|? ? NI N']; subst.
  cbn [app find_function]. destruct I as [E|I].
  - injection E as -> ->. destruct (shape_eqb_spec s s); [reflexivity|contradiction].
  - destruct (shape_eqb_spec s t) as [->|_]; [|exact (IH N' I)]. exfalso. apply NI. apply in_map_iff. now exists (t, c).
Qed.
Lemma find_not s l fs : ~ In s (map fst l) -> find_function s (l ++ fs) = find_function s fs.
Proof.
  intros N. induction l as [|[t d] l IH]; [reflexivity|]. cbn [app find_function map fst] in *.
  destruct (shape_eqb_spec s t) as [->|_]; [exfalso; apply N; now left|]. apply IH. intros I. apply N. now right.
Qed.
Definition shape_dec (s t : shape) : {s = t} + {s <> t}.
Proof. destruct (shape_eqb_spec s t); [now left|now right]. Defined.
Lemma find_perm s l l' fs : Permutation l l' -> NoDup (map fst l) -> find_function s (l ++ fs) = find_function s (l' ++ fs).
Proof.
  intros P N. assert (N' : NoDup (map fst l')) by (exact (Permutation_NoDup (Permutation_map fst P) N)).
  destruct (in_dec shape_dec s (map fst l)) as [I|I].
  - apply in_map_iff in I. destruct I as ([t c] & <- & I). cbn [fst]. rewrite (find_in t c l fs N I), (find_in t c l' fs N' (Permutation_in _ P I)). reflexivity.
  - rewrite (find_not s l fs I), (find_not s l' fs); [reflexivity|]. intros J. apply I. exact (Permutation_in _ (Permutation_sym (Permutation_map fst P)) J).
Qed.

Theorem reordered_means {V W} (rt : runtime V W) oplib lib fuel ds ds' p w :
  Forall is_definition ds -> Permutation ds ds' -> NoDup (map shape_of ds) ->
  mean_program rt oplib lib fuel (ds' ++ p) w = mean_program rt oplib lib fuel (ds ++ p) w.
Proof.
  intros D P N. symmetry. unfold mean_program. unfold bnd. rewrite (definitions_run rt oplib _ ds p _ D), (definitions_run rt oplib _ ds' p _ (Permutation_Forall P D)).
  cbn [pl_globals pl_functions pl_own].
  assert (X : NoDup (map fst (rev (map entry_of ds)))).
  { rewrite map_rev. apply NoDup_rev. rewrite map_map. erewrite map_ext_in; [exact N|]. intros s I.
    pose proof (proj1 (Forall_forall _ _) D s I) as Ds. destruct s; try contradiction. reflexivity. }
  assert (Y : Permutation (rev (map entry_of ds)) (rev (map entry_of ds'))).
  { rewrite <- !Permutation_rev. now apply Permutation_map. }
  pose proof (rest_new rt oplib (fun x => x) (fun x y H => H) (fun _ => false) fuel p
    (mkPlace [] (rev (map entry_of ds) ++ (if lib then library_functions else [])) None)
    (mkPlace [] (rev (map entry_of ds') ++ (if lib then library_functions else [])) None) (fun s _ => eq_refl)) as E.
  rewrite program_id in E. unfold bnd in E. apply E. split; [reflexivity|]. split; [reflexivity|].
  intros s _. cbn [pl_functions]. rewrite <- (find_perm s _ _ _ Y X).
  destruct (in_dec shape_dec s (map fst (rev (map entry_of ds)))) as [I|I].
  - apply in_map_iff in I. destruct I as ([t c] & <- & I). cbn [fst]. rewrite (find_in t c _ _ X I). cbn [rel_callee].
    destruct c as [d|g]; [|reflexivity]. split; [|split].
    + rewrite map_same; [reflexivity|]. apply Forall_forall. intros [? ?] _. reflexivity.
    + symmetry. apply program_id.
    + intros u _. reflexivity.
  - rewrite (find_not s _ _ I). pose proof (rel_library (fun x => x) (fun _ => false) lib s eq_refl) as L. exact L.
Qed.
