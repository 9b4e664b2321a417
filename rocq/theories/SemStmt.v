(** Running a generated program and the meaning of the dice program, compared:
    statements. *)
From Coq Require Import String Ascii List ZArith Bool Arith Lia.
From Verif Require Import PyBase LexModel LexSpec ParseModel SynSpec SynInd ParseSound NameSpec ResolveModel ResolveGen
  HeaderFacts CompileFacts PySpec PyTrans Runtime PySem ExecModel MeanSpec RunSpec SemFacts.
Import ListNotations.
Open Scope string_scope.
Open Scope list_scope.
Open Scope run_scope.

(** ** Names by their letters *)

Definition has_char (P : ascii -> Prop) (s : string) : Prop := exists c, In c (chars s) /\ P c.

Lemma chars_app : forall a b, chars (a ++ b)%string = chars a ++ chars b.
Proof. induction a as [|c a IH]; intros b; [reflexivity|]. cbn. now rewrite IH. Qed.

Lemma has_app : forall P a b, has_char P a \/ has_char P b -> has_char P (a ++ b)%string.
Proof.
  intros P a b [[c [I H]]|[c [I H]]]; exists c; rewrite chars_app, in_app_iff; auto.
Qed.

Lemma join_has : forall P s l x, In x l -> has_char P x -> has_char P (String.concat s l).
Proof.
  intros P s l x I H. induction l as [|y l IH]; [contradiction|]. destruct I as [->|I].
  - destruct l; cbn [String.concat]; [exact H|]. apply has_app. now left.
  - destruct l as [|z l]; [contradiction|]. cbn [String.concat]. apply has_app. right. apply has_app. right. exact (IH I).
Qed.

Lemma join_chars : forall (P : ascii -> Prop) s l, all_chars P s -> Forall (all_chars P) l -> all_chars P (String.concat s l).
Proof.
  intros P s l Hs H. induction H as [|x l Hx H IH]; [constructor|].
  destruct l as [|y l]; [exact Hx|].
  change (String.concat s (x :: y :: l)) with (x ++ s ++ String.concat s (y :: l))%string.
  unfold all_chars in *. rewrite !chars_app. apply Forall_app. split; [exact Hx|]. apply Forall_app. split; assumption.
Qed.

Lemma lower_not_upper : forall c, lower_letter c -> upper_letter c -> False.
Proof.
  intros c L U. unfold lower_letter, upper_letter in *. cbn in L, U.
  decompose [or] L; subst; decompose [or] U; try discriminate; assumption.
Qed.

(** Letters of the names of functions. *)
Definition name_char (c : ascii) : Prop := lower_letter c \/ c = "X"%char \/ c = "_"%char.

Lemma fun_chars : forall fl s, shape_words s -> all_chars name_char (fun_name fl s).
Proof.
  intros fl s H. unfold fun_name. apply join_chars.
  - constructor; [|constructor]. right. now right.
  - apply Forall_app. split.
    + destruct (fl_prefix fl); [|constructor]. constructor; [|constructor]. constructor; [|constructor].
      left. cbn. tauto.
    + apply Forall_map. eapply Forall_impl; [|exact H]. intros [w|] Hw.
      * unfold all_chars. eapply Forall_impl; [|exact (proj2 Hw)]. intros c Hc. now left.
      * constructor; [|constructor]. right. now left.
Qed.

Lemma word_has : forall w, lower_word w -> has_char lower_letter w.
Proof.
  intros [|c w] [N H]; [congruence|]. exists c. split; [now left|exact (Forall_inv H)].
Qed.

Lemma fun_lower : forall fl s, shape_words s -> fl_prefix fl = true \/ has_word s ->
  has_char lower_letter (fun_name fl s).
Proof.
  intros fl s H [P|[w I]]; unfold fun_name.
  - rewrite P. eapply join_has; [now left|]. exists "f"%char. split; [now left|cbn; tauto].
  - eapply join_has.
    + apply in_app_iff. right. apply in_map_iff. exists (Some w). split; [reflexivity|exact I].
    + unfold shape_words in H; rewrite Forall_forall in H. exact (word_has w (H (Some w) I)).
Qed.

Lemma var_no_lower : forall x, a_word upper_letter x -> ~ has_char lower_letter x.
Proof.
  intros x [_ H] [c [I L]]. unfold all_chars in H. rewrite Forall_forall in H. exact (lower_not_upper c L (H c I)).
Qed.

Section names.
  Variable fl : flags.

  Lemma var_not_fun : forall x s, var_ok x -> shape_ok fl s -> x <> fun_name fl s.
  Proof.
    intros x s [X _] [Hs [Hp _]] ->. exact (var_no_lower _ X (fun_lower fl s Hs Hp)).
  Qed.

  Lemma var_not_helper : forall x, var_ok x -> ~ In x helpers.
  Proof.
    intros x [X T] I. cbn in I.
    assert (L : forall c s, lower_letter c -> has_char lower_letter (String c s)).
    { intros c s H. exists c. split; [now left|exact H]. }
    pose proof (var_no_lower x X) as N.
    decompose [or] I; subst; try contradiction; try (apply T; cbn; tauto); apply N; apply L; cbn; tauto.
  Qed.

  Lemma fun_not_helper : forall s, shape_ok fl s -> ~ In (fun_name fl s) helpers.
  Proof. intros s [_ [_ H]] I. apply H. apply in_app_iff. now left. Qed.
End names.

(** Names made for repeated parameters. *)
Lemma show_digit : forall n, has_char digit (show n).
Proof.
  intros n. unfold show. destruct (Nat.to_uint n); cbn; eexists; (split; [now left|cbn; tauto]).
Qed.
Lemma dummy_digit : forall i, has_char digit (dummy i).
Proof. intros i. unfold dummy. apply has_app. right. apply show_digit. Qed.

Lemma digit_not_name : forall c, digit c -> name_char c -> False.
Proof.
  intros c D [L|[->| ->]]; [|cbn in D; decompose [or] D; try discriminate; assumption|cbn in D; decompose [or] D; try discriminate; assumption].
  unfold digit, lower_letter in *. cbn in L, D. decompose [or] D; subst; decompose [or] L; try discriminate; assumption.
Qed.
Lemma dummy_not_fun : forall fl i s, shape_words s -> dummy i <> fun_name fl s.
Proof.
  intros fl i s H E. destruct (dummy_digit i) as [c [I D]]. rewrite E in I.
  pose proof (fun_chars fl s H) as F. unfold all_chars in F. rewrite Forall_forall in F.
  exact (digit_not_name c D (F c I)).
Qed.
Lemma dummy_not_helper : forall i, ~ In (dummy i) helpers.
Proof.
  intros i I. destruct (dummy_digit i) as [c [J D]]. cbn [In helpers] in I.
  assert (N : forall s, forallb (fun c => negb (existsb (Ascii.eqb c) (chars "0123456789"))) (chars s) = true ->
              s <> dummy i).
  { intros s F E. subst s. rewrite forallb_forall in F. specialize (F c J). apply negb_true_iff in F.
    assert (existsb (Ascii.eqb c) (chars "0123456789") = true); [|congruence].
    apply existsb_exists. exists c. split; [exact D|apply Ascii.eqb_refl]. }
  decompose [or] I; try contradiction; match goal with H : ?s = dummy i |- _ => exact (N s eq_refl H) end.
Qed.

(** ** Statements *)

Section compare.
  Context {V W : Type} (rt : runtime V W).
  Variable fl : flags.
  Hypothesis no_vars : fl_vars fl = false.
  Variable outer : list string.
  Variable def_ok : fdef -> Prop.
  Variable callp : @env V -> pyfun -> list V -> option (list (string * V)) -> M W V.
  Variable callm : @variables V -> functions -> fdef -> list V -> M W V.
  Hypothesis calls : forall g gs fs f l, agree fl outer def_ok g gs fs -> def_ok f ->
    forall w, callp g (def_py fl f) l None w = callm gs fs f l w.

  Notation ev := (eval rt callp).
  Notation ex := (exec rt callp).
  Notation me := (mean_e rt (fl_oplib fl) callm).
  Notation ms := (mean_s rt (fl_oplib fl) callm).
  Notation mb := (mean_b rt (fl_oplib fl) callm).

  (** The own names of the function a statement is in. *)
  Definition scope_names (sc : @scope V) : option (list string) :=
    match sc with InModule _ => None | InFunction _ names _ => Some names end.
  Definition at_ (inside : option (list string)) (sc : @scope V) (pl : @place V) : Prop :=
    agree_sc fl outer def_ok sc pl /\ scope_names sc = inside.

  Definition given_ok (inside : option (list string)) (x : string) : Prop :=
    var_ok x /\ match inside with None => In x outer | Some names => In x names end.
  Notation expr_ok e := (Forall (atom_ok fl) (atoms_e e)).
  Notation text_ok p ps := (Forall (atom_ok fl) (flat_map part_atoms (p :: ps))).

  Fixpoint fine_s (inside : option (list string)) (s : stmt) : Prop :=
    match s with
    | SOutput e | SResult e => expr_ok e
    | SNamed e p ps | SSet p ps e => expr_ok e /\ text_ok p ps
    | SAssign x e => given_ok inside x /\ expr_ok e
    | SFunction h hs body =>
        inside = None /\ shape_ok fl (header_shape (h :: hs)) /\ def_ok (mkDef (params (h :: hs)) body)
        /\ exists ks, kinds_of (params (h :: hs)) = Ok ks
    | SLoop x e body =>
        given_ok inside x /\ expr_ok e /\ fold_right (fun s P => fine_s inside s /\ P) True body
    | SIf b bs els =>
        fine_b inside b /\ fold_right (fun b P => fine_b inside b /\ P) True bs
        /\ match els with None => True | Some body => fold_right (fun s P => fine_s inside s /\ P) True body end
    end
  with fine_b (inside : option (list string)) (b : branch) : Prop :=
    match b with Branch c body => expr_ok c /\ fold_right (fun s P => fine_s inside s /\ P) True body end.

  Definition fine (inside : option (list string)) (l : list stmt) : Prop := fold_right (fun s P => fine_s inside s /\ P) True l.

  Definition flow_ok (inside : option (list string)) (f : @flow V) (e : @ending V) : Prop :=
    match f, e with
    | Next sc, Onward pl => at_ inside sc pl
    | Return v, Result v' => v = v'
    | _, _ => False
    end.

  (** *** Places after a statement *)

  Lemma give_ok : forall inside sc pl x v, at_ inside sc pl -> given_ok inside x ->
    at_ inside (bind_name x (PyObj v) sc) (give x v pl).
  Proof.
    intros inside sc pl x v [A E] [X G]. destruct pl as [gs fs own']. unfold at_, agree_sc, give in *.
    cbn [pl_own pl_globals pl_functions] in *.
    destruct sc as [g|g names own], own' as [own'|]; try contradiction; cbn [bind_name scope_names pl_own pl_globals pl_functions] in *; subst inside.
    - split; [|reflexivity]. destruct A as [Av Af Ae Ah Ao Ad]. constructor; try assumption.
      + intros y Y. cbn [assoc variable_in]. destruct (String.eqb y x); [reflexivity|exact (Av y Y)].
      + intros s S. cbn [assoc]. destruct (String.eqb_spec (fun_name fl s) x) as [N|_]; [|exact (Af s S)].
        exfalso. exact (var_not_fun fl x s X S (eq_sym N)).
      + intros y Y. cbn [assoc]. destruct (String.eqb_spec y x) as [->|_]; [|exact (Ah y Y)].
        exfalso. exact (var_not_helper x X Y).
      + intros y u. cbn [variable_in]. destruct (String.eqb_spec y x) as [->|_]; [intros _; exact G|exact (Ao y u)].
    - split; [|reflexivity]. destruct A as [Ag [Av An Ao Af Ah]]. split; [exact Ag|]. constructor; try assumption.
      + intros y Y I. cbn [assoc variable_in]. destruct (String.eqb y x); [reflexivity|exact (Av y Y I)].
      + intros y Y N. cbn [variable_in]. destruct (String.eqb_spec y x) as [->|_]; [contradiction|exact (An y Y N)].
      + intros y Y I. cbn [variable_in]. destruct (String.eqb_spec y x) as [->|_]; [discriminate|exact (Ao y Y I)].
  Qed.

  Lemma define_ok : forall sc pl s f, at_ None sc pl -> shape_ok fl s -> def_ok f ->
    at_ None (bind_name (fun_name fl s) (PyFun (def_py fl f)) sc) (define s f pl).
  Proof.
    intros sc pl s f [A E] S D. destruct pl as [gs fs own']. unfold at_, agree_sc, define in *.
    cbn [pl_own pl_globals pl_functions] in *.
    destruct sc as [g|g names own]; [|discriminate]. destruct own' as [own'|]; [contradiction|].
    split; [|reflexivity]. cbn [bind_name]. destruct A as [Av Af Ae Ah Ao Ad]. constructor; try assumption.
    - intros y Y. cbn [assoc]. destruct (String.eqb_spec y (fun_name fl s)) as [N|_]; [|exact (Av y Y)].
      exfalso. exact (var_not_fun fl y s Y S N).
    - intros t T. cbn [assoc find_function]. destruct (String.eqb_spec (fun_name fl t) (fun_name fl s)) as [N|N].
      + apply (mangle_inj fl t s (proj1 T) (proj1 S)) in N. subst t.
        destruct (shape_eqb_spec s s) as [_|C]; [reflexivity|congruence].
      + destruct (shape_eqb_spec t s) as [->|_]; [congruence|exact (Af t T)].
    - intros t e. cbn [find_function]. destruct (shape_eqb t s); [discriminate|exact (Ae t e)].
    - intros y Y. cbn [assoc]. destruct (String.eqb_spec y (fun_name fl s)) as [->|_]; [|exact (Ah y Y)].
      exfalso. exact (fun_not_helper fl s S Y).
    - intros t f'. cbn [find_function]. destruct (shape_eqb t s); [intros [= <-]; exact D|exact (Ad t f')].
  Qed.

  (** *** Blocks *)

  Lemma sim_block : forall l inside,
    Forall (fun s => fine_s inside s -> forall sc pl, at_ inside sc pl ->
      simM (flow_ok inside) (ex (py_s fl s) sc) (ms s pl)) l -> fine inside l ->
    forall sc pl, at_ inside sc pl ->
    simM (flow_ok inside) (exec_block rt callp (body_or_pass (map (py_s fl) l)) sc) (mean_block rt (fl_oplib fl) callm l pl).
  Proof.
    intros l inside F.
    assert (B : fine inside l -> forall sc pl, at_ inside sc pl ->
      simM (flow_ok inside) (exec_block rt callp (map (py_s fl) l) sc) (mean_block rt (fl_oplib fl) callm l pl)).
    { induction F as [|s l Hs F IH]; intros G sc pl A; [now apply sim_ret|]. destruct G as [G1 G2].
      cbn [map exec_block mean_block]. eapply sim_bnd; [exact (Hs G1 sc pl A)|].
      intros [sc'|v] [pl'|v'] R; try contradiction; [exact (IH G2 sc' pl' R)|now apply sim_ret]. }
    intros G sc pl A. destruct l as [|s l]; [now apply sim_ret|exact (B G sc pl A)].
  Qed.

  Lemma sim_value_of : forall inside e sc pl, at_ inside sc pl -> expr_ok e ->
    simM eq (eval_value rt callp sc (py_e fl e)) (me pl e).
  Proof.
    intros inside e sc pl [A _] E. unfold eval_value.
    eapply sim_last; [exact (proj1 (sim_syntax rt fl no_vars outer def_ok callp callm calls) e sc pl A E)|].
    intros v o ->. now apply sim_ret.
  Qed.

  (** *** Loops and conditions, unfolded *)

  Definition py_loop (x : string) (body : list pstmt) := fix loop (l : list V) (sc : @scope V) : M W (@flow V) :=
    match l with
    | [] => ret (Next sc)
    | o :: l' =>
        r <== exec_block rt callp body (bind_name x (PyObj o) sc) ;;
        match r with Next sc' => loop l' sc' | Return v => ret (Return v) end
    end.
  Lemma exec_for : forall x e body sc, ex (PFor x e body) sc
    = (v <== eval_value rt callp sc e ;; l <== rt_iter rt v ;; py_loop x body l sc).
  Proof. reflexivity. Qed.
  Lemma exec_if : forall c body els sc, ex (PIf c body els) sc
    = (v <== eval_value rt callp sc c ;; t <== rt_truth rt v ;;
       if t : bool then exec_block rt callp body sc
       else match els with Some b => exec_block rt callp b sc | None => ret (Next sc) end).
  Proof. reflexivity. Qed.

  Notation mbl := (mean_block rt (fl_oplib fl) callm).
  Definition mean_loop (x : string) (body : list stmt) := fix loop (l : list V) (pl : @place V) : M W (@ending V) :=
    match l with
    | [] => ret (Onward pl)
    | v :: l' =>
        r <== mbl body (give x v pl) ;;
        match r with Onward pl' => loop l' pl' | Result v => ret (Result v) end
    end.
  Lemma mean_for : forall x e body pl, ms (SLoop x e body) pl
    = (v <== me pl e ;; l <== rt_iter rt v ;; mean_loop x body l pl).
  Proof. reflexivity. Qed.
  Definition otherwise (els : option (list stmt)) := fix otherwise (bs : list branch) (pl : @place V) : M W (@ending V) :=
    match bs with
    | [] => match els with Some body => mbl body pl | None => ret (Onward pl) end
    | b :: bs' =>
        r <== mb b pl ;;
        match r with Some end_ => ret end_ | None => otherwise bs' pl end
    end.
  Lemma mean_if : forall b bs els pl, ms (SIf b bs els) pl = otherwise els (b :: bs) pl.
  Proof. reflexivity. Qed.
  Lemma mean_branch : forall c body pl, mb (Branch c body) pl
    = (v <== me pl c ;; t <== rt_truth rt v ;; if t : bool then (r <== mbl body pl ;; ret (Some r)) else ret None).
  Proof. reflexivity. Qed.

  (** *** Kinds of parameters *)

  Lemma own_snd : forall ps i seen, map snd (own_names i seen ps) = map snd ps.
  Proof.
    induction ps as [|[x ty] ps IH]; intros i seen; [reflexivity|]. cbn [own_names map snd]. now rewrite IH.
  Qed.

  Lemma kind_found : forall ty k (sc : @scope V) pl, agree_sc fl outer def_ok sc pl -> kind_of ty = Ok k ->
    find (annotation ty) sc = Ok (PyLib (GKind k)).
  Proof.
    intros ty k sc pl A E.
    assert (H : annotation ty = match k with KN => "T_N" | KS => "T_S" | KD => "T_D" end).
    { destruct ty as [|s]; cbn in E |- *; [injection E as <-; reflexivity|].
      repeat match type of E with
      | match ?s with _ => _ end = _ => destruct s; try discriminate
      | (if ?b then _ else _) = _ => destruct b; try discriminate
      end; injection E as <-; reflexivity. }
    rewrite H. destruct k; eapply find_builtin; try exact A; try (cbn; tauto); left; reflexivity.
  Qed.

  Lemma kinds_found : forall (sc : @scope V) pl ps qs ks, agree_sc fl outer def_ok sc pl -> map snd qs = map snd ps ->
    kinds_of ps = Ok ks ->
    forall w, eval_kinds rt callp sc (map (fun p => (fst p, option_map (fun ty => PySpec.PName (annotation ty)) (snd p))) qs) w
              = ret ks w.
  Proof.
    intros sc pl ps. induction ps as [|[x ty] ps IH]; intros qs ks A Q E w; destruct qs as [|[y ty'] qs]; try discriminate.
    - injection E as <-. reflexivity.
    - injection Q as -> Q. unfold kinds_of in E. cbn [mapM snd] in E. 
      cbn [map fst snd eval_kinds]. destruct ty as [ty|]; cbn [option_map].
      + destruct (kind_of ty) as [k|e] eqn:K; [|discriminate]. cbn [rmap bind] in E.
        destruct (mapM _ ps) as [ks'|e] eqn:E'; [|discriminate]. injection E as <-.
        unfold bnd at 1 2. cbn [eval]. unfold bnd at 1, lift at 1. rewrite (kind_found ty k sc pl A K).
        unfold ret at 1. unfold bnd. rewrite (IH qs ks' A Q E' w). reflexivity.
      + cbn [bind] in E. destruct (mapM _ ps) as [ks'|e] eqn:E'; [|discriminate]. injection E as <-.
        unfold bnd at 1. unfold ret at 1. unfold bnd. rewrite (IH qs ks' A Q E' w). reflexivity.
  Qed.

  (** *** All statements *)

  Theorem sim_stmt :
    (forall s, forall inside, fine_s inside s -> forall sc pl, at_ inside sc pl ->
       simM (flow_ok inside) (ex (py_s fl s) sc) (ms s pl)) /\
    (forall b, forall inside, fine_b inside b -> forall els eb sc pl, at_ inside sc pl ->
       simM (flow_ok inside) (match els with Some l => exec_block rt callp l sc | None => ret (Next sc) end) eb ->
       simM (flow_ok inside) (ex (let '(c, body) := py_b fl b in PIf c body els) sc)
         (r <== mb b pl ;; match r with Some end_ => ret end_ | None => eb end)).
  Proof.
    pose proof (proj1 (sim_syntax rt fl no_vars outer def_ok callp callm calls)) as SE.
    apply stmt_ind2.
    - (* SOutput *) intros e inside F sc pl A. cbn [py_s mean_s exec].
      pose proof (sim_call1 rt fl outer def_ok callp "output" GOutput sc pl _ _ (proj1 A) ltac:(cbn; tauto) ltac:(left; reflexivity)
        (SE e sc pl (proj1 A) F) (fun v => rt_output rt v None) ltac:(reflexivity)) as S.
      apply sim_eq_r with (n' := (r <== (v <== me pl e ;; rt_output rt v None) ;; ret (Onward pl))).
      { intros w. unfold bnd. destruct (me pl e w) as [[[a|err] v]|]; reflexivity. }
      eapply sim_bnd; [exact S|]. intros _ _ _. now apply sim_ret.
    - (* SNamed *) intros e p ps inside [Fe Ft] sc pl A.
      change (py_s fl (SNamed e p ps)) with
        (PExpr (PCall (PySpec.PName "output") [(None, py_e fl e); (Some "named", py_str fl (p :: ps))])).
      change (ms (SNamed e p ps) pl) with
        (v <== me pl e ;; t <== text rt pl (p :: ps) ;; r <== rt_output rt v (Some (rt_text rt t)) ;; ret (Onward pl)).
      cbn [exec]. rewrite eval_call. cbn [eval]. apply sim_bnd_assoc.
      rewrite (find_builtin fl outer def_ok "output" GOutput sc pl (proj1 A) ltac:(cbn; tauto) ltac:(left; reflexivity)).
      apply sim_ret_l. cbn [arg_list]. apply sim_bnd_assoc. apply sim_bnd_assoc.
      eapply sim_bnd; [exact (SE e sc pl (proj1 A) Fe)|]. intros v o ->.
      apply sim_bnd_assoc. apply sim_bnd_assoc. unfold py_str. cbn [eval]. apply sim_bnd_assoc.
      eapply sim_bnd; [exact (sim_text rt fl no_vars outer def_ok sc pl (p :: ps) (proj1 A) Ft)|].
      intros t ? <-. apply sim_eq_l with (n := (r <== rt_output rt o (Some (rt_text rt t)) ;; ret (Next sc))).
      { intros w. unfold bnd, ret, apply. cbn [split_dict]. unfold bnd, named_args, bnd, value, ret. cbn [call_lib].
        unfold bnd, ret. destruct (rt_output rt o (Some (rt_text rt t)) w) as [[[a|err] w']|]; reflexivity. }
      apply sim_bnd_same. intros _. now apply sim_ret.
    - (* SFunction *) intros h hs body IH inside [-> [Hs [Hd [ks Hk]]]] sc pl A.
      change (ms (SFunction h hs body) pl) with
        (ks <== @lift W _ (kinds_of (params (h :: hs))) ;;
         ret (Onward (define (header_shape (h :: hs)) (mkDef (params (h :: hs)) body) pl))).
      change (py_s fl (SFunction h hs body)) with
        (PDef (PyTrans.call "anydice_casting" []) (fun_name fl (header_shape (h :: hs)))
           (py_params fl (own_names 0 [] (params (h :: hs))))
           (enter fl (own_names 0 [] (params (h :: hs))) ++ body_or_pass (map (py_s fl) body))).
      set (qs := own_names 0 [] (params (h :: hs))) in *. set (f := mkDef (params (h :: hs)) body) in *.
      unfold py_params, enter. rewrite no_vars, app_nil_r. cbn [app].
      destruct sc as [g|g names own]; [|destruct A as [_ A]; discriminate].
      assert (E : forall w, ex (PDef (PyTrans.call "anydice_casting" []) (fun_name fl (header_shape (h :: hs)))
           (map (fun p => (fst p, option_map (fun ty => PySpec.PName (annotation ty)) (snd p))) qs)
           (body_or_pass (map (py_s fl) body))) (InModule g) w
         = ret (Next (bind_name (fun_name fl (header_shape (h :: hs))) (PyFun (def_py fl f)) (InModule g))) w).
      { intros w.
        assert (D : ev (InModule g) (PyTrans.call "anydice_casting" []) w = Some (Ok PyDecorator, w)).
        { unfold PyTrans.call. rewrite eval_call. cbn [eval map arg_list].
          rewrite (find_builtin fl outer def_ok "anydice_casting" GCasting (InModule g) pl (proj1 A) ltac:(cbn; tauto) ltac:(left; reflexivity)).
          reflexivity. }
        cbn [exec]. unfold bnd at 1. rewrite D. unfold bnd at 1.
        rewrite (kinds_found (InModule g) pl (params (h :: hs)) qs ks (proj1 A)); [|unfold qs; apply own_snd|exact Hk].
        unfold ret. unfold def_py, def_names, f. cbn [d_params d_body]. rewrite Hk. fold qs.
        rewrite map_map. cbn [fst]. reflexivity. }
      eapply sim_eq_l; [exact E|]. rewrite Hk. apply sim_ret. exact (define_ok _ pl _ f A Hs Hd).
    - (* SLoop *) intros x e body IH inside F sc pl A. destruct F as [Fx [Fe Fb]].
      change (py_s fl (SLoop x e body)) with
        (PFor x (py_e fl e) ((if fl_vars fl then [PAssign (vars_at x) (PySpec.PName x)] else [])
                             ++ body_or_pass (map (py_s fl) body))).
      rewrite no_vars, exec_for, mean_for. cbn [app].
      eapply sim_bnd; [exact (sim_value_of inside e sc pl A Fe)|]. intros v ? <-.
      apply sim_bnd_same. intros l. revert sc pl A. induction l as [|o l IHl]; intros sc pl A; [now apply sim_ret|].
      cbn [py_loop mean_loop]. eapply sim_bnd.
      + refine (sim_block body inside _ Fb _ _ (give_ok inside sc pl x o A Fx)).
        eapply Forall_impl; [|exact IH]. intros s Hs. exact (Hs inside).
      + intros [sc'|u] [pl'|u'] R; try contradiction; [exact (IHl sc' pl' R)|now apply sim_ret].
    - (* SResult *) intros e inside F sc pl A. cbn [py_s mean_s exec].
      eapply sim_bnd; [exact (sim_value_of inside e sc pl A F)|]. intros v ? <-. now apply sim_ret.
    - (* SSet *) intros p ps e inside [Fe Ft] sc pl A.
      change (py_s fl (SSet p ps e)) with (PExpr (PyTrans.call "settings_set" [py_str fl (p :: ps); py_e fl e])).
      change (ms (SSet p ps e) pl) with
        (t <== text rt pl (p :: ps) ;; v <== me pl e ;; r <== rt_set rt (rt_text rt t) v ;; ret (Onward pl)).
      cbn [exec].
      assert (T : simM (@is_obj V) (ev sc (py_str fl (p :: ps))) (t <== text rt pl (p :: ps) ;; ret (rt_text rt t))).
      { unfold py_str. cbn [eval]. eapply sim_bnd; [exact (sim_text rt fl no_vars outer def_ok sc pl (p :: ps) (proj1 A) Ft)|].
        intros t ? <-. now apply sim_ret. }
      pose proof (sim_call2 rt fl outer def_ok callp "settings_set" GSet sc pl _ _ _ _ (proj1 A) ltac:(cbn; tauto)
        ltac:(left; reflexivity) T (SE e sc pl (proj1 A) Fe) (rt_set rt) ltac:(reflexivity)) as S.
      apply sim_eq_r with (n' := (r <== (v <== (t <== text rt pl (p :: ps) ;; ret (rt_text rt t)) ;;
        u <== me pl e ;; rt_set rt v u) ;; ret (Onward pl))).
      { intros w. unfold bnd. destruct (text rt pl (p :: ps) w) as [[[a|err] v]|]; try reflexivity.
        cbn [ret]. destruct (me pl e v) as [[[b|err] v']|]; reflexivity. }
      eapply sim_bnd; [exact S|]. intros _ _ _. now apply sim_ret.
    - (* SAssign *) intros x e inside [Fx Fe] sc pl A. cbn [py_s mean_s]. unfold variable. rewrite no_vars. cbn [exec].
      eapply sim_bnd; [exact (SE e sc pl (proj1 A) Fe)|]. intros v o E. red in E. subst v. apply sim_ret.
      exact (give_ok inside sc pl x o A Fx).
    - (* SIf *) intros b bs els Hb Hbs Hels inside F sc pl A. destruct F as [Fb [Fbs Fe]].
      rewrite mean_if.
      set (E := fold_right (fun b els => let '(c, body) := py_b fl b in Some [PIf c body els])
             (match els with None => None | Some body => Some (body_or_pass (map (py_s fl) body)) end) bs).
      replace (py_s fl (SIf b bs els)) with (let '(c, body) := py_b fl b in PIf c body E) by (destruct b; reflexivity).
      apply (Hb inside Fb E (otherwise els bs pl) sc pl A). subst E.
      induction Hbs as [|b' bs Hb' Hbs IH].
      + cbn [fold_right otherwise]. destruct els as [body|]; [|now apply sim_ret].
        refine (sim_block body inside _ Fe sc pl A). eapply Forall_impl; [|exact Hels]. intros s Hs. exact (Hs inside).
      + destruct Fbs as [Fb' Fbs]. cbn [fold_right otherwise].
        specialize (Hb' inside Fb' _ _ sc pl A (IH Fbs)). destruct (py_b fl b') as [c body].
        cbn [exec_block]. eapply sim_last; [exact Hb'|].
        intros [sc'|u] [pl'|u'] R; try contradiction; now apply sim_ret.
    - (* Branch *) intros c body IH inside F els eb sc pl A S. destruct F as [Fc Fb].
      change (py_b fl (Branch c body)) with (py_e fl c, body_or_pass (map (py_s fl) body)).
      cbv beta iota. rewrite exec_if, mean_branch. apply sim_eq_r with
        (n' := (v <== me pl c ;; t <== rt_truth rt v ;; if t : bool then mbl body pl else eb)).
      { intros w. unfold bnd. destruct (me pl c w) as [[[a|e] v]|]; try reflexivity.
        destruct (rt_truth rt a v) as [[[[|]|e] v']|]; try reflexivity.
        destruct (mbl body pl v') as [[[x|e] v2]|]; reflexivity. }
      eapply sim_bnd; [exact (sim_value_of inside c sc pl A Fc)|]. intros v ? <-.
      apply sim_bnd_same. intros [|].
      + refine (sim_block body inside _ Fb sc pl A). eapply Forall_impl; [|exact IH]. intros s Hs. exact (Hs inside).
      + exact S.
  Qed.
End compare.
