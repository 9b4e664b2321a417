(** The code generator on whole programs: its text, what it records, and when it fails. *)
From Coq Require Import String Ascii Bool List Arith Lia.
From Verif Require Import PyBase LexModel LexSpec GramModel ParseModel SynSpec SynInd ParseSound NameSpec ResolveModel ResolveGen HeaderFacts.
Import ListNotations.
Open Scope string_scope.
Open Scope list_scope.
Open Scope py_scope.

Lemma mapS_app : forall A B (f : A -> M B) a b st,
  mapS f (a ++ b) st =
  match mapS f a st with
  | Ok (ys, st') => match mapS f b st' with Ok (zs, st2) => Ok (ys ++ zs, st2) | Err e => Err e end
  | Err e => Err e
  end.
Proof.
  induction a as [|x a IH]; intros b st.
  - cbn. unfold ret. destruct (mapS f b st) as [[zs st2]|e]; reflexivity.
  - cbn [app mapS]. unfold bindM. destruct (f x st) as [[y st1]|e]; [|reflexivity].
    rewrite IH. destruct (mapS f a st1) as [[ys st2]|e]; [|reflexivity]. unfold ret.
    destruct (mapS f b st2) as [[zs st3]|e]; reflexivity.
Qed.

Section stmts.
  Variable fl : flags.

  Definition run (s : stmt) : Prop := Forall good (toks_s s) -> forall st,
    resolve_node fl (node_s s) st =
    if headers_ok_s s then Ok (gen_s fl s, adv fl (defs_s s) (calls_s s) (outputs_s s) st)
    else Err IndexErr.

  Lemma body_gen : forall body, Forall run body -> Forall good (flat_map toks_s body) -> forall st,
    resolve_node fl (Node MULTILINE_CODE (map (fun x => inr (node_s x)) body)) st =
    if forallb headers_ok_s body
    then Ok (block_text (map (gen_s fl) body),
             adv fl (flat_map defs_s body) (flat_map calls_s body) (list_sum (map outputs_s body)) st)
    else Err IndexErr.
  Proof.
    intros body F G st.
    destruct body as [|s body].
    - cbn. now rewrite adv_0.
    - cbn [resolve_node]. change (map (fun x => inr (node_s x)) (s :: body)) with
        (inr (node_s s) :: map (fun x => @inr string _ (node_s x)) body).
      cbn iota. change (inr (node_s s) :: map (fun x => @inr string _ (node_s x)) body)
        with (map (fun x => @inr string _ (node_s x)) (s :: body)).
      unfold bindM.
      rewrite (mapS_adv fl _ _ _ _ (fun x => inr (node_s x)) (gen_s fl) defs_s calls_s outputs_s headers_ok_s).
      + destruct (forallb headers_ok_s (s :: body)); reflexivity.
      + clear st. revert G. induction F as [|x l Hx F IH]; intros G; [constructor|].
        cbn [flat_map] in G. apply Forall_app in G. destruct G as [G1 G2].
        constructor; [exact (Hx G1)|exact (IH G2)].
  Qed.

  Lemma good_braces : forall l, Forall good (braces l) -> Forall good l.
  Proof.
    intros l G. unfold braces in G. inversion G as [|? ? _ G']; subst. apply Forall_app in G'. tauto.
  Qed.

  Definition run_b (b : branch) : Prop := Forall good (toks_b b) ->
    match b with
    | Branch c body => forall st,
        resolve_node fl (Node MULTILINE_CODE (map (fun x => inr (node_s x)) body)) st =
        if forallb headers_ok_s body
        then Ok (block_text (map (gen_s fl) body),
                 adv fl (flat_map defs_s body) (flat_map calls_s body) (list_sum (map outputs_s body)) st)
        else Err IndexErr
    end.

  Let E_ := proj1 (expr_gen fl).

  Theorem stmt_gen : (forall s, run s) /\ (forall b, run_b b).
  Proof.
    apply stmt_ind2.
    - intros e G st. cbn [node_s headers_ok_s gen_s defs_s calls_s outputs_s resolve_node].
      unfold bindM, count_output. rewrite E_. unfold ret, adv. cbn [r_defined r_called r_outputs map rev app plus].
      reflexivity.
    - intros e p ps G st. cbn [node_s headers_ok_s gen_s defs_s calls_s outputs_s resolve_node].
      unfold bindM, count_output. rewrite E_. rewrite (str_gen fl).
      unfold ret, adv. cbn [r_defined r_called r_outputs map rev app plus]. reflexivity.
    - intros h hs body F G st. cbn [toks_s] in G.
      inversion G as [|? ? _ G1]; subst. inversion G1 as [|? ? _ G2]; subst.
      apply Forall_app in G2. destruct G2 as [Gh Gb]. apply good_braces in Gb.
      pose proof (body_gen body F Gb) as Hb.
      cbn [node_s headers_ok_s gen_s defs_s calls_s outputs_s].
      remember (Node MULTILINE_CODE (map (fun x => inr (node_s x)) body)) as code eqn:Ec. clear Ec.
      cbn [resolve_node].
      rewrite (header_gen fl (h :: hs) Gh).
      destruct (header_ok (h :: hs)); [|reflexivity]. cbn [andb].
      unfold bindM, define. rewrite Hb.
      destruct (forallb headers_ok_s body); [|reflexivity]. unfold ret, def_text.
      replace (map (fun m => "vars[" ++ quote ++ m ++ quote ++ "] = " ++ m)%string (pnames (renamed 0 [] (params (h :: hs)))))
        with (map (fun p : string * option ptype => "vars[" ++ quote ++ fst p ++ quote ++ "] = " ++ fst p)%string (renamed 0 [] (params (h :: hs)))).
      2:{ unfold pnames. now rewrite map_map. }
      f_equal. f_equal.
      + destruct (fl_vars fl); [reflexivity|]. now rewrite app_nil_r.
      + unfold adv. cbn [r_defined r_called r_outputs map rev]. rewrite <- app_assoc. reflexivity.
    - intros x e body F G st. cbn [toks_s] in G.
      inversion G as [|? ? _ G1]; subst. inversion G1 as [|? ? _ G2]; subst. inversion G2 as [|? ? _ G3]; subst.
      apply Forall_app in G3. destruct G3 as [_ Gb]. apply good_braces in Gb.
      pose proof (body_gen body F Gb) as Hb.
      cbn [node_s headers_ok_s gen_s defs_s calls_s outputs_s].
      remember (Node MULTILINE_CODE (map (fun x => inr (node_s x)) body)) as code eqn:Ec. clear Ec.
      cbn [resolve_node].
      unfold bindM, as_str, ret. rewrite E_, Hb.
      destruct (forallb headers_ok_s body); [|reflexivity]. rewrite adv_adv. reflexivity.
    - intros e G st. cbn [node_s headers_ok_s gen_s defs_s calls_s outputs_s resolve_node].
      unfold bindM. rewrite E_. reflexivity.
    - intros p ps v G st. cbn [node_s headers_ok_s gen_s defs_s calls_s outputs_s resolve_node].
      unfold bindM. rewrite (str_gen fl), E_. reflexivity.
    - intros x e G st. cbn [node_s headers_ok_s gen_s defs_s calls_s outputs_s resolve_node].
      unfold bindM, as_str, ret. rewrite E_. destruct (fl_vars fl); reflexivity.
    - intros b bs els Hb Hbs He G st. cbn [toks_s] in G.
      inversion G as [|? ? _ G1]; subst. apply Forall_app in G1. destruct G1 as [Gb G2].
      apply Forall_app in G2. destruct G2 as [Gbs Ge].
      cbn [node_s headers_ok_s gen_s defs_s calls_s outputs_s resolve_node].
      set (f := fun b0 : string + node => _).
      assert (B : forall ty k, (ty = IF /\ k = "if ") \/ (ty = ELSEIF /\ k = "elif ") -> forall b', run_b b' -> Forall good (toks_b b') ->
        forall st, f (inr (node_b ty b')) st =
          if headers_ok_b b' then Ok (gen_b fl k b', adv fl (defs_b b') (calls_b b') (outputs_b b') st) else Err IndexErr).
      { intros ty k K b' Rb Gb' st'. destruct b' as [c body]. specialize (Rb Gb'). cbn in Rb.
        cbn [node_b headers_ok_b gen_b defs_b calls_b outputs_b]. unfold f.
        destruct K as [[-> ->]|[-> ->]]; unfold bindM; rewrite E_, Rb;
          (destruct (forallb headers_ok_s body); [|reflexivity]); rewrite adv_adv; reflexivity. }
      unfold bindM. cbn [mapS]. unfold bindM.
      rewrite (B IF "if ") by (first [left; split; reflexivity | assumption]).
      destruct (headers_ok_b b); [|reflexivity]. cbn [andb].
      rewrite mapS_app.
      rewrite (mapS_adv fl _ _ _ f (fun b => inr (node_b ELSEIF b)) (gen_b fl "elif ") defs_b calls_b outputs_b headers_ok_b).
      2:{ clear -B Hbs Gbs. revert Gbs. induction Hbs as [|x l Hx F IH]; intros G; [constructor|].
          cbn [flat_map] in G. inversion G as [|? ? _ G1]; subst. inversion G1 as [|? ? _ G2]; subst.
          apply Forall_app in G2. destruct G2 as [Gx Gl].
          constructor; [|exact (IH Gl)]. apply B; [right; split; reflexivity|exact Hx|exact Gx]. }
      destruct (forallb headers_ok_b bs); [|reflexivity]. cbn [andb].
      destruct els as [body|].
      + inversion Ge as [|? ? _ Ge1]; subst. apply good_braces in Ge1.
        cbn [mapS]. unfold f at 1. unfold bindM. rewrite body_gen by assumption.
        destruct (forallb headers_ok_s body); [|reflexivity]. unfold ret. rewrite !adv_adv.
        rewrite <- ?app_assoc, <- ?Nat.add_assoc. reflexivity.
      + cbn [mapS]. unfold ret. rewrite adv_adv, !app_nil_r, Nat.add_0_r. reflexivity.
    - intros c body F G st. cbn [toks_b] in G. apply Forall_app in G. destruct G as [_ Gb].
      apply good_braces in Gb. exact (body_gen body F Gb st).
  Qed.

  Theorem program_gen : forall p, Forall good (toks p) -> forall st,
    resolve_node fl (tree p) st =
    if headers_ok p
    then Ok (block_text (map (gen_s fl) p), adv fl (defs p) (calls p) (outputs p) st)
    else Err IndexErr.
  Proof.
    intros p G st. apply body_gen; [|exact G]. apply Forall_forall. intros s _. exact (proj1 stmt_gen s).
  Qed.
End stmts.
