(** The percentages of a report add up to 100, up to half a hundredth a line. *)
From Coq Require Import String Ascii List ZArith QArith Qabs Bool Lia Lqa.
From Verif Require Import PyBase Num Val Sorting RVModel OutModel UtilModel Obj RollModel PrintModel Spec PrintSpec PercentSpec
  RVFacts ConstructFacts IntFacts RoundFacts MassFacts UnaryFacts OutFacts StdFacts PrintFacts.
Import ListNotations.
Open Scope Z_scope.

Lemma text_assoc (a b d : string) : ((a ++ b) ++ d = a ++ b ++ d)%string.
Proof. induction a as [|x a IH]; [reflexivity|]. cbn. now rewrite IH. Qed.

Definition eps : Q := ((1 # 200) + p2 (-44))%Q.

Lemma rows_percents t (T : 0 < t) (text : pval -> string) w b es lines :
  Forall2 (fun e line => row w b (inject_Z (snd e) / inject_Z t) (text (fst e)) line) es lines ->
  exists ns, Forall2 shows_percent ns lines /\ length ns = length es /\
    (Qabs (inject_Z (sum_of ns) / 100 - 100 * (inject_Z (total es) / inject_Z t)) <= eps * inject_Z (Z.of_nat (length es)))%Q.
Proof.
  induction 1 as [|[v p] line es lines R _ [ns [F [L B]]]].
  - exists []. split; [constructor|]. split; [reflexivity|]. cbn [length sum_of fold_right Z.of_nat].
    change (total (@nil (pval * Z))) with 0. unfold Qdiv. change (inject_Z 0) with 0%Q.
    assert (X : (0 * / 100 - 100 * (0 * / inject_Z t) == 0)%Q) by ring. rewrite X. rewrite Qmult_0_r. vm_compute. discriminate.
  - cbn [snd fst] in R. destruct R as [gap [gap' [pct [n [k [E [_ [_ [D [Q _]]]]]]]]]].
    exists (n :: ns). split; [|split].
    + constructor; [|exact F]. exists (copies " " gap ++ text v)%string, gap', pct, k. split; [|exact D]. rewrite E. now rewrite text_assoc.
    + cbn [length]. now rewrite L.
    + change (sum_of (n :: ns)) with (n + sum_of ns).
      assert (Tt : total ((v, p) :: es) = p + total es) by reflexivity. rewrite Tt. cbn [length]. rewrite Nat2Z.inj_succ. unfold Z.succ.
      rewrite !inject_Z_plus. change (inject_Z 1) with 1%Q. fold eps in Q.
      apply Qabs_Qle_condition in Q. apply Qabs_Qle_condition in B. apply Qabs_Qle_condition.
      unfold Qdiv in *. rewrite !Qmult_plus_distr_l, !Qmult_plus_distr_r, Qmult_1_r. lra.
Qed.

Theorem percents_add c show ftext square w0 x named width head : proper (rv_dist x) -> 0 <= width <= 2 ^ 53 ->
  summary c ftext square (rv_dist x) = Ok head ->
  exists lines ns,
    report c show ftext square w0 (ORV x) named true (Some width) (NI 0) = Ok (heading named ++ head ++ lines_text lines width)%string /\
    length lines = length (rv_dist x) /\ Forall2 shows_percent ns lines /\
    (Qabs (inject_Z (sum_of ns) / 100 - 100) <= ((1 # 200) + p2 (-44)) * inject_Z (Z.of_nat (length (rv_dist x))))%Q.
Proof.
  intros P W E. destruct (report_text c show ftext square w0 x named width head P W E) as [lines [R F]].
  unfold report_rows in F. cbv zeta in F. destruct (rows_percents (total (rv_dist x)) (proj2 P) (fun v => shown_text ftext (show_val show v)) _ _ _ _ F) as [ns [S [L B]]].
  exists lines, ns. split; [exact R|]. split; [rewrite <- L; symmetry; clear -S; induction S; cbn; congruence|]. split; [exact S|]. fold eps.
  assert (X : (100 * (inject_Z (total (rv_dist x)) / inject_Z (total (rv_dist x))) == 100)%Q).
  { field. intros Z. pose proof (proj2 P).
    assert (inject_Z (total (rv_dist x)) == inject_Z 0)%Q by exact Z. rewrite inject_Z_injective in H0. lia. }
  rewrite X in B. exact B.
Qed.

