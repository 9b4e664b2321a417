(** Facts about the settings. *)
From Coq Require Import String Ascii List ZArith Bool Lia.
From Verif Require Import PyBase Num Val RVModel SettingsModel.
Import ListNotations.
Open Scope Z_scope.

(** no text equals the object *)
Definition honest (v : value) : Prop := match v with SObj _ f => forall t, f t <> Ok true | _ => True end.
Definition honest_change (x : change) : Prop := match x with Set_ _ v => honest v | _ => True end.

(** a value as an int greater than 0 *)
Definition is_positive (v : value) : Prop := exists z, as_num (Some v) = Some z /\ 0 < z.

(** what every setting must be *)
Definition valid_value (n : string) (v : value) : Prop :=
  (n = "position order" -> v = SText "highest first" \/ v = SText "lowest first")%string /\
  (n = "explode depth" \/ n = "maximum function depth" \/ n = "DEFAULT_OUTPUT_WIDTH" -> is_positive v)%string /\
  (n = "RV_TRUNC" \/ n = "RV_IGNORE_ZERO_PROBS" -> exists b, v = SBool b)%string /\
  (n = "DEFAULT_PRINT_FN" -> is_callable v = true)%string.
Definition setting_names : list string :=
  ["RV_TRUNC"; "RV_IGNORE_ZERO_PROBS"; "DEFAULT_OUTPUT_WIDTH"; "DEFAULT_PRINT_FN"; "position order"; "explode depth"; "maximum function depth"]%string.
Definition valid_settings (s : settings) : Prop :=
  forall n, In n setting_names -> exists v, get n s = Some v /\ valid_value n v.

Lemma get_put n m v s : get m (put n v s) = if String.eqb n m then Some v else get m s.
Proof.
  induction s as [|[k w] s IH]; cbn [get put].
  - reflexivity.
  - destruct (String.eqb_spec k n) as [->|N]; cbn [get].
    + destruct (String.eqb n m); reflexivity.
    + destruct (String.eqb_spec k m) as [->|M]; [|exact IH]. destruct (String.eqb_spec n m); [congruence|reflexivity].
Qed.

Lemma put_names n v s : get n s <> None -> map fst (put n v s) = map fst s.
Proof.
  induction s as [|[k w] s IH]; cbn [get put]; [congruence|]. destruct (String.eqb_spec k n) as [->|N]; [reflexivity|].
  intro H. cbn [map fst]. f_equal. apply IH, H.
Qed.

Lemma positive_int_spec v : positive_int v = true <-> is_positive v.
Proof.
  unfold is_positive. destruct v as [b|z|s|cb f]; cbn [positive_int as_num].
  - split; [intros ->; exists 1; split; [reflexivity|lia]|]. intros (z & E & P). destruct b; [reflexivity|]. injection E as <-. lia.
  - rewrite Z.ltb_lt. split; [intro; exists z; auto|]. intros (z' & E & P). injection E as <-. exact P.
  - split; [discriminate|]. intros (z & E & _). discriminate E.
  - split; [discriminate|]. intros (z & E & _). discriminate E.
Qed.

Lemma in_orders v : honest v -> value_in v ["highest first"; "lowest first"]%string = Ok true ->
  (v = SText "highest first" \/ v = SText "lowest first")%string.
Proof.
  intros H. unfold value_in. destruct v as [b|z|s|cb f]; cbn [text_eq]; try discriminate.
  - cbn [bind]. destruct (String.eqb_spec "highest first" s) as [<-|]; [auto|]. cbn [bind]. destruct (String.eqb_spec "lowest first" s) as [<-|]; [auto|discriminate].
  - cbn [honest] in H. pose proof (H "highest first"%string) as H1. pose proof (H "lowest first"%string) as H2.
    destruct (f "highest first"%string) as [[]|]; cbn [bind]; try congruence. destruct (f "lowest first"%string) as [[]|]; cbn [bind]; congruence.
Qed.

(** the exact answer of settings_set *)
Definition accepted (n : string) (v v' : value) : Prop :=
  (In n ["explode depth"; "maximum function depth"; "DEFAULT_OUTPUT_WIDTH"] /\ is_positive v /\ v' = v)%string \/
  (n = "position order" /\ (v = SText "highest first" \/ v = SText "lowest first") /\ v' = v)%string \/
  (In n ["RV_TRUNC"; "RV_IGNORE_ZERO_PROBS"] /\
     exists b, v' = SBool b /\ (v = SBool b \/ exists s, v = SText s /\ lower s = if b then "true" else "false"))%string \/
  (n = "DEFAULT_PRINT_FN" /\ is_callable v = true /\ v' = v)%string.

Lemma flag_spec v b : read_flag v = Ok b <-> v = SBool b \/ exists s, v = SText s /\ lower s = (if b then "true" else "false")%string.
Proof.
  destruct v as [b'|z|s|cb f]; cbn [read_flag].
  - split; [intro E; injection E as ->; auto|]. intros [E|(s & E & _)]; [injection E as ->; reflexivity|discriminate E].
  - split; [discriminate|]. intros [E|(s & E & _)]; discriminate E.
  - split.
    + destruct (String.eqb_spec (lower s) "true") as [E|E]; [intro X; injection X as <-; eauto|].
      destruct (String.eqb_spec (lower s) "false") as [E'|E']; cbn; [intro X; injection X as <-; eauto|discriminate].
    + intros [E|(s' & E & L)]; [discriminate E|]. injection E as <-. rewrite L. destruct b; reflexivity.
  - split; [discriminate|]. intros [E|(s & E & _)]; discriminate E.
Qed.

Lemma checked_spec n v v' : honest v -> (checked n v = Ok v' <-> accepted n v v').
Proof.
  intros H. unfold checked, accepted.
  destruct (String.eqb_spec n "position order") as [->|N1].
  { split.
    - intro E. destruct (value_in v ["highest first"; "lowest first"]%string) as [[]|] eqn:I; cbn in E; try discriminate E. injection E as <-.
      right. left. repeat split. apply in_orders; assumption.
    - intros [(I & _)|[(_ & [-> | ->] & ->)|[(I & _)|(I & _)]]]; try reflexivity; try discriminate I; cbn in I; intuition discriminate. }
  destruct (String.eqb_spec n "explode depth") as [->|N2].
  { split.
    - destruct (positive_int v) eqn:P; cbn; [|discriminate]. intro E; injection E as <-. left. repeat split; [cbn; auto|apply positive_int_spec, P].
    - intros [(_ & P & ->)|[(I & _)|[(I & _)|(I & _)]]]; try discriminate I; [apply positive_int_spec in P; rewrite P; reflexivity|cbn in I; intuition discriminate]. }
  destruct (String.eqb_spec n "maximum function depth") as [->|N3].
  { split.
    - destruct (positive_int v) eqn:P; cbn; [|discriminate]. intro E; injection E as <-. left. repeat split; [cbn; auto|apply positive_int_spec, P].
    - intros [(_ & P & ->)|[(I & _)|[(I & _)|(I & _)]]]; try discriminate I; [apply positive_int_spec in P; rewrite P; reflexivity|cbn in I; intuition discriminate]. }
  destruct (String.eqb n "RV_TRUNC" || String.eqb n "RV_IGNORE_ZERO_PROBS") eqn:F.
  { assert (IN : In n ["RV_TRUNC"; "RV_IGNORE_ZERO_PROBS"]%string) by (apply orb_true_iff in F; rewrite !String.eqb_eq in F; cbn; intuition auto).
    split.
    - destruct (read_flag v) as [b|] eqn:R; cbn; [|discriminate]. intro E; injection E as <-. right. right. left. split; [exact IN|]. exists b. split; [reflexivity|]. apply flag_spec, R.
    - intros [(I & _)|[(I & _)|[(_ & b & -> & R)|(I & _)]]].
      + exfalso. cbn in I, IN. destruct IN as [<-|[<-|[]]]; intuition discriminate.
      + exfalso. contradiction.
      + apply flag_spec in R. rewrite R. reflexivity.
      + exfalso. subst n. cbn in IN. intuition discriminate. }
  apply orb_false_iff in F. rewrite !String.eqb_neq in F. destruct F as [F1 F2].
  destruct (String.eqb_spec n "DEFAULT_OUTPUT_WIDTH") as [->|N4].
  { split.
    - destruct (positive_int v) eqn:P; cbn; [|discriminate]. intro E; injection E as <-. left. repeat split; [cbn; auto|apply positive_int_spec, P].
    - intros [(_ & P & ->)|[(I & _)|[(I & _)|(I & _)]]]; try discriminate I; [apply positive_int_spec in P; rewrite P; reflexivity|cbn in I; intuition discriminate]. }
  destruct (String.eqb_spec n "DEFAULT_PRINT_FN") as [->|N5].
  { split.
    - destruct (is_callable v) eqn:P; cbn; [|discriminate]. intro E; injection E as <-. right. right. right. repeat split.
    - intros [(I & _)|[(I & _)|[(I & _)|(_ & P & ->)]]]; try discriminate I; [cbn in I; intuition discriminate|cbn in I; intuition discriminate|rewrite P; reflexivity]. }
  split; [discriminate|]. intros [(I & _)|[(I & _)|[(I & _)|(I & _)]]]; try contradiction; cbn in I; intuition congruence.
Qed.

Lemma accepted_valid n v v' : accepted n v v' -> In n setting_names /\ valid_value n v'.
Proof.
  intros [(I & P & ->)|[(-> & P & ->)|[(I & b & -> & P)|(-> & P & ->)]]].
  - split; [cbn in *; intuition (subst; auto 20)|]. unfold valid_value. cbn in I. destruct I as [<-|[<-|[<-|[]]]]; repeat split; auto; try discriminate; intuition discriminate.
  - split; [cbn; auto 20|]. unfold valid_value. repeat split; auto; try discriminate; intuition discriminate.
  - split; [cbn in *; intuition (subst; auto 20)|]. unfold valid_value. cbn in I. destruct I as [<-|[<-|[]]]; repeat split; eauto; try discriminate; intuition discriminate.
  - split; [cbn; auto 20|]. unfold valid_value. repeat split; auto; try discriminate; intuition discriminate.
Qed.

Lemma set_answer n v s : honest v ->
  ((exists v', accepted n v v' /\ settings_set n v s = (Ok tt, put n v' s)) \/
   (~ (exists v', accepted n v v') /\ exists e, settings_set n v s = (Err e, s))).
Proof.
  intro H. unfold settings_set. destruct (checked n v) as [v'|e] eqn:E.
  - left. exists v'. split; [apply checked_spec; assumption|reflexivity].
  - right. split; [|eauto]. intros (v' & A). apply checked_spec in A; [|exact H]. congruence.
Qed.

Lemma set_effect n v s r s' : settings_set n v s = (r, s') ->
  (r <> Ok tt -> s' = s) /\
  (r = Ok tt -> (forall m, m <> n -> get m s' = get m s) /\ exists v', get n s' = Some v').
Proof.
  unfold settings_set. destruct (checked n v) as [v'|e]; intro E; injection E as <- <-; split; try congruence.
  intros _. split.
  - intros m N. rewrite get_put. destruct (String.eqb_spec n m); [congruence|reflexivity].
  - exists v'. rewrite get_put, String.eqb_refl. reflexivity.
Qed.

Lemma put_valid n v s : valid_settings s -> (In n setting_names -> valid_value n v) -> valid_settings (put n v s).
Proof.
  intros H V m I. rewrite get_put. destruct (String.eqb_spec n m) as [->|N]; [|apply H, I]. exists v. auto.
Qed.

Lemma defaults_valid : valid_settings defaults.
Proof.
  intros n I. cbn in I. decompose [or] I; subst; try contradiction; eexists; (split; [reflexivity|]); unfold valid_value; repeat split;
    try discriminate; try (intuition discriminate); intros _; eauto; eexists; split; try reflexivity; lia.
Qed.

Lemma history_valid l : Forall honest_change l -> valid_settings (history l).
Proof.
  unfold history. intro F. assert (D := defaults_valid). revert D. generalize defaults as s. induction F as [|x l H F IH]; intros s V; [exact V|].
  cbn [fold_left]. apply IH. destruct x as [n v| |z|]; cbn [apply].
  - unfold settings_set. destruct (checked n v) as [v'|e] eqn:E; [|exact V]. cbn [snd]. apply put_valid; [exact V|].
    intros _. apply checked_spec in E; [|exact H]. apply (accepted_valid _ _ _ E).
  - exact defaults_valid.
  - apply put_valid; [exact V|]. cbn. intuition discriminate.
  - apply put_valid; [exact V|]. cbn. intuition discriminate.
Qed.

(** the other models can use the settings *)
Lemma valid_cfg s : valid_settings s ->
  exists c, cfg_of s = Some c /\ 0 < cfg_explode c /\ 0 < cfg_maxdepth c /\ 0 < cfg_width c /\
    Some (SBool (cfg_trunc c)) = get "RV_TRUNC" s /\ Some (SBool (cfg_skip0 c)) = get "RV_IGNORE_ZERO_PROBS" s /\
    Some (SText (if cfg_highest c then "highest first" else "lowest first")) = get "position order" s.
Proof.
  intros V.
  destruct (V "RV_TRUNC"%string) as (v1 & G1 & (_ & _ & V1 & _)); [cbn; auto 20|].
  destruct (V "RV_IGNORE_ZERO_PROBS"%string) as (v2 & G2 & (_ & _ & V2 & _)); [cbn; auto 20|].
  destruct (V "position order"%string) as (v3 & G3 & (V3 & _)); [cbn; auto 20|].
  destruct (V "explode depth"%string) as (v4 & G4 & (_ & V4 & _)); [cbn; auto 20|].
  destruct (V "maximum function depth"%string) as (v5 & G5 & (_ & V5 & _)); [cbn; auto 20|].
  destruct (V "DEFAULT_OUTPUT_WIDTH"%string) as (v6 & G6 & (_ & V6 & _)); [cbn; auto 20|].
  destruct V1 as (b1 & ->); [auto|]. destruct V2 as (b2 & ->); [auto|].
  destruct V4 as (z4 & E4 & P4); [auto|]. destruct V5 as (z5 & E5 & P5); [auto|]. destruct V6 as (z6 & E6 & P6); [auto|].
  unfold cfg_of. rewrite G1, G2, G3, G4, G5, G6, E4, E5, E6. cbn [as_flag].
  destruct (V3 eq_refl) as [-> | ->]; eexists; (split; [reflexivity|]); cbn; repeat split; assumption.
Qed.

Lemma history_reset l : history (l ++ [Reset_]) = defaults.
Proof. unfold history. rewrite fold_left_app. reflexivity. Qed.

(** names are never added or removed *)
Lemma history_names l : map fst (history l) = map fst defaults.
Proof.
  unfold history. assert (G : forall s, map fst s = map fst defaults -> map fst (fold_left (fun s x => apply x s) l s) = map fst defaults); [|apply G; reflexivity].
  induction l as [|x l IH]; intros s H; [exact H|]. cbn [fold_left]. apply IH.
  assert (P : forall n v, In n (map fst defaults) -> map fst (put n v s) = map fst defaults).
  { intros n v I. rewrite put_names; [exact H|]. rewrite <- H in I. clear -I. induction s as [|[k w] s IH]; [destruct I|]. cbn [get].
    destruct (String.eqb_spec k n); [discriminate|]. apply IH. destruct I; [cbn in *; congruence|assumption]. }
  destruct x as [n v| |z|]; cbn [apply].
  - unfold settings_set. destruct (checked n v) as [v'|e] eqn:E; [|exact H]. cbn [snd]. apply P.
    unfold checked in E. repeat match type of E with (if ?b then _ else _) = _ => destruct b eqn:?B end; try discriminate E;
      repeat match goal with K : String.eqb _ _ = true |- _ => apply String.eqb_eq in K; subst n end; try (cbn; auto 20).
    match goal with K : (_ || _) = true |- _ => apply orb_true_iff in K; rewrite !String.eqb_eq in K; destruct K as [-> | ->]; cbn; auto 20 end.
  - reflexivity.
  - apply P. cbn. auto 20.
  - apply P. cbn. auto 20.
Qed.
