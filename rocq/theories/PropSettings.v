(** C58: the settings. *)
From Coq Require Import String List ZArith Bool Lia.
From Verif Require Import PyBase RVModel SettingsModel SettingsFacts.
Import ListNotations.
Open Scope Z_scope.

(** [history l]: the settings after the calls [l], starting from the defaults.
    [honest_change]: the values given are not objects that claim to equal a text. *)
Theorem C58_always_valid : forall l, Forall honest_change l -> valid_settings (history l).
Proof. exact history_valid. Qed.
Print Assumptions C58_always_valid.

(** exactly these values are accepted, and this is what is stored *)
Theorem C58_acceptance : forall n v s, honest v ->
  (exists v', accepted n v v' /\ settings_set n v s = (Ok tt, put n v' s)) \/
  (~ (exists v', accepted n v v') /\ exists e, settings_set n v s = (Err e, s)).
Proof. exact set_answer. Qed.
Print Assumptions C58_acceptance.

Theorem C58_effect : forall n v s r s', settings_set n v s = (r, s') ->
  (r <> Ok tt -> s' = s) /\
  (r = Ok tt -> (forall m, m <> n -> get m s' = get m s) /\ exists v', get n s' = Some v').
Proof. exact set_effect. Qed.
Print Assumptions C58_effect.

Theorem C58_reset : forall l, history (l ++ [Reset_]) = defaults.
Proof. exact history_reset. Qed.
Print Assumptions C58_reset.

Theorem C58_names : forall l, map fst (history l) = map fst defaults.
Proof. exact history_names. Qed.
Print Assumptions C58_names.

(** the rest of the code finds usable settings; its other models take such a [cfg] *)
Theorem C58_usable : forall l, Forall honest_change l ->
  let s := history l in
  exists c, cfg_of s = Some c /\ 0 < cfg_explode c /\ 0 < cfg_maxdepth c /\ 0 < cfg_width c /\
    Some (SBool (cfg_trunc c)) = get "RV_TRUNC" s /\ Some (SBool (cfg_skip0 c)) = get "RV_IGNORE_ZERO_PROBS" s /\
    Some (SText (if cfg_highest c then "highest first" else "lowest first")) = get "position order" s.
Proof. exact (fun l H => valid_cfg _ (history_valid l H)). Qed.
Print Assumptions C58_usable.

(** An object that equals every text, such as the blank made at decorators.py 64,
    becomes the position order. *)
Definition equals_all : value := SObj false (fun _ => Ok true).
Theorem C58_position_order_refuted :
  ~ (forall l, valid_settings (history l)).
Proof.
  intro H. destruct (H [Set_ "position order" equals_all] "position order"%string) as (v & G & (V & _)); [cbn; auto 20|].
  cbn in G. injection G as <-. destruct (V eq_refl); discriminate.
Qed.
Print Assumptions C58_position_order_refuted.

Example C58_example :
  let s := history [Set_ "explode depth" (SInt 5); Set_ "explode depth" (SInt 0); Set_ "RV_TRUNC" (SText "tRue"); Set_ "position order" (SText "lowest first");
                    Set_ "colour" (SInt 1); Depth 3]%string in
  cfg_of s = Some (mkCfg true false false 5 10 180) /\ cfg_of defaults = Some default_cfg /\
  fst (settings_set "RV_TRUNC" (SInt 1) s) = Err AssertErr /\ fst (settings_set "maximum function depth" (SBool true) s) = Ok tt.
Proof. repeat split. Qed.
Example C58_example_honest : Forall honest_change [Set_ "explode depth" (SInt 5); Set_ "DEFAULT_PRINT_FN" print_fn; Reset_]%string.
Proof. repeat constructor; cbn; intros; discriminate. Qed.
