(** Settings while programs run. *)
From Coq Require Import String List.
From Verif Require Import SettingsModel SettingsFacts.
Open Scope string_scope.

(** Each setting has a value it can have; the position order may be a blank. *)
Definition nearly_valid (s : settings) : Prop :=
  forall n, In n setting_names -> exists v, get n s = Some v /\ (valid_value n v \/ n = "position order" /\ exists f, v = SObj false f).
