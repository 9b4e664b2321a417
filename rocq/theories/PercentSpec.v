(** The percentages in a printed report. *)
From Coq Require Import String Ascii List ZArith QArith Bool.
From Verif Require Import Spec PrintSpec.
Import ListNotations.
Open Scope Z_scope.

(** the percentage in a line is [n] hundredths: it stands behind the last colon and
    before the bar *)
Definition shows_percent (n : Z) (line : string) : Prop :=
  exists front gap pct k, line = (front ++ ": " ++ copies " " gap ++ pct ++ "  " ++ copies "█" k)%string /\ two_decimals n pct.

Definition sum_of (ns : list Z) : Z := fold_right Z.add 0 ns.
