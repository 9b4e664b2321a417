(** Model of what is reported about a die: randvar.py get_vals_probs. *)
From Coq Require Import List ZArith Bool String.
From Verif Require Import PyBase Num Val Sorting RVModel.
Import ListNotations.
Open Scope Z_scope.

(** An outcome as it is reported: a number, or the text of a label. *)
Inductive shown : Type :=
| ShN (n : num)
| ShS (s : string).

(** set membership of reported outcomes *)
Definition shown_eqb (a b : shown) : bool :=
  match a, b with
  | ShN x, ShN y => neqb x y
  | ShS x, ShS y => String.eqb x y
  | _, _ => false
  end.

Section Report.
  (** How a label is printed (string_rvs.py 31-33, 46-61 and randvar.py
      150-152) is a parameter: float formatting is not modelled. *)
  Variable show : sval -> string.

  (** randvar.py 150-152 *)
  Definition show_val (v : pval) : shown :=
    match v with VN n => ShN n | VS s => ShS (show s) end.

  (** line 148: [(v, p / s)] *)
  Definition reported (x : dist) : res (list (shown * num)) :=
    mapM (fun vp => q <- ntruediv (NI (snd vp)) (NI (sum_probs x)) ;; Ok (show_val (fst vp), q)) x.

  (** line 155: accumulate(l, lambda x, y: (y[0], x[1] + y[1]), initial=(0, 0)) *)
  Fixpoint accum (acc : shown * num) (l : list (shown * num)) : res (list (shown * num)) :=
    match l with
    | [] => Ok [acc]
    | y :: l' =>
        s <- nadd (snd acc) (snd y) ;;
        r <- accum (fst y, s) l' ;;
        Ok (acc :: r)
    end.

  Definition prob_leb (a b : shown * num) : bool := nleb (snd a) (snd b).

  (** lines 144-158 *)
  Definition get_vals_probs (x : dist) (cut : num) : res (list (shown * num)) :=
    assert_ (nleb (NI 0) cut && nltb cut (NI 1))
      (vp <- reported x ;;
       if nltb (NI 0) cut then
         acc <- accum (ShN (NI 0), NI 0) (isort prob_leb vp) ;;
         let to_cut := map fst (filter (fun a => nltb (snd a) cut) acc) in
         Ok (filter (fun a => negb (existsb (shown_eqb (fst a)) to_cut)) vp)
       else Ok vp).
End Report.
