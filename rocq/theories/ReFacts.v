(** Facts about Python's regular expressions. *)
From Coq Require Import String Ascii Bool List Arith Lia.
From Verif Require Import LexModel LexSpec LexFacts ReSem.
Import ListNotations.
Open Scope string_scope.

(** A pattern finds first what a matcher of the lexer finds. *)
Definition reads (r : re) (m : matcher) : Prop := forall pos s l,
  match hd_error (ways r (mkSpot pos s l)), m s with
  | Some y, Some (v, rest) => sp_pos y = pos + String.length v /\ sp_rest y = rest
  | None, None => True
  | _, _ => False
  end.

Lemma hd_app {A} (a b : list A) : hd_error (a ++ b) = match hd_error a with Some y => Some y | None => hd_error b end.
Proof. now destruct a. Qed.

Lemma reads_char c : reads (RChar c) (m_lit (String c EmptyString)).
Proof.
  intros pos s l. cbn [ways m_lit]. unfold one. cbn [sp_rest sp_pos sp_last]. destruct s as [|d s]; [exact Logic.I|].
  destruct (Ascii.eqb c d); cbn; [split; [lia|reflexivity]|exact Logic.I].
Qed.

Lemma reads_two c d : reads (RCat (RChar c) (RChar d)) (m_lit (String c (String d EmptyString))).
Proof.
  intros pos s l. cbn [ways m_lit]. unfold one. cbn [sp_rest sp_pos sp_last]. destruct s as [|x s]; [exact Logic.I|].
  destruct (Ascii.eqb c x); [|exact Logic.I]. cbn [flat_map sp_rest sp_pos sp_last]. destruct s as [|y s]; [exact Logic.I|].
  destruct (Ascii.eqb d y); cbn; [split; [lia|reflexivity]|exact Logic.I].
Qed.

(** ** Repeated classes *)

(** patterns of one character *)
Definition single (r : re) (p : ascii -> bool) : Prop := forall x, ways r x = one p x.

Lemma loop_ext g f h n : (forall x, f x = h x) -> forall x, loop g f n x = loop g h n x.
Proof.
  intros E. induction n as [|n IH]; intros x; [reflexivity|]. cbn [loop]. rewrite (E x).
  now rewrite (flat_map_ext (loop g f n) (loop g h n) IH).
Qed.

Lemma loop_class p : forall s pos l,
  exists ys, loop true (one p) (String.length s) (mkSpot pos s l)
    = mkSpot (pos + String.length (fst (span p s))) (snd (span p s)) l :: ys
  /\ Forall (fun y => exists c r, sp_rest y = String c r /\ p c = true) ys.
Proof.
  induction s as [|c s IH]; intros pos l.
  - exists []. cbn. rewrite Nat.add_0_r. now split.
  - cbn [String.length loop]. unfold one at 2. cbn [sp_rest sp_pos sp_last span]. destruct (p c) eqn:E.
    + cbn [filter]. assert (P : progress (mkSpot pos (String c s) l) (mkSpot (S pos) s l) = true).
      { unfold progress. cbn [sp_rest String.length]. apply Nat.ltb_lt. lia. }
      rewrite P. cbn [flat_map]. rewrite app_nil_r. destruct (IH (S pos) l) as (ys & -> & F).
      destruct (span p s) as [a b] eqn:ES. cbn [fst snd String.length app]. exists (ys ++ [mkSpot pos (String c s) l])%list.
      split; [now rewrite Nat.add_succ_r|]. apply Forall_app. split; [exact F|]. constructor; [|constructor].
      exists c, s. now split.
    + cbn [filter flat_map app fst snd String.length]. exists []. rewrite Nat.add_0_r. now split.
Qed.

Lemma ways_star r p x : single r p -> ways (RStar true r) x = loop true (one p) (String.length (sp_rest x)) x.
Proof. intros S. cbn [ways]. now apply loop_ext. Qed.

(** all ways of [r+] *)
Lemma ways_plus r p pos s l : single r p -> match m_plus p s with
  | Some (v, rest) => exists ys, ways (RCat r (RStar true r)) (mkSpot pos s l) = mkSpot (pos + String.length v) rest l :: ys
      /\ Forall (fun y => exists c r, sp_rest y = String c r /\ p c = true) ys
  | None => ways (RCat r (RStar true r)) (mkSpot pos s l) = []
  end.
Proof.
  intros S. change (ways (RCat r (RStar true r)) (mkSpot pos s l)) with
    (flat_map (ways (RStar true r)) (ways r (mkSpot pos s l))). rewrite S. unfold one, m_plus. cbn [sp_rest sp_pos sp_last].
  destruct s as [|c s]; [reflexivity|]. cbn [span]. destruct (p c) eqn:E; [|reflexivity].
  cbn [flat_map]. rewrite app_nil_r. rewrite (ways_star r p _ S). cbn [sp_rest].
  destruct (loop_class p s (Datatypes.S pos) l) as (ys & -> & F). destruct (span p s) as [a b]. cbn [fst snd String.length].
  exists ys. split; [now rewrite Nat.add_succ_r|exact F].
Qed.

Lemma reads_plus r p : single r p -> reads (RCat r (RStar true r)) (m_plus p).
Proof.
  intros S pos s l. pose proof (ways_plus r p pos s l S) as H. destruct (m_plus p s) as [[v rest]|].
  - destruct H as (ys & -> & _). cbn [hd_error]. now split.
  - rewrite H. exact Logic.I.
Qed.

(** a character and a class, repeated *)
Lemma reads_open_star c r p : single r p -> reads (RCat (RChar c) (RStar true r))
  (fun s => match s with
            | String d s' => if Ascii.eqb d c then let '(a, b) := span p s' in Some (String d a, b) else None
            | EmptyString => None
            end).
Proof.
  intros S pos s l. change (ways (RCat (RChar c) (RStar true r)) (mkSpot pos s l)) with
    (flat_map (ways (RStar true r)) (one (Ascii.eqb c) (mkSpot pos s l))). unfold one. cbn [sp_rest sp_pos sp_last].
  destruct s as [|d s]; [exact Logic.I|]. rewrite (Ascii.eqb_sym c d). destruct (Ascii.eqb d c); [|exact Logic.I].
  cbn [flat_map]. rewrite app_nil_r, (ways_star r p _ S). cbn [sp_rest].
  destruct (loop_class p s (Datatypes.S pos) l) as (ys & -> & _). destruct (span p s) as [a b]. cbn [fst snd hd_error sp_pos sp_rest String.length].
  split; [lia|reflexivity].
Qed.

(** a class, repeated, between two characters; the second one is not of the class *)
Lemma reads_between c r p d : single r p -> p d = false ->
  reads (RCat (RChar c) (RCat (RCat r (RStar true r)) (RChar d)))
  (fun s => match s with
            | String x s' =>
                if Ascii.eqb x c then
                  match m_plus p s' with
                  | Some (a, String y rest) => if Ascii.eqb y d then Some (String x (a ++ String y EmptyString), rest) else None
                  | _ => None
                  end
                else None
            | EmptyString => None
            end).
Proof.
  intros S PD pos s l. change (ways (RCat (RChar c) (RCat (RCat r (RStar true r)) (RChar d))) (mkSpot pos s l)) with
    (flat_map (fun x => flat_map (one (Ascii.eqb d)) (ways (RCat r (RStar true r)) x)) (one (Ascii.eqb c) (mkSpot pos s l))).
  unfold one at 2. cbn [sp_rest sp_pos sp_last]. destruct s as [|x s]; [exact Logic.I|].
  rewrite (Ascii.eqb_sym c x). destruct (Ascii.eqb x c); [|exact Logic.I]. cbn [flat_map]. rewrite app_nil_r.
  pose proof (ways_plus r p (Datatypes.S pos) s l S) as H. destruct (m_plus p s) as [[a b]|].
  - destruct H as (ys & -> & F). cbn [flat_map].
    assert (N : flat_map (one (Ascii.eqb d)) ys = []).
    { induction F as [|y ys (e & q & E & P) F IH]; [reflexivity|]. cbn [flat_map]. rewrite IH, app_nil_r. unfold one. rewrite E.
      destruct (Ascii.eqb_spec d e); [subst; congruence|reflexivity]. }
    rewrite N, app_nil_r. unfold one. cbn [sp_rest sp_pos sp_last]. destruct b as [|y b]; [exact Logic.I|].
    rewrite (Ascii.eqb_sym d y). destruct (Ascii.eqb y d); [|exact Logic.I]. cbn [hd_error sp_pos sp_rest String.length].
    split; [|reflexivity]. rewrite slen_app. cbn. lia.
  - rewrite H. exact Logic.I.
Qed.

(** ** As little as possible up to a character *)

Lemma any_char g pos c s l :
  ways (RGroup g (RAlt RAny (RChar newline_char))) (mkSpot pos (String c s) l) = [mkSpot (S pos) s (Some g)].
Proof.
  cbn [ways]. unfold one. cbn [sp_rest sp_pos sp_last]. rewrite (Ascii.eqb_sym newline_char c).
  now destruct (Ascii.eqb c newline_char).
Qed.

Lemma lazy_through g d : forall s pos l,
  match hd_error (flat_map (one (Ascii.eqb d))
          (loop false (ways (RGroup g (RAlt RAny (RChar newline_char)))) (String.length s) (mkSpot pos s l))), through d s with
  | Some y, Some (v, rest) => sp_pos y = pos + String.length v /\ sp_rest y = rest
  | None, None => True
  | _, _ => False
  end.
Proof.
  induction s as [|c s IH]; intros pos l; [exact Logic.I|].
  cbn [String.length loop]. rewrite any_char. cbn [filter].
  assert (P : progress (mkSpot pos (String c s) l) (mkSpot (S pos) s (Some g)) = true).
  { unfold progress. cbn [sp_rest String.length]. apply Nat.ltb_lt. lia. }
  rewrite P. cbn [flat_map]. rewrite app_nil_r. unfold one at 1. cbn [sp_rest sp_pos sp_last through].
  destruct (Ascii.eqb d c).
  - cbn. split; [lia|reflexivity].
  - rewrite app_nil_l. specialize (IH (S pos) (Some g)). destruct (hd_error _) as [y|]; destruct (through d s) as [[v rest]|]; try exact IH.
    destruct IH as [A B]. split; [cbn [String.length]; lia|exact B].
Qed.

Lemma reads_comment g c : reads (RCat (RChar c) (RCat (RStar false (RGroup g (RAlt RAny (RChar newline_char)))) (RChar c)))
  (fun s => match s with
            | String x s' => if Ascii.eqb x c then
                               match through c s' with Some (a, b) => Some (String x a, b) | None => None end
                             else None
            | EmptyString => None
            end).
Proof.
  intros pos s l. change (ways (RCat (RChar c) (RCat (RStar false (RGroup g (RAlt RAny (RChar newline_char)))) (RChar c))) (mkSpot pos s l)) with
    (flat_map (fun x => flat_map (one (Ascii.eqb c))
        (loop false (ways (RGroup g (RAlt RAny (RChar newline_char)))) (String.length (sp_rest x)) x)) (one (Ascii.eqb c) (mkSpot pos s l))).
  unfold one at 2. cbn [sp_rest sp_pos sp_last]. destruct s as [|x s]; [exact Logic.I|].
  rewrite (Ascii.eqb_sym c x). destruct (Ascii.eqb x c); [|exact Logic.I]. cbn [flat_map sp_rest]. rewrite app_nil_r.
  pose proof (lazy_through g c s (S pos) l) as H. destruct (hd_error _) as [y|]; destruct (through c s) as [[v rest]|]; try exact H.
  destruct H as [A B]. split; [cbn [String.length]; lia|exact B].
Qed.

(** ** Alternatives of numbered groups *)

Fixpoint chain (l : list (nat * re)) : re :=
  match l with
  | [] => REmpty
  | [(i, r)] => RGroup i r
  | (i, r) :: l' => RAlt (RGroup i r) (chain l')
  end.

(** the first rule that matches, with the number of its group *)
Fixpoint first_of (l : list (nat * rule)) (s : string) : option (string * string * (nat * rule)) :=
  match l with
  | [] => None
  | (i, (m, a)) :: l' => match m s with Some (v, r) => Some (v, r, (i, (m, a))) | None => first_of l' s end
  end.

Lemma first_of_match l s : first_match (map snd l) s =
  match first_of l s with Some (v, r, (_, (_, a))) => Some (v, r, a) | None => None end.
Proof.
  induction l as [|[i [m a]] l IH]; [reflexivity|]. cbn [map snd first_match first_of]. now destruct (m s) as [[v r]|].
Qed.

Lemma first_of_some l s v r i m a : first_of l s = Some (v, r, (i, (m, a))) -> In (i, (m, a)) l /\ m s = Some (v, r).
Proof.
  induction l as [|[j [m' a']] l IH]; [discriminate|]. cbn [first_of]. destruct (m' s) as [[v' r']|] eqn:E.
  - intros H. injection H as -> -> -> -> ->. split; [now left|exact E].
  - intros H. destruct (IH H) as [A B]. split; [now right|exact B].
Qed.

Lemma chain_first (lr : list (nat * re)) (lm : list (nat * rule)) pos s l :
  lr <> [] -> Forall2 (fun a b => fst a = fst b /\ reads (snd a) (fst (snd b))) lr lm ->
  hd_error (ways (chain lr) (mkSpot pos s l)) =
  match first_of lm s with
  | Some (v, rest, (i, _)) => Some (mkSpot (pos + String.length v) rest (Some i))
  | None => None
  end.
Proof.
  intros N F. induction F as [|[i r] [j [m a]] lr lm [E R] F IH]; [contradiction|]. cbn [fst snd] in E, R. subst j.
  cbn [first_of]. assert (G : hd_error (ways (RGroup i r) (mkSpot pos s l)) =
    match m s with Some (v, rest) => Some (mkSpot (pos + String.length v) rest (Some i)) | None => None end).
  { cbn [ways]. specialize (R pos s l). destruct (ways r (mkSpot pos s l)) as [|y ys]; cbn [map hd_error] in *.
    - destruct (m s) as [[v rest]|]; [destruct R|reflexivity].
    - destruct (m s) as [[v rest]|]; [|destruct R]. destruct R as [-> ->]. reflexivity. }
  destruct lr as [|ir lr].
  - inversion F; subst. cbn [chain first_of]. rewrite G. now destruct (m s) as [[v rest]|].
  - change (chain ((i, r) :: ir :: lr)) with (RAlt (RGroup i r) (chain (ir :: lr))).
    change (ways (RAlt (RGroup i r) (chain (ir :: lr))) (mkSpot pos s l)) with
      (ways (RGroup i r) (mkSpot pos s l) ++ ways (chain (ir :: lr)) (mkSpot pos s l))%list.
    rewrite hd_app, G. destruct (m s) as [[v rest]|]; [reflexivity|]. apply IH. discriminate.
Qed.

(** ** Texts cut at a position *)

Lemma drop_app a b : drop (String.length a) (a ++ b) = b.
Proof. now induction a as [|c a IH]. Qed.
Lemma take_app a b : take (String.length a) (a ++ b) = a.
Proof. induction a as [|c a IH]; [now destruct b|]. cbn [String.length append take]. now rewrite IH. Qed.
Lemma drop_plus n m s : drop (n + m) s = drop m (drop n s).
Proof.
  revert s. induction n as [|n IH]; intros s; [reflexivity|]. destruct s as [|c s]; [now destruct m|]. cbn [Nat.add drop]. apply IH.
Qed.
Lemma drop_zero s : drop 0 s = s.
Proof. now destruct s. Qed.
