(** The pattern by which labels that read as numbers are recognised (string_rvs.py line 33). *)
From Coq Require Import String Ascii Bool List Arith Lia.
From Verif Require Import PrintSpec ReSem ReFacts LexFacts.
Import ListNotations.
Open Scope string_scope.

Definition number_pattern : string := "^-?\d+(\.\d+)?$".

Definition dig : re := RIn false [CDigit].
Definition digs : re := RCat dig (RStar true dig).
Definition number_re : re :=
  RCat RBegin (RCat (RAlt (RChar "-") REmpty) (RCat digs (RCat (RAlt (RGroup 1 (RCat (RChar ".") digs)) REmpty) REnd))).

Lemma number_compiled : re_compile false number_pattern = Some (number_re, []).
Proof. vm_compute. reflexivity. Qed.

Definition digit_char (a : ascii) : Prop := In a (list_ascii_of_string "0123456789").
Definition all_digits (s : string) : Prop := Forall digit_char (list_ascii_of_string s).
Definition isd (c : ascii) : bool := in_class false [CDigit] c.

Lemma isd_digit c : isd c = true <-> digit_char c.
Proof.
  split.
  - destruct c as [[|] [|] [|] [|] [|] [|] [|] [|]]; intros H; vm_compute in H; try discriminate H; unfold digit_char; cbn; tauto.
  - unfold digit_char. cbn. intros H. repeat (destruct H as [<-|H]; [reflexivity|]). destruct H.
Qed.

Lemma in_loop : forall s pos l y, In y (loop true (one isd) (String.length s) (mkSpot pos s l)) <->
  exists a b, s = a ++ b /\ all_digits a /\ y = mkSpot (pos + String.length a) b l.
Proof.
  induction s as [|c s IH]; intros pos l y.
  - cbn. split.
    + intros [<-|[]]. exists "", "". split; [reflexivity|]. split; [constructor|]. now rewrite Nat.add_0_r.
    + intros (a & b & E & _ & ->). left. destruct a as [|d a]; [|discriminate E]. cbn in E. subst b. now rewrite Nat.add_0_r.
  - cbn [String.length loop]. unfold one at 2. cbn [sp_rest sp_pos sp_last]. rewrite in_app_iff.
    assert (P : progress (mkSpot pos (String c s) l) (mkSpot (S pos) s l) = true).
    { unfold progress. cbn [sp_rest String.length]. apply Nat.ltb_lt. lia. }
    split.
    + intros [H|[<-|[]]].
      * destruct (isd c) eqn:E; [|destruct H]. cbn [filter] in H. rewrite P in H. cbn [flat_map] in H. rewrite app_nil_r in H.
        apply IH in H. destruct H as (a & b & -> & A & ->). exists (String c a), b. split; [reflexivity|]. split.
        -- constructor; [now apply isd_digit|exact A].
        -- cbn [String.length]. now rewrite Nat.add_succ_r.
      * exists "", (String c s). split; [reflexivity|]. split; [constructor|]. now rewrite Nat.add_0_r.
    + intros (a & b & E & A & ->). destruct a as [|d a].
      * right. left. cbn in E. subst b. now rewrite Nat.add_0_r.
      * left. cbn in E. injection E as <- ->. inversion A as [|? ? D A']; subst. apply isd_digit in D. rewrite D. cbn [filter]. rewrite P.
        cbn [flat_map]. rewrite app_nil_r. apply IH. exists a, b. split; [reflexivity|]. split; [exact A'|]. cbn [String.length].
        now rewrite Nat.add_succ_r.
Qed.

Lemma in_digs s pos l y : In y (ways digs (mkSpot pos s l)) <->
  exists a b, s = a ++ b /\ digit_text a /\ y = mkSpot (pos + String.length a) b l.
Proof.
  change (ways digs (mkSpot pos s l)) with (flat_map (fun x => loop true (one isd) (String.length (sp_rest x)) x) (one isd (mkSpot pos s l))).
  rewrite in_flat_map. unfold one at 1. cbn [sp_rest sp_pos sp_last]. split.
  - intros (x & IX & H). destruct s as [|c s]; [destruct IX|]. destruct (isd c) eqn:E; [|destruct IX]. destruct IX as [<-|[]]. cbn [sp_rest] in H.
    apply in_loop in H. destruct H as (a & b & -> & A & ->). exists (String c a), b. split; [reflexivity|]. split.
    + split; [discriminate|]. constructor; [now apply isd_digit|exact A].
    + cbn [String.length]. now rewrite Nat.add_succ_r.
  - intros (a & b & -> & [N A] & ->). destruct a as [|c a]; [contradiction|]. inversion A as [|? ? D A']; subst.
    exists (mkSpot (S pos) (a ++ b) l). cbn [append]. split; [apply isd_digit in D; rewrite D; now left|]. cbn [sp_rest]. apply in_loop.
    exists a, b. split; [reflexivity|]. split; [exact A'|]. cbn [String.length]. now rewrite Nat.add_succ_r.
Qed.

Lemma in_end x y : In y (ways REnd x) <-> y = x /\ (sp_rest x = "" \/ sp_rest x = String "010" "").
Proof.
  cbn [ways]. destruct (sp_rest x) as [|c [|d s]].
  - cbn. split; [intros [<-|[]]; now split; [|left]|intros [-> _]; now left].
  - destruct (Ascii.eqb_spec c newline_char) as [->|N].
    + cbn. split; [intros [<-|[]]; now split; [|right]|intros [-> _]; now left].
    + cbn. split; [intros []|intros [_ [H|H]]; [discriminate H|]]. injection H as ->. now apply N.
  - cbn. split; [intros []|intros [_ [H|H]]; discriminate H].
Qed.

Lemma in_optional r x y : In y (ways (RAlt r REmpty) x) <-> In y (ways r x) \/ y = x.
Proof. cbn [ways]. rewrite in_app_iff. cbn. intuition congruence. Qed.

Theorem number_found s : (exists m, re_match number_re s 0 = Some m) <-> number_text s.
Proof.
  transitivity (exists y, In y (ways number_re (mkSpot 0 s None))).
  { unfold re_match. rewrite drop_zero. destruct (ways number_re (mkSpot 0 s None)) as [|y ys].
    - split; [intros [m H]; discriminate H|intros [y []]].
    - split; [intros _; exists y; now left|intros _; now eexists]. }
  change (ways number_re (mkSpot 0 s None)) with
    (flat_map (ways (RCat (RAlt (RChar "-") REmpty) (RCat digs (RCat (RAlt (RGroup 1 (RCat (RChar ".") digs)) REmpty) REnd)))) [mkSpot 0 s None]).
  cbn [flat_map]. rewrite app_nil_r.
  split.
  - intros (y & H). apply in_flat_map in H. destruct H as (x1 & H1 & H).
    change (In y (flat_map (fun x => flat_map (ways REnd) (ways (RAlt (RGroup 1 (RCat (RChar ".") digs)) REmpty) x)) (ways digs x1))) in H.
    apply in_flat_map in H. destruct H as (x2 & H2 & H). apply in_flat_map in H. destruct H as (x3 & H3 & H4).
    apply in_end in H4. destruct H4 as [-> F].
    assert (exists sign r, (sign = "" \/ sign = "-") /\ s = sign ++ r /\ sp_rest x1 = r) as (sign & r & SG & -> & R).
    { change (In x1 (ways (RAlt (RChar "-") REmpty) (mkSpot 0 s None))) in H1. apply in_optional in H1. destruct H1 as [H1| ->].
      - cbn [ways] in H1. unfold one in H1. cbn [sp_rest] in H1. destruct s as [|c s]; [destruct H1|].
        destruct (Ascii.eqb_spec "-" c) as [<-|]; [|destruct H1]. destruct H1 as [<-|[]]. exists "-", s. split; [now right|now split].
      - exists "", s. split; [now left|now split]. }
    destruct x1 as [p1 r1 l1]. cbn [sp_rest] in R. subst r1. apply in_digs in H2. destruct H2 as (ds & b & -> & D & ->).
    change (In x3 (ways (RAlt (RGroup 1 (RCat (RChar ".") digs)) REmpty) (mkSpot (p1 + String.length ds) b l1))) in H3.
    apply in_optional in H3. destruct H3 as [H3| ->].
    + change (In x3 (map (fun y => mkSpot (sp_pos y) (sp_rest y) (Some 1)) (flat_map (ways digs) (one (Ascii.eqb ".") (mkSpot (p1 + String.length ds) b l1))))) in H3.
      apply in_map_iff in H3. destruct H3 as (z & <- & H3). cbn [sp_rest] in F. apply in_flat_map in H3. destruct H3 as (w & HW & HZ).
      unfold one in HW. cbn [sp_rest sp_pos sp_last] in HW. destruct b as [|c b]; [destruct HW|].
      destruct (Ascii.eqb_spec "." c) as [<-|]; [|destruct HW]. destruct HW as [<-|[]]. apply in_digs in HZ.
      destruct HZ as (f & e & -> & DF & ->). cbn [sp_rest] in F.
      change (String "." (f ++ e)) with (String "." f ++ e). apply number_text_intro; [exact SG|exact D|right; now exists f|exact F].
    + cbn [sp_rest] in F. change b with ("" ++ b). apply number_text_intro; [exact SG|exact D|now left|exact F].
  - intros [sign ds decimals feed SG D DC F].
    exists (mkSpot (String.length sign + String.length ds + String.length decimals) feed (if String.eqb decimals "" then None else Some 1)).
    apply in_flat_map. exists (mkSpot (String.length sign) (ds ++ decimals ++ feed) None). split.
    { change (In (mkSpot (String.length sign) (ds ++ decimals ++ feed) None) (ways (RAlt (RChar "-") REmpty) (mkSpot 0 (sign ++ ds ++ decimals ++ feed) None))).
      apply in_optional. destruct SG as [->| ->]; [right; reflexivity|]. left. cbn. now left. }
    apply in_flat_map. exists (mkSpot (String.length sign + String.length ds) (decimals ++ feed) None). split.
    { apply in_digs. exists ds, (decimals ++ feed). now split. }
    apply in_flat_map. exists (mkSpot (String.length sign + String.length ds + String.length decimals) feed (if String.eqb decimals "" then None else Some 1)).
    split; [|apply in_end; now split].
    change (In (mkSpot (String.length sign + String.length ds + String.length decimals) feed (if String.eqb decimals "" then None else Some 1))
      (ways (RAlt (RGroup 1 (RCat (RChar ".") digs)) REmpty) (mkSpot (String.length sign + String.length ds) (decimals ++ feed) None))).
    apply in_optional. destruct DC as [->|(f & DF & ->)].
    + right. cbn. now rewrite Nat.add_0_r.
    + left. change (String.eqb (String "." f) "") with false. cbv iota.
      change (ways (RGroup 1 (RCat (RChar ".") digs)) (mkSpot (String.length sign + String.length ds) (String "." f ++ feed) None)) with
        (map (fun y => mkSpot (sp_pos y) (sp_rest y) (Some 1)) (ways digs (mkSpot (S (String.length sign + String.length ds)) (f ++ feed) None) ++ [])%list).
      rewrite app_nil_r. apply in_map_iff. exists (mkSpot (S (String.length sign + String.length ds) + String.length f) feed None). split.
      * cbn [sp_pos sp_rest String.length]. f_equal. lia.
      * apply in_digs. exists f, feed. now split.
Qed.
