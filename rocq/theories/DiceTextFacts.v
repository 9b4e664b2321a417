(** The text of dice does not lie: an object called ndm is a roll of n dice with m sides,
    whatever was rolled, shared and renamed before. *)
From Coq Require Import Ascii String List ZArith QArith Bool Lia.
From Verif Require Import PyBase Num Val RVModel UtilModel Obj RollModel RollSpec NameModel Spec IntFacts MassFacts RVFacts RollFacts RollObjFacts
  UtilFacts NameFacts NumSpec NumTextFacts DiceTextSpec.
Import ListNotations.
Open Scope Z_scope.

(** ** Rolling an int number of dice allocates objects without a name *)

Definition unnamed (o : hobj) : Prop := ho_name o = (1, RUnk).
Definition quiet {A} (H : HT A) : Prop := forall h, exists extra,
  h_objs (snd (H h)) = h_objs h ++ extra /\ Forall unnamed extra.

Lemma quiet_same {A} (H : HT A) : (forall h, h_objs (snd (H h)) = h_objs h) -> quiet H.
Proof. intros E h. exists []. now rewrite app_nil_r. Qed.
Lemma quiet_bind {A B} (H : HT A) (F : A -> HT B) : quiet H -> (forall a, quiet (F a)) -> quiet (hbind H F).
Proof.
  intros Q1 Q2 h. unfold hbind. destruct (Q1 h) as [e1 [E1 U1]]. destruct (H h) as [[a|e] h1]; cbn [snd] in *.
  - destruct (Q2 a h1) as [e2 [E2 U2]]. exists (e1 ++ e2). rewrite E2, E1, app_assoc. split; [reflexivity|now apply Forall_app].
  - now exists e1.
Qed.
Lemma quiet_ret {A} (a : A) : quiet (hret a).
Proof. now apply quiet_same. Qed.
Lemma quiet_lift {A} (r : res A) : quiet (hlift r).
Proof. now apply quiet_same. Qed.
Lemma quiet_get r : quiet (get_obj r).
Proof. now apply quiet_same. Qed.
Lemma quiet_alloc x : quiet (alloc x).
Proof. intros h. exists [mkH x (1, RUnk)]. split; [reflexivity|]. repeat constructor. Qed.
Lemma quiet_alloc_res x : quiet (alloc_res x).
Proof. apply quiet_bind; [apply quiet_lift|apply quiet_alloc]. Qed.
Lemma quiet_memoised k H : quiet H -> quiet (hmemoised k H).
Proof.
  intros Q h. unfold hmemoised. destruct (hmemo_get (h_memo h) k); [exists []; now rewrite app_nil_r|].
  destruct (Q h) as [e [E U]]. destruct (H h) as [[r|x] h']; exists e; auto.
Qed.
Lemma quiet_all l : quiet (hmapM get_obj l).
Proof.
  induction l as [|r l IH]; [apply quiet_ret|]. cbn [hmapM].
  apply quiet_bind; [apply quiet_get|]. intros a. apply quiet_bind; [exact IH|]. intros; apply quiet_ret.
Qed.
Lemma quiet_pos c p d : quiet (hroll_pos c p d).
Proof.
  induction p as [p IH|p IH|]; cbn [hroll_pos]; [| |apply quiet_ret];
    (apply quiet_bind; [apply quiet_get|]; intros dv; apply quiet_memoised; apply quiet_bind; [exact IH|]; intros half;
     apply quiet_bind; [apply quiet_get|]; intros hv; repeat (apply quiet_bind; [apply quiet_lift|]; intros ?); apply quiet_alloc).
Qed.
Lemma quiet_int c n d : quiet (hroll_int c n d).
Proof.
  destruct n as [|p|p]; cbn [hroll_int]; [apply quiet_alloc_res|apply quiet_pos|].
  apply quiet_bind; [apply quiet_pos|]. intros r. apply quiet_bind; [apply quiet_get|]. intros x. apply quiet_alloc_res.
Qed.

(** ** Honest heaps *)

Definition honest (c : cfg) (h : heap) : Prop := forall q n z, (q < hlen h)%nat -> name_at h q = (n, RInt z) -> n <> 0 ->
  rdist (roll_int_pure c n (rv_of (int_die z))) = Ok (rv_dist (rv_at h q)).

Record sane (c : cfg) (h : heap) : Prop := { sn_ok : hok h; sn_memo : memo_ok c (memo_of h); sn_honest : honest c h }.

Lemma grown h h' extra q : h_objs h' = h_objs h ++ extra -> Forall unnamed extra ->
  (q < hlen h)%nat -> deref h' q = deref h q.
Proof. intros E _ L. unfold deref. rewrite E. now apply app_nth1. Qed.

Lemma quiet_honest {A} c (H : HT A) h : quiet H -> honest c h -> honest c (snd (H h)).
Proof.
  intros Q S q n z L N NZ. destruct (Q h) as [extra [E U]]. destruct (Nat.lt_ge_cases q (hlen h)) as [K|K].
  - unfold name_at in N. unfold rv_at. rewrite (grown h _ extra q E U K) in *. exact (S q n z K N NZ).
  - exfalso. unfold name_at, deref in N. rewrite E in N. unfold hlen in *. rewrite E, app_length in L. rewrite app_nth2 in N by lia.
    rewrite Forall_forall in U. rewrite (U _ (nth_In extra _ (n := q - length (h_objs h)) ltac:(lia))) in N. discriminate.
Qed.
Lemma quiet_name {A} (H : HT A) h q : quiet H -> (q < hlen h)%nat -> name_at (snd (H h)) q = name_at h q.
Proof. intros Q L. destruct (Q h) as [extra [E U]]. unfold name_at. now rewrite (grown h _ extra q E U L). Qed.


Lemma sane_rename c h r nm : sane c h -> (r < hlen h)%nat ->
  (forall n z, nm = (n, RInt z) -> n <> 0 -> rdist (roll_int_pure c n (rv_of (int_die z))) = Ok (rv_dist (rv_at h r))) ->
  rename r nm h = (Ok tt, snd (rename r nm h)) /\ sane c (snd (rename r nm h)).
Proof.
  intros [O M S] L K. destruct (rename_spec h r nm O L) as (E & LL & V & N1 & N2 & O' & M'). rewrite E. cbn [snd].
  split; [reflexivity|]. constructor; [exact O'|now rewrite M'|].
  intros q n z Lq Nq NZ. rewrite V. rewrite LL in Lq. destruct (Nat.eq_dec q r) as [->|D].
  - rewrite N2 in Nq. exact (K n z Nq NZ).
  - rewrite (N1 q D) in Nq. exact (S q n z Lq Nq NZ).
Qed.

Lemma pure_dist c n x y : rv_dist x = rv_dist y -> rdist (roll_int_pure c n x) = rdist (roll_int_pure c n y).
Proof.
  intros E. destruct n as [|p|p]; cbn [roll_int_pure]; [reflexivity|apply (roll_pure_dist c p x y E)|].
  destruct (roll_pure_dist c p x y E) as [R _].
  destruct (roll_pure c p x) as [a|], (roll_pure c p y) as [b|]; cbn in R; inversion R as [R']; cbn [bind]; [now rewrite R'|reflexivity].
Qed.

(** the die called dz is that die *)
Lemma honest_die c h q z : honest c h -> (q < hlen h)%nat -> name_at h q = (1, RInt z) -> rv_dist (rv_at h q) = int_die z.
Proof. intros S L N. specialize (S q 1 z L N ltac:(discriminate)). cbn in S. congruence. Qed.

(** the name given to a roll of an object is right *)
Lemma name_right c h r d n m z x : honest c h -> (d < hlen h)%nat ->
  match name_at h d with (dl, RInt z) => if dl =? 1 then RInt z else RUnk | _ => RUnk end = RInt z ->
  m = n -> rv_dist (rv_at h d) = rv_dist x -> roll_int_pure c n x = Ok (rv_at h r) ->
  rdist (roll_int_pure c m (rv_of (int_die z))) = Ok (rv_dist (rv_at h r)).
Proof.
  intros S L N -> E R. destruct (name_at h d) as [dl [w| |]] eqn:Nd; try discriminate. destruct (Z.eqb_spec dl 1) as [->|]; [|discriminate].
  injection N as ->. rewrite (pure_dist c n _ x); [now rewrite R|]. cbn [rv_dist rv_of]. rewrite <- E. symmetry. exact (honest_die c h d z S L Nd).
Qed.

Lemma quiet_sane {A} c (H : HT A) h : quiet H -> sane c h -> hok (snd (H h)) -> memo_ok c (memo_of (snd (H h))) -> sane c (snd (H h)).
Proof. intros Q S O M. constructor; [exact O|exact M|]. apply quiet_honest; [exact Q|apply S]. Qed.

Lemma int_sane c n d h : sane c h -> (d < hlen h)%nat -> int_vals (rv_dist (rv_at h d)) ->
  sane c (snd (hroll_int c n d h)) /\ (hlen h <= hlen (snd (hroll_int c n d h)))%nat /\
  (forall q, (q < hlen h)%nat -> rv_at (snd (hroll_int c n d h)) q = rv_at h q /\ name_at (snd (hroll_int c n d h)) q = name_at h q) /\
  match fst (hroll_int c n d h) with
  | Ok r => (r < hlen (snd (hroll_int c n d h)))%nat /\ roll_int_pure c n (rv_at h d) = Ok (rv_at (snd (hroll_int c n d h)) r)
  | Err _ => True
  end.
Proof.
  intros S L I.
  assert (D : is_ref h d h d (rv_at h d)) by (split; [exact L|split; [reflexivity|auto]]).
  pose proof (hroll_int_sim c n d h (rv_at h d) h (sn_ok _ _ S) (ext_refl d h) D) as K. unfold simh in K.
  destruct (roll_int_is_pure c n (rv_at h d) I (memo_of h) (sn_memo _ _ S)) as (m' & R & Mo). rewrite R in K.
  pose proof (quiet_sane c _ h (quiet_int c n d) S) as QS. pose proof (fun q => quiet_name _ h q (quiet_int c n d)) as QN.
  destruct (hroll_int c n d h) as [[r|e] h1]; destruct (roll_int_pure c n (rv_at h d)) as [x|e'] eqn:P; try contradiction; cbn [fst snd] in *.
  - destruct K as ((K1 & K2 & _) & K3 & K4 & ->). split; [now apply QS|]. split; [apply K3|].
    split; [|split; [exact K1|congruence]]. intros q Lq. split; [now apply K3|now apply QN].
  - destruct K as (_ & K3 & K4 & ->). split; [now apply QS|]. split; [apply K3|]. split; [|exact Logic.I].
    intros q Lq. split; [now apply K3|now apply QN].
Qed.

Definition rhs_of (nm : name) : rhs := match nm with (dl, RInt z) => if dl =? 1 then RInt z else RUnk | _ => RUnk end.
Lemma named_eq c n d h : hroll_named c n d h =
  match hroll_int c n d h with
  | (Ok r, h1) => (Ok r, snd (rename r (n, rhs_of (name_at h1 d)) h1))
  | (Err e, h1) => (Err e, h1)
  end.
Proof. unfold hroll_named, hbind at 1. destruct (hroll_int c n d h) as [[r|e] h1]; reflexivity. Qed.

Lemma named_sane c n d h : sane c h -> (d < hlen h)%nat -> int_vals (rv_dist (rv_at h d)) ->
  let h' := snd (hroll_named c n d h) in
  sane c h' /\ (hlen h <= hlen h')%nat /\ (forall q, (q < hlen h)%nat -> rv_at h' q = rv_at h q) /\
  match fst (hroll_named c n d h) with
  | Ok r => (r < hlen h')%nat /\ roll_int_pure c n (rv_at h d) = Ok (rv_at h' r)
  | Err _ => True
  end.
Proof.
  intros S L I. cbv zeta. rewrite named_eq.
  destruct (int_sane c n d h S L I) as (S1 & L1 & V1 & R1).
  destruct (hroll_int c n d h) as [[r|e] h1]; cbn [fst snd] in *.
  2: { split; [exact S1|]. split; [exact L1|]. split; [|exact Logic.I]. intros q Lq. now apply V1. }
  destruct R1 as [Lr R1]. set (nm := (n, rhs_of (name_at h1 d))).
  assert (Ld : (d < hlen h1)%nat) by lia.
  destruct (sane_rename c h1 r nm S1 Lr) as [Er Sr].
  { intros k z Ek NZ. unfold nm in Ek. injection Ek as -> Ez.
    apply (name_right c h1 r d k k z (rv_at h d) (sn_honest _ _ S1) Ld Ez eq_refl); [|exact R1]. f_equal. now apply V1. }
  destruct (rename_spec h1 r nm (sn_ok _ _ S1) Lr) as (Er' & LL & V & _). rewrite Er' in *. cbn [snd] in *.
  split; [exact Sr|]. split; [lia|]. split; [intros q Lq; rewrite V; now apply V1|]. split; [lia|]. now rewrite V.
Qed.

Lemma all_sane c d ns : forall h, sane c h -> (d < hlen h)%nat -> int_vals (rv_dist (rv_at h d)) ->
  let h' := snd (hmapM (fun n => hroll_named c n d) ns h) in
  sane c h' /\ (hlen h <= hlen h')%nat /\ (forall q, (q < hlen h)%nat -> rv_at h' q = rv_at h q).
Proof.
  induction ns as [|n ns IH]; intros h S L I; cbn [hmapM]; [cbn; auto|]. cbv zeta. unfold hbind.
  destruct (named_sane c n d h S L I) as (S1 & L1 & V1 & _). destruct (hroll_named c n d h) as [[r|e] h1]; cbn [snd] in *; [|auto].
  assert (I1 : int_vals (rv_dist (rv_at h1 d))) by (rewrite V1 by exact L; exact I).
  destruct (IH h1 S1 ltac:(lia) I1) as (S2 & L2 & V2).
  destruct (hmapM (fun n => hroll_named c n d) ns h1) as [[rs|e] h2]; cbn [snd hret] in *; (split; [exact S2|]; split; [lia|];
    intros q Lq; rewrite V2 by lia; now apply V1).
Qed.

(** a roll once the die is an object *)
Lemma core_sane c n d h : sane c h -> (d < hlen h)%nat -> int_vals (rv_dist (rv_at h d)) ->
  match n with HCRef r => (r < hlen h)%nat | _ => True end ->
  let h' := snd (hcount_core c n d h) in
  sane c h' /\ (hlen h <= hlen h')%nat /\ (forall q, (q < hlen h)%nat -> rv_at h' q = rv_at h q) /\
  match fst (hcount_core c n d h) with
  | Ok r => (r < hlen h')%nat /\
      match n with HCInt k | HCSeq k => roll_int_pure c k (rv_at h d) = Ok (rv_at h' r) | HCRef _ => True end
  | Err _ => True
  end.
Proof.
  intros S L I Hn. cbv zeta.
  destruct n as [k|k|q].
  - destruct (int_sane c k d h S L I) as (S1 & L1 & V1 & R1). cbn [hcount_core].
    split; [exact S1|]. split; [exact L1|]. split; [intros q Lq; now apply V1|exact R1].
  - exact (named_sane c k d h S L I).
  - assert (D : is_ref h d h d (rv_at h d)) by (split; [exact L|split; [reflexivity|auto]]).
    pose proof (hcount_sim c (HCRef q) d (rv_at h d) h h (sn_ok _ _ S) (ext_refl d h) D Hn) as K. unfold simh in K.
    destruct (roll_count_is_pure c (count_of h (HCRef q)) (rv_at h d) I (memo_of h) (sn_memo _ _ S)) as (m' & R & Mo). rewrite R in K.
    assert (Ho : honest c (snd (hcount_core c (HCRef q) d h))).
    { cbn [hcount_core]. unfold hbind at 1, get_obj at 1. destruct (all_some _) as [ns|]; [|exact (sn_honest _ _ S)].
      unfold hbind at 1. destruct (all_sane c d ns h S L I) as (S1 & _). destruct (hmapM _ ns h) as [[rs|e] h1]; cbn [snd] in *; [|apply S1].
      apply quiet_honest; [|apply S1]. apply quiet_bind; [apply quiet_all|]. intros dvs. apply quiet_bind; [apply quiet_lift|]. intros m.
      apply quiet_bind; [apply quiet_get|]. intros dv. destruct m; [apply quiet_alloc|apply quiet_lift]. }
    destruct (hcount_core c (HCRef q) d h) as [[r|e] h1]; destruct (roll_count_pure c _ _) as [x|e']; try contradiction; cbn [fst snd] in *.
    + destruct K as ((K1 & _) & K3 & K4 & ->). split; [now constructor|]. split; [apply K3|]. split; [apply K3|auto].
    + destruct K as (_ & K3 & K4 & ->). split; [now constructor|]. split; [apply K3|]. split; [apply K3|auto].
Qed.

(** whole rolls *)
Definition int_die_arg (h : heap) (d : hdie) : Prop :=
  match d with
  | HDInt _ => True
  | HDSeq l => Forall (fun v => v_is_int v = true) l
  | HDRef r => int_vals (rv_dist (rv_at h r))
  end.

Lemma alloc_sane c x h : sane c h -> sane c (snd (alloc x h)).
Proof.
  intros S. destruct (alloc_spec h x (sn_ok _ _ S)) as (E & _ & O' & M & _). apply (quiet_sane c _ h (quiet_alloc x) S).
  - rewrite E. exact O'.
  - rewrite E. cbn [snd]. rewrite M. apply S.
Qed.

Lemma hroll_eq c n d h : hroll c n d h =
  match hroll_core c n d h with
  | (Ok r, h1) => (Ok r, snd (rename r (match setup_name n d h1 with (Ok nm, _) => nm | _ => (1, RUnk) end) h1))
  | (Err e, h1) => (Err e, h1)
  end.
Proof.
  unfold hroll, hbind at 1. destruct (hroll_core c n d h) as [[r|e] h1]; [|reflexivity].
  destruct (setup_pure n d h1) as [nm E]. unfold hbind. rewrite E. reflexivity.
Qed.

Theorem roll_sane c n d h : cfg_trunc c = false -> sane c h -> valid h n d -> int_die_arg h d -> sane c (snd (hroll c n d h)).
Proof.
  intros Ht S [Vn Vd] I. rewrite hroll_eq, hroll_core_eq.
  (* the die *)
  assert (Dd : match die_ref c d h with
    | (Ok q, h0) => sane c h0 /\ (q < hlen h0)%nat /\ int_vals (rv_dist (rv_at h0 q)) /\ (hlen h <= hlen h0)%nat /\
        (forall z, d = HDInt z -> rv_dist (rv_at h0 q) = int_die z) /\ (forall r, d = HDRef r -> q = r)
    | (Err _, h0) => sane c h0 end).
  { destruct d as [z|l|r]; cbn [die_ref int_die_arg] in *.
    - rewrite (to_die_int c z Ht). unfold alloc_res, hbind, hlift.
      pose proof (alloc_sane c (rv_of (int_die z)) h S) as Sa. destruct (alloc_spec h (rv_of (int_die z)) (sn_ok _ _ S)) as (E & _ & _ & _ & LL & V).
      rewrite E in *. cbn [snd] in Sa. split; [exact Sa|]. split; [lia|]. rewrite V. split; [apply int_die_good|]. split; [lia|].
      split; [intros w [= ->]; reflexivity|discriminate].
    - unfold alloc_res, hbind, hlift. destruct (to_die c (DSeq l)) as [x|e] eqn:T; [|exact S].
      pose proof (alloc_sane c x h S) as Sa. destruct (alloc_spec h x (sn_ok _ _ S)) as (E & _ & _ & _ & LL & V).
      rewrite E in *. cbn [snd] in Sa. split; [exact Sa|]. split; [lia|]. rewrite V.
      split; [exact (from_seq_int c l x I T)|]. split; [lia|]. split; discriminate.
    - cbn [hret]. split; [exact S|]. split; [exact Vd|]. split; [exact I|]. split; [lia|]. split; [discriminate|]. now intros w [= ->]. }
  unfold hbind. destruct (die_ref c d h) as [[q|e] h0]; [|exact Dd]. destruct Dd as (S0 & L0 & I0 & LL & D1 & D2).
  assert (Vn0 : match n with HCRef r => (r < hlen h0)%nat | _ => True end) by (destruct n; auto; lia).
  destruct (core_sane c n q h0 S0 L0 I0 Vn0) as (S1 & L1 & V1 & R1).
  destruct (hcount_core c n q h0) as [[r|e] h1]; cbn [fst snd] in *; [|exact S1]. destruct R1 as [Lr R1].
  apply sane_rename; [exact S1|exact Lr|]. intros k z Ek NZ.
  destruct d as [w|[|v l]|b]; cbn [setup_name hret] in Ek; try discriminate.
  - injection Ek as <- <-. destruct n as [k|k|b]; [| |contradiction];
      (rewrite (pure_dist c k _ (rv_at h0 q)); [now rewrite R1|symmetry; now apply D1]).
  - rewrite (D2 b eq_refl) in *. unfold hbind, get_name, hret in Ek. fold (name_at h1 b) in Ek. injection Ek as <- Ez.
    destruct n as [k|k|b']; [| |contradiction];
      apply (name_right c h1 r b k k z (rv_at h0 b) (sn_honest _ _ S1) ltac:(lia) Ez eq_refl); try exact R1; f_equal; now apply V1.
Qed.

(** ** Reading the text of a die *)

Lemma minus_text k : 0 < k -> String "-" (str_of_Z k) = str_of_Z (- k).
Proof.
  intros H. unfold str_of_Z. destruct (Z.ltb_spec k 0); [lia|]. destruct (Z.ltb_spec (- k) 0); [|lia]. now rewrite Z.opp_involutive.
Qed.

Lemma no_dice a b : Forall (fun x => Ascii.eqb x "d" = false) (list_ascii_of_string a) ->
  Forall (fun x => Ascii.eqb x "d" = false) (list_ascii_of_string b) -> py_int b = None ->
  parse_roll (a ++ "d" ++ b) = Err ValueErr.
Proof.
  intros A B P. unfold parse_roll. rewrite !list_ascii_app. cbn [list_ascii_of_string app]. rewrite split_d_two by assumption.
  rewrite (string_of_list_ascii_of_string b), P.
  destruct (list_ascii_of_string a) as [|x l]; [reflexivity|]. destruct (py_int (string_of_list_ascii (x :: l))); reflexivity.
Qed.

Lemma no_count b : Forall (fun x => Ascii.eqb x "d" = false) (list_ascii_of_string b) -> parse_roll ("-d" ++ b) = Err ValueErr.
Proof.
  intros B. unfold parse_roll. rewrite list_ascii_app. change (list_ascii_of_string "-d" ++ list_ascii_of_string b) with (["-"%char] ++ "d"%char :: list_ascii_of_string b).
  rewrite split_d_two; [reflexivity|repeat constructor|exact B].
Qed.

Definition count_text (s : Z) : string := (if (1 <? Z.abs s)%Z then str_of_Z (Z.abs s) else "")%string.
Lemma count_no_d s : Forall (fun x => Ascii.eqb x "d" = false) (list_ascii_of_string (count_text s)).
Proof. unfold count_text. destruct (1 <? Z.abs s); [|constructor]. rewrite Z_chars_string. apply Z_chars_plain. Qed.

Lemma text_read nm a b : parse_roll (rv_str nm) = Ok (a, b) ->
  exists n z, nm = (n, RInt z) /\ n * z <> 0 /\ a = Z.sgn (n * z) * Z.abs n /\ b = Z.abs z.
Proof.
  assert (P0 : Forall (fun x => Ascii.eqb x "d" = false) (list_ascii_of_string "{0..0}")) by (repeat constructor).
  assert (P1 : Forall (fun x => Ascii.eqb x "d" = false) (list_ascii_of_string "{?}")) by (repeat constructor).
  destruct nm as [n [z| |]]; unfold rv_str; fold (count_text n).
  - intros E. exists n, z. split; [reflexivity|]. destruct (Z.eqb_spec (n * z) 0) as [Z0|NZ].
    { exfalso. rewrite Z0 in E. change (0 <=? 0) with true in E. cbn [String.append] in E.
      change (String "d" "{0..0}") with ("d" ++ "{0..0}")%string in E. rewrite (no_dice _ _ (count_no_d n) P0 eq_refl) in E. discriminate. }
    split; [exact NZ|]. unfold count_text in E. destruct (Z.leb_spec 0 (n * z)) as [G|G]; cbn [String.append] in E.
    + rewrite (Z.sgn_pos (n * z)) by lia. destruct (Z.ltb_spec 1 (Z.abs n)).
      * change (String "d" (str_of_Z (Z.abs z))) with ("d" ++ str_of_Z (Z.abs z))%string in E. rewrite parse_notation in E. injection E as <- <-. lia.
      * cbn [String.append] in E. change (String "d" (str_of_Z (Z.abs z))) with ("d" ++ str_of_Z (Z.abs z))%string in E.
        rewrite parse_notation1 in E. injection E as <- <-. split; [|reflexivity]. assert (n <> 0) by (intros ->; apply NZ; reflexivity). lia.
    + rewrite (Z.sgn_neg (n * z)) by lia. destruct (Z.ltb_spec 1 (Z.abs n)).
      * change (String "-" (str_of_Z (Z.abs n) ++ String "d" (str_of_Z (Z.abs z)))) with
          (String "-" (str_of_Z (Z.abs n)) ++ "d" ++ str_of_Z (Z.abs z))%string in E.
        rewrite minus_text in E by lia. rewrite parse_notation in E. injection E as <- <-. lia.
      * exfalso. cbn [String.append] in E. change (String "-" (String "d" (str_of_Z (Z.abs z)))) with ("-d" ++ str_of_Z (Z.abs z))%string in E.
        rewrite no_count in E; [discriminate|]. rewrite Z_chars_string. apply Z_chars_plain.
  - destruct (n =? 0); [discriminate|]. change "d{?}"%string with ("d" ++ "{?}")%string. intros E. rewrite (no_dice _ _ (count_no_d n) P1 eq_refl) in E. discriminate.
  - discriminate.
Qed.

(** ** The law of the dice that the text says *)

Lemma neg_total n d k : int_vals d -> (Pr (dice_total (- n) d) (vint k) == Pr (dice_total n d) (vint (- k)))%Q.
Proof.
  intros I. unfold Pr. rewrite !dice_total_total, Z.abs_opp. rewrite !wt_int by apply dice_total_int.
  rewrite (dice_total_wsum (- n) d (fun z => ind (z =? k))), (dice_total_wsum n d (fun z => ind (z =? - k))).
  replace (Z.abs_nat (- n)) with (Z.abs_nat n) by lia.
  erewrite wsum_ext; [reflexivity|]. intros t w _. cbn beta. f_equal. rewrite Z.sgn_opp.
  destruct (Z.eqb_spec (- Z.sgn n * tsum t) k), (Z.eqb_spec (Z.sgn n * tsum t) (- k)); auto; lia.
Qed.

Lemma same_dice n z k : n * z <> 0 ->
  (Pr (dice_total n (int_die z)) (vint k) == Pr (dice_total (Z.sgn (n * z) * Z.abs n) (int_die (Z.abs z))) (vint k))%Q.
Proof.
  intros NZ. destruct (Z.lt_ge_cases 0 z) as [P|P].
  - replace (Z.sgn (n * z) * Z.abs n) with n by (rewrite Z.sgn_mul, (Z.sgn_pos z) by lia; lia). now replace (Z.abs z) with z by lia.
  - assert (z < 0) by (destruct (Z.eq_dec z 0) as [->|]; [exfalso; apply NZ|]; lia). replace (Z.sgn (n * z) * Z.abs n) with (- n) by (rewrite Z.sgn_mul, (Z.sgn_neg z) by lia; lia).
    replace (Z.abs z) with (- z) by lia. rewrite neg_total by apply int_die_good.
    replace z with (- - z) at 1 by lia. rewrite (int_die_pos (- z)), (int_die_neg (- z)) by lia.
    apply mirror_law; [apply uniform_int|]. apply uniform_mirror. lia.
Qed.

Theorem text_true c h q a b : cfg_trunc c = false -> sane c h -> (q < hlen h)%nat ->
  parse_roll (rv_str (name_at h q)) = Ok (a, b) -> b ^ Z.abs a <= SUM_LIMIT ->
  forall k, (Pr (rv_dist (rv_at h q)) (vint k) == Pr (dice_total a (int_die b)) (vint k))%Q.
Proof.
  intros Ht S L P B k. apply text_read in P as (n & z & N & NZ & -> & ->).
  assert (n <> 0) by (intros ->; apply NZ; reflexivity). assert (z <> 0) by (intros ->; apply NZ; lia).
  pose proof (sn_honest _ _ S q n z L N H) as R. destruct (int_die_good z) as (G1 & G2 & G3).
  destruct (roll_int_pure_law c n (rv_of (int_die z)) Ht G1 G2) as (r & E & LW).
  { cbn [rv_dist rv_of]. rewrite int_die_total. rewrite Z.abs_mul, Z.abs_involutive in B.
    replace (Z.abs (Z.sgn (n * z))) with 1 in B by (rewrite Z.sgn_mul; destruct n, z; cbn; lia || contradiction). 
    replace (Z.max 1 (Z.abs z)) with (Z.abs z) by lia. now rewrite Z.mul_1_l in B. }
  rewrite E in R. cbn in R. injection R as R. rewrite <- R, <- same_dice by exact NZ.
  apply (roll_law_user c n (rv_dist r) (rl_proper _ _ _ _ LW) (rl_int _ _ _ _ LW) _ LW).
Qed.

(** ** Histories *)

Lemma empty_sane c : sane c empty_heap.
Proof. constructor; [constructor|constructor|]. intros q n z L. cbn in L. lia. Qed.

Lemma later_sane c es : cfg_trunc c = false -> forall h, sane c h -> possible c es h -> sane c (later c es h).
Proof.
  intros Ht. induction es as [|e es IH]; intros h S P; [exact S|]. destruct P as [P1 P2].
  apply (IH (happens c h e)); [|exact P2]. destruct e as [n d|x]; cbn [happens].
  - destruct P1 as [V I]. now apply roll_sane.
  - now apply alloc_sane.
Qed.

Theorem texts_true c es q a b : cfg_trunc c = false -> possible c es empty_heap ->
  let h := later c es empty_heap in
  (q < hlen h)%nat -> dice_text (rv_str (name_at h q)) a b -> b ^ Z.abs a <= SUM_LIMIT ->
  forall k, (Pr (rv_dist (rv_at h q)) (vint k) == Pr (dice_total a (int_die b)) (vint k))%Q.
Proof.
  intros Ht P h L D B. apply parse_dice in D.
  exact (text_true c h q a b Ht (later_sane c es Ht empty_heap (empty_sane c) P) L D B).
Qed.

Theorem texts_roll c es q a b calls : cfg_trunc c = false -> possible c es empty_heap -> Forall int_call calls ->
  let h := later c es empty_heap in
  (q < hlen h)%nat -> dice_text (rv_str (name_at h q)) a b -> b ^ Z.abs a <= SUM_LIMIT ->
  exists r, roll_after c calls (OStr (rv_str (name_at h q))) None = Ok (ORV r) /\
    forall k, (Pr (rv_dist r) (vint k) == Pr (rv_dist (rv_at h q)) (vint k))%Q.
Proof.
  intros Ht P C h L D B. pose proof (texts_true c es q a b Ht P L D B) as T. fold h in T.
  destruct (int_die_good b) as (G1 & G2 & _). pose proof D as D'. apply parse_dice in D'. apply text_read in D' as (n & z & _ & NZ & Ea & Eb).
  destruct (roll_exact c calls a (rv_of (int_die b)) C Ht G1 G2) as (r & R1 & R2 & _).
  { cbn [rv_dist rv_of]. rewrite int_die_total. assert (z <> 0) by (intros ->; apply NZ; lia). now replace (Z.max 1 (Z.abs b)) with b by lia. }
  exists r. split.
  - unfold roll_after. rewrite (proj1 (roll_texts c _ _) a b D). rewrite <- R1. unfold roll_after. now rewrite roll_int_die.
  - intros k. rewrite T. apply R2.
Qed.

(** ** The text of every roll *)

Lemma text_of_name n m : rv_str (n, RInt m) = roll_text n m.
Proof.
  unfold rv_str, roll_text, times_text. destruct (Z.eqb_spec (n * m) 0) as [->|NZ]; [reflexivity|].
  destruct (Z.leb_spec 0 (n * m)), (Z.ltb_spec (n * m) 0); try lia; reflexivity.
Qed.
Lemma text_of_other n : rv_str (n, RUnk) = other_text n.
Proof. reflexivity. Qed.

Lemma roll_named c n d h r h' : hok h -> valid h n d -> hroll c n d h = (Ok r, h') ->
  exists h1, hroll_core c n d h = (Ok r, h1) /\ setup_name n d h1 = (Ok (name_at h' r), h1).
Proof.
  intros O V E. rewrite hroll_eq in E. pose proof (hroll_core_sim c n d h O V) as K. unfold simh in K.
  destruct (hroll_core c n d h) as [[q|e] h1]; [|discriminate]. destruct (roll_core c _ _ _) as [[x|e'] m]; [|contradiction].
  destruct K as ((K1 & _) & _ & O1 & _). injection E as -> E. exists h1. split; [reflexivity|].
  destruct (setup_pure n d h1) as [nm N]. rewrite N in E. destruct (rename_spec h1 r nm O1 K1) as (E' & _ & _ & _ & N' & _).
  change (snd (rename r nm h1) = h') in E. rewrite E' in E. cbn [snd] in E. rewrite <- E, N'. exact N.
Qed.

Definition count_is (n : hcount) (k : Z) : Prop := n = HCInt k \/ n = HCSeq k.

Theorem roll_texts_are c n d h r h' : hok h -> valid h n d -> hroll c n d h = (Ok r, h') ->
  (forall k m, count_is n k -> d = HDInt m -> rv_str (name_at h' r) = roll_text k m) /\
  (forall k v l, count_is n k -> d = HDSeq (v :: l) -> rv_str (name_at h' r) = other_text k) /\
  (forall q, n = HCRef q -> (forall x, d <> HDRef x) -> d <> HDSeq [] -> rv_str (name_at h' r) = "d{0..0}"%string) /\
  (forall k q m, n = HCInt k -> d = HDRef q -> name_at h q = (1, RInt m) -> rv_str (name_at h' r) = roll_text k m) /\
  (forall k q, n = HCInt k -> d = HDRef q -> (forall m, name_at h q <> (1, RInt m)) -> rv_str (name_at h' r) = other_text k).
Proof.
  intros O V E. destruct (roll_named c n d h r h' O V E) as (h1 & E1 & N).
  split; [|split; [|split; [|split]]].
  - intros k m [->| ->] ->; injection N as <-; apply text_of_name.
  - intros k v l [->| ->] ->; injection N as <-; apply text_of_other.
  - intros q -> ND NE. destruct d as [z|[|v l]|x]; [| |injection N as <-; reflexivity|now elim (ND x)]; [|contradiction].
    injection N as <-. reflexivity.
  - intros k q m -> -> Nq. assert (Nq' : name_at h1 q = (1, RInt m)).
    { rewrite <- Nq. rewrite hroll_core_eq in E1. change (hbind (die_ref c (HDRef q)) (hcount_core c (HCInt k)) h) with (hroll_int c k q h) in E1.
      pose proof (quiet_name _ h q (quiet_int c k q) (proj2 V)) as Q. now rewrite E1 in Q. }
    cbn [setup_name] in N. unfold hbind, get_name, hret in N. fold (name_at h1 q) in N. rewrite Nq' in N. cbn in N. injection N as <-. apply text_of_name.
  - intros k q -> -> Nq. assert (Nq' : name_at h1 q = name_at h q).
    { rewrite hroll_core_eq in E1. change (hbind (die_ref c (HDRef q)) (hcount_core c (HCInt k)) h) with (hroll_int c k q h) in E1.
      pose proof (quiet_name _ h q (quiet_int c k q) (proj2 V)) as Q. now rewrite E1 in Q. }
    cbn [setup_name] in N. unfold hbind, get_name, hret in N. fold (name_at h1 q) in N. rewrite Nq' in N.
    assert (X : (match name_at h q with (dl, RInt z) => if dl =? 1 then RInt z else RUnk | _ => RUnk end) = RUnk).
    { destruct (name_at h q) as [dl [z| |]]; auto. destruct (Z.eqb_spec dl 1) as [->|]; auto. now elim (Nq z). }
    rewrite X in N. injection N as <-. apply text_of_other.
Qed.
