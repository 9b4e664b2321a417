(** Rolls never change an existing die; they may rename it. *)
From Coq Require Import String List ZArith Bool Lia.
From Verif Require Import PyBase Num Val RVModel UtilModel Obj RollModel NameModel.
Import ListNotations.
Open Scope Z_scope.

Definition hlen (h : heap) : nat := length (h_objs h).
Definition rv_at (h : heap) (r : ref) : rv := ho_rv (deref h r).
Definition name_at (h : heap) (r : ref) : name := ho_name (deref h r).
Definition memo_of (h : heap) : memo := map (fun e => (fst e, rv_at h (snd e))) (h_memo h).
Definition in_table (h : heap) (r : ref) : Prop := In r (map snd (h_memo h)).
Definition hok (h : heap) : Prop := Forall (fun r => (r < hlen h)%nat) (map snd (h_memo h)).

(** nothing that existed changes, except the names of [d] and of rolls in the table *)
Record ext (d : ref) (h h' : heap) : Prop := {
  ex_len : (hlen h <= hlen h')%nat;
  ex_rv : forall r, (r < hlen h)%nat -> rv_at h' r = rv_at h r;
  ex_memo : incl (map snd (h_memo h)) (map snd (h_memo h'));
  ex_name : forall r, (r < hlen h)%nat -> name_at h' r = name_at h r \/ r = d \/ in_table h' r
}.

Lemma ext_refl d h : ext d h h.
Proof. constructor; auto. intros r H; exact H. Qed.

Lemma ext_trans d h1 h2 h3 : ext d h1 h2 -> ext d h2 h3 -> ext d h1 h3.
Proof.
  intros [A1 A2 A3 A4] [B1 B2 B3 B4]. constructor.
  - lia.
  - intros r H. rewrite B2 by lia. auto.
  - intros r H. auto.
  - intros r H. destruct (B4 r) as [E|[E|E]]; auto; [lia|]. rewrite E.
    destruct (A4 r H) as [F|[F|F]]; auto. right. right. apply B3. exact F.
Qed.

Ltac parts := match goal with |- _ /\ _ => split; parts | _ => idtac end.
#[local] Hint Resolve ext_refl : core.

Definition simh {A B} (d : ref) (h : heap) (R : heap -> A -> B -> Prop) (H : HT A) (S : ST B) : Prop :=
  match H h, S (memo_of h) with
  | (Ok a, h'), (Ok b, m') => R h' a b /\ ext d h h' /\ hok h' /\ m' = memo_of h'
  | (Err e, h'), (Err e', m') => e = e' /\ ext d h h' /\ hok h' /\ m' = memo_of h'
  | _, _ => False
  end.

Lemma simh_bind {A B A' B'} d h (R : heap -> A -> B -> Prop) (R' : heap -> A' -> B' -> Prop) H S F G :
  simh d h R H S ->
  (forall h' a b, ext d h h' -> hok h' -> R h' a b -> simh d h' R' (F a) (G b)) ->
  simh d h R' (hbind H F) (sbind S G).
Proof.
  unfold simh, hbind, sbind. intros H1 H2.
  destruct (H h) as [[a|e] h1], (S (memo_of h)) as [[b|e'] m1]; try contradiction.
  - destruct H1 as (HR & HE & HO & ->). specialize (H2 h1 a b HE HO HR).
    destruct (F a h1) as [[a'|e] h2], (G b (memo_of h1)) as [[b'|e'] m2]; try contradiction;
      destruct H2 as (K1 & K2 & K3 & K4); parts; auto; eapply ext_trans; eauto.
  - exact H1.
Qed.

Lemma simh_ret {A B} d h (R : heap -> A -> B -> Prop) a b : hok h -> R h a b -> simh d h R (hret a) (sret b).
Proof. intros O H. unfold simh, hret, sret. parts; auto; apply ext_refl. Qed.

Lemma simh_lift {A} d h (r : res A) : hok h -> simh d h (fun _ a b => a = b) (hlift r) (slift r).
Proof. intros O. unfold simh, hlift, slift. destruct r; parts; auto; apply ext_refl. Qed.

Lemma simh_weaken {A B} d h (R R' : heap -> A -> B -> Prop) H S :
  (forall h' a b, ext d h h' -> R h' a b -> R' h' a b) -> simh d h R H S -> simh d h R' H S.
Proof.
  unfold simh. intros W K. destruct (H h) as [[a|e] h'], (S (memo_of h)) as [[b|e'] m']; auto.
  destruct K as (K1 & K2 & K3). parts; try apply K2; try apply K3; auto.
Qed.

(** a reference to an object that is new since [h0], the die, or in the table *)
Definition is_ref (h0 : heap) (d : ref) (h : heap) (r : ref) (x : rv) : Prop :=
  (r < hlen h)%nat /\ rv_at h r = x /\ ((hlen h0 <= r)%nat \/ r = d \/ in_table h r).

Lemma deref_old h x m r : (r < hlen h)%nat -> deref (mkHeap (h_objs h ++ [x]) m) r = deref h r.
Proof. intro H. unfold deref. cbn [h_objs]. now apply app_nth1. Qed.

Lemma memo_same h h' : hok h -> h_memo h' = h_memo h -> (forall r, (r < hlen h)%nat -> rv_at h' r = rv_at h r) ->
  memo_of h' = memo_of h.
Proof.
  intros O E H. unfold memo_of. rewrite E. apply map_ext_in. intros [k r] Hi. cbn [fst snd]. rewrite H; auto.
  apply (proj1 (Forall_forall _ _) O). apply in_map_iff. exists (k, r). auto.
Qed.

Lemma alloc_spec h x : hok h -> let h' := mkHeap (h_objs h ++ [mkH x (1, RUnk)]) (h_memo h) in
  alloc x h = (Ok (hlen h), h') /\ (forall d, ext d h h') /\ hok h' /\ memo_of h' = memo_of h /\
  hlen h' = S (hlen h) /\ rv_at h' (hlen h) = x.
Proof.
  intros O h'. assert (L : hlen h' = S (hlen h)) by (unfold hlen, h'; cbn; rewrite app_length; cbn; lia).
  assert (E : forall r, (r < hlen h)%nat -> deref h' r = deref h r) by (intros; now apply deref_old).
  split; [reflexivity|]. split; [|split; [|split; [|split]]].
  - intro d. constructor; [lia| | |].
    + intros r H. unfold rv_at. now rewrite E.
    + intros r H. exact H.
    + intros r H. left. unfold name_at. now rewrite E.
  - unfold hok in *. rewrite L. apply (Forall_impl _ (P := fun r => (r < hlen h)%nat)); [intros; lia|exact O].
  - apply memo_same; auto. intros r H. unfold rv_at. now rewrite E.
  - exact L.
  - unfold rv_at, deref, hlen, h'. cbn [h_objs]. rewrite app_nth2, Nat.sub_diag by lia. reflexivity.
Qed.

Lemma simh_alloc d h h0 x : hok h -> (hlen h0 <= hlen h)%nat -> simh d h (is_ref h0 d) (alloc x) (sret x).
Proof.
  intros O L. destruct (alloc_spec h x O) as (E & X & O' & M & L' & V). unfold simh. rewrite E. unfold sret.
  split; [|split; [apply X|split; auto]]. split; [rewrite L'; lia|]. split; [exact V|left; exact L].
Qed.

Lemma set_nth_length {A} n (f : A -> A) l : length (set_nth n f l) = length l.
Proof. revert n. induction l as [|a l IH]; intros [|n]; cbn; auto. Qed.
Lemma set_nth_same {A} n (f : A -> A) l d : (n < length l)%nat -> nth n (set_nth n f l) d = f (nth n l d).
Proof. revert n. induction l as [|a l IH]; intros [|n] H; cbn in *; auto; try lia. apply IH. lia. Qed.
Lemma set_nth_other {A} n m (f : A -> A) l d : n <> m -> nth m (set_nth n f l) d = nth m l d.
Proof. revert n m. induction l as [|a l IH]; intros [|n] [|m] H; cbn; auto; try congruence. Qed.

Lemma rename_spec h r nm : hok h -> (r < hlen h)%nat ->
  let h' := mkHeap (set_nth r (fun o => mkH (ho_rv o) nm) (h_objs h)) (h_memo h) in
  rename r nm h = (Ok tt, h') /\ hlen h' = hlen h /\ (forall q, rv_at h' q = rv_at h q) /\
  (forall q, q <> r -> name_at h' q = name_at h q) /\ name_at h' r = nm /\ hok h' /\ memo_of h' = memo_of h.
Proof.
  intros O L h'. assert (LL : hlen h' = hlen h) by (unfold hlen, h'; cbn; apply set_nth_length).
  assert (V : forall q, rv_at h' q = rv_at h q).
  { intro q. unfold rv_at, deref, h'. cbn [h_objs]. destruct (Nat.eq_dec r q) as [->|N].
    - unfold hlen in L. rewrite set_nth_same by exact L. reflexivity.
    - now rewrite set_nth_other. }
  split; [reflexivity|]. split; [exact LL|]. split; [exact V|]. split; [|split; [|split]].
  - intros q N. unfold name_at, deref, h'. cbn [h_objs]. rewrite set_nth_other; auto.
  - unfold name_at, deref, h'. cbn [h_objs]. unfold hlen in L. now rewrite set_nth_same.
  - unfold hok in *. rewrite LL. exact O.
  - apply memo_same; auto.
Qed.

Lemma simh_rename d h0 h r x nm : hok h -> ext d h0 h -> is_ref h0 d h r x ->
  match rename r nm h with
  | (Ok _, h') => ext d h0 h' /\ hok h' /\ memo_of h' = memo_of h /\ is_ref h0 d h' r x /\ name_at h' r = nm
  | _ => False
  end.
Proof.
  intros O E (L & V & W). destruct (rename_spec h r nm O L) as (R & LL & RV & N1 & N2 & O' & M). rewrite R.
  set (h' := mkHeap _ _) in *. split; [|split; [exact O'|split; [exact M|split; [|exact N2]]]].
  - destruct E as [A1 A2 A3 A4]. constructor.
    + lia.
    + intros q H. rewrite RV. auto.
    + exact A3.
    + intros q H. destruct (Nat.eq_dec q r) as [->|N].
      * destruct W as [W|[W|W]]; [lia|auto|right; right; exact W].
      * rewrite N1 by exact N. destruct (A4 q H) as [K|[K|K]]; auto.
  - split; [rewrite LL; exact L|]. split; [rewrite RV; exact V|exact W].
Qed.

Lemma is_ref_ext h0 d h h' r x : ext d h h' -> is_ref h0 d h r x -> is_ref h0 d h' r x.
Proof.
  intros [A1 A2 A3 A4] (L & V & W). split; [lia|]. split; [rewrite A2; auto|].
  destruct W as [W|[W|W]]; auto. right. right. apply A3. exact W.
Qed.

Lemma hmemo_get_spec h k : 
  match hmemo_get (h_memo h) k with
  | Some r => memo_get (memo_of h) k = Some (rv_at h r) /\ in_table h r
  | None => memo_get (memo_of h) k = None
  end.
Proof.
  unfold memo_of, in_table. induction (h_memo h) as [|[k' r] m IH]; [reflexivity|]. cbn [hmemo_get map memo_get fst snd].
  destruct (key_same k' k); [split; auto; left; reflexivity|].
  destruct (hmemo_get m k); [destruct IH; split; auto; right; auto|exact IH].
Qed.

Lemma simh_memoised d h h0 k H S : hok h -> (hlen h0 <= hlen h)%nat ->
  simh d h (is_ref h0 d) H S -> simh d h (is_ref h0 d) (hmemoised k H) (memoised k S).
Proof.
  intros O L K. unfold simh, hmemoised, memoised in *. pose proof (hmemo_get_spec h k) as G.
  destruct (hmemo_get (h_memo h) k) as [r|].
  - destruct G as [-> G]. split; [|split; [apply ext_refl|split; auto]].
    split; [apply (proj1 (Forall_forall _ _) O); exact G|]. split; [reflexivity|]. right. right. exact G.
  - rewrite G. destruct (H h) as [[r|e] h1], (S (memo_of h)) as [[x|e'] m1]; try contradiction; [|exact K].
    destruct K as ((K1 & K2 & K3) & [E1 E2 E3 E4] & O1 & ->).
    split; [|split; [|split]].
    + split; [exact K1|]. split; [exact K2|]. destruct K3 as [K3|[K3|K3]]; auto. right. right. right. exact K3.
    + constructor; auto.
      * intros q Hq. right. now apply E3.
      * intros q Hq. destruct (E4 q Hq) as [Q|[Q|Q]]; auto. right. right. right. exact Q.
    + constructor; auto.
    + unfold memo_of. cbn [h_memo map fst snd]. f_equal. f_equal. symmetry. exact K2.
Qed.

Lemma simh_get d h0 h r x : hok h -> is_ref h0 d h r x -> simh d h (fun _ a b => a = b) (get_obj r) (sret x).
Proof. intros O (L & V & _). unfold simh, get_obj, sret. parts; auto; apply ext_refl. Qed.

(** reading an object in the middle of a computation *)
Lemma simh_get_bind {A B} d h0 h r x (F : rv -> HT A) (S : ST B) (R : heap -> A -> B -> Prop) : hok h -> is_ref h0 d h r x ->
  simh d h R (F x) S -> simh d h R (hbind (get_obj r) F) S.
Proof. intros O (L & V & _) H. unfold simh, hbind, get_obj in *. unfold rv_at in V. rewrite V. exact H. Qed.

Lemma hroll_pos_sim c p d h0 x : forall h, hok h -> ext d h0 h -> is_ref h0 d h d x ->
  simh d h (is_ref h0 d) (hroll_pos c p d) (roll_pos c p x).
Proof.
  induction p as [p IH|p IH|]; intros h O E D; cbn [hroll_pos roll_pos].
  - eapply simh_get_bind; eauto. apply simh_memoised; [exact O|apply E|].
    eapply simh_bind; [apply IH; auto|]. intros h1 half hv E1 O1 D1. eapply simh_get_bind; eauto.
    eapply simh_bind; [apply simh_lift; auto|]. intros h2 f f' E2 O2 <-.
    eapply simh_bind; [apply simh_lift; auto|]. intros h3 g g' E3 O3 <-.
    apply simh_alloc; auto. destruct E, E1, E2, E3. lia.
  - eapply simh_get_bind; eauto. apply simh_memoised; [exact O|apply E|].
    eapply simh_bind; [apply IH; auto|]. intros h1 half hv E1 O1 D1. eapply simh_get_bind; eauto.
    eapply simh_bind; [apply simh_lift; auto|]. intros h2 f f' E2 O2 <-.
    apply simh_alloc; auto. destruct E, E1, E2. lia.
  - apply simh_ret; auto.
Qed.

Lemma simh_alloc_res d h h0 x : hok h -> (hlen h0 <= hlen h)%nat -> simh d h (is_ref h0 d) (alloc_res x) (slift x).
Proof.
  intros O L. unfold alloc_res, simh, hbind, hlift, slift. destruct x as [x|e].
  - exact (simh_alloc d h h0 x O L).
  - parts; auto; apply ext_refl.
Qed.

Lemma hroll_int_sim c n d h0 x h : hok h -> ext d h0 h -> is_ref h0 d h d x ->
  simh d h (is_ref h0 d) (hroll_int c n d) (roll_int c n x).
Proof.
  intros O E D. destruct n as [|p|p]; cbn [hroll_int roll_int].
  - apply simh_alloc_res; [exact O|apply E].
  - now apply hroll_pos_sim.
  - eapply simh_bind; [apply (hroll_pos_sim c p d h0 x h); auto|]. intros h1 r y E1 O1 D1.
    eapply simh_get_bind; eauto. apply simh_alloc_res; auto. destruct E, E1. lia.
Qed.

(** naming a result does not change what it is *)
Lemma sim_then_name d h0 h H S (N : HT name) : hok h -> ext d h0 h ->
  (forall h', exists nm, N h' = (Ok nm, h')) ->
  simh d h (is_ref h0 d) H S ->
  match hbind H (fun r => hbind N (fun nm => hbind (rename r nm) (fun _ => hret r))) h, S (memo_of h) with
  | (Ok a, h'), (Ok b, m') => is_ref h0 d h' a b /\ ext d h0 h' /\ hok h' /\ m' = memo_of h' /\ (hlen h <= hlen h')%nat /\
                              (forall q, (q < hlen h)%nat -> rv_at h' q = rv_at h q) /\
                              incl (map snd (h_memo h)) (map snd (h_memo h')) /\
                              (exists h1, snd (N h1) = h1 /\ fst (N h1) = Ok (name_at h' a))
  | (Err e, h'), (Err e', m') => e = e' /\ ext d h0 h' /\ hok h' /\ m' = memo_of h' /\ (hlen h <= hlen h')%nat /\
                              (forall q, (q < hlen h)%nat -> rv_at h' q = rv_at h q) /\
                              incl (map snd (h_memo h)) (map snd (h_memo h'))
  | _, _ => False
  end.
Proof.
  intros O E HN K. unfold simh in K. unfold hbind at 1.
  destruct (H h) as [[r|e] h1], (S (memo_of h)) as [[x|e'] m1]; try contradiction.
  - destruct K as (D & E1 & O1 & ->). destruct (HN h1) as [nm Enm]. unfold hbind. rewrite Enm.
    pose proof (simh_rename d h0 h1 r x nm O1 (ext_trans _ _ _ _ E E1) D) as R.
    destruct (rename_spec h1 r nm O1 (proj1 D)) as (R' & LL & RV & N1 & N2 & O' & M).
    rewrite R' in *. destruct R as (R1 & R2 & R3 & R4 & R5). unfold hret.
    parts; try apply R4; try apply R1; auto.
    + rewrite LL. apply E1.
    + intros q Hq. rewrite RV. now apply E1.
    + apply E1.
    + exists h1. rewrite Enm. cbn [fst snd]. rewrite R5. auto.
  - destruct K as (-> & E1 & O1 & ->). parts; auto; try (eapply ext_trans; eauto); apply E1.
Qed.

Lemma setup_pure n d h : exists nm, setup_name n d h = (Ok nm, h).
Proof.
  unfold setup_name. destruct d as [z|[|v l]|r]; try (eexists; reflexivity).
Qed.

Lemma hroll_named_sim c n d h0 x h : hok h -> ext d h0 h -> is_ref h0 d h d x ->
  simh d h (is_ref h0 d) (hroll_named c n d) (roll_int c n x).
Proof.
  intros O E D.
  (* relative to h itself for the extension, and to h0 for the reference *)
  assert (Eh : ext d h h) by apply ext_refl.
  assert (Dh : is_ref h d h d x) by (destruct D as (D1 & D2 & _); split; [exact D1|split; [exact D2|auto]]).
  pose proof (sim_then_name d h h _ _ (setup_name (HCInt n) (HDRef d)) O Eh (setup_pure _ _)
                (hroll_int_sim c n d h x h O Eh Dh)) as K.
  unfold hroll_named, simh.
  destruct (hbind _ _ h) as [[r|e] h'], (roll_int c n x (memo_of h)) as [[y|e'] m']; try contradiction.
  - destruct K as ((K1 & K2 & K3) & K4 & K5 & K6 & _). split; [|parts; auto; apply K4].
    split; [exact K1|]. split; [exact K2|]. destruct K3 as [K3|[K3|K3]]; auto. left. destruct E. lia.
  - destruct K as (K1 & K4 & K5 & K6 & _). parts; auto; apply K4.
Qed.

Lemma hmapM_sim {A B B'} d h0 (R : heap -> B -> B' -> Prop) (f : A -> HT B) (g : A -> ST B') l :
  (forall h h' a b, ext d h h' -> R h a b -> R h' a b) ->
  (forall a h, In a l -> hok h -> ext d h0 h -> simh d h R (f a) (g a)) ->
  forall h, hok h -> ext d h0 h -> simh d h (fun h' bs bs' => Forall2 (R h') bs bs') (hmapM f l) (smapM g l).
Proof.
  intros M. induction l as [|a l IH]; intros H h O E; cbn [hmapM smapM].
  - apply simh_ret; auto.
  - eapply simh_bind; [apply H; auto; left; reflexivity|]. intros h1 b b' E1 O1 R1.
    eapply simh_bind; [apply IH; auto; [intros; apply H; auto; right; auto|eapply ext_trans; eauto]|].
    intros h2 bs bs' E2 O2 R2. apply simh_ret; auto. constructor; auto. eapply M; eauto.
Qed.

Lemma get_all h0 d l : forall h xs, Forall2 (is_ref h0 d h) l xs -> hmapM get_obj l h = (Ok xs, h).
Proof.
  induction l as [|r l IH]; intros h xs H; inversion H; subst; [reflexivity|]. cbn [hmapM].
  destruct H2 as (_ & V & _). unfold hbind, get_obj at 1. fold (rv_at h r). rewrite V, (IH _ _ H4). reflexivity.
Qed.

Definition count_of (h : heap) (n : hcount) : count_arg :=
  match n with HCInt n => CInt n | HCSeq s => CInt s | HCRef r => CRV (rv_at h r) end.
Definition die_of (h : heap) (d : hdie) : die_arg :=
  match d with HDInt z => DInt z | HDSeq l => DSeq l | HDRef r => DRV (rv_at h r) end.

Definition valid (h : heap) (n : hcount) (d : hdie) : Prop :=
  match n with HCRef r => (r < hlen h)%nat | _ => True end /\
  match d with HDRef r => (r < hlen h)%nat | _ => True end.

(** _roll once the die is an object *)
Definition hcount_core (c : cfg) (n : hcount) (d : ref) : HT ref :=
  match n with
  | HCInt n => hroll_int c n d
  | HCSeq s => hroll_named c s d
  | HCRef r =>
      x <! get_obj r ;;
      match all_some (map int_of (vals (rv_dist x))) with
      | None => hlift (Err AssertErr)
      | Some ns =>
          dies <! hmapM (fun n => hroll_named c n d) ns ;;
          dvs <! hmapM get_obj dies ;;
          m <! hlift (from_rvs c (map MxRV dvs) (probs (rv_dist x))) ;;
          dv <! get_obj d ;;
          match m with
          | Some m => alloc (set_source m 1 (rv_dist dv))
          | None => hlift (Err Unmodelled)
          end
      end
  end.

Lemma hcount_sim c n d x h0 h : hok h -> ext d h0 h -> is_ref h0 d h d x ->
  match n with HCRef r => (r < hlen h)%nat | _ => True end ->
  simh d h (is_ref h0 d) (hcount_core c n d) (roll_count c (count_of h n) x).
Proof.
  intros O E D Hn. destruct n as [n|s|r]; cbn [hcount_core count_of roll_count].
  - now apply hroll_int_sim.
  - now apply hroll_named_sim.
  - unfold simh, hbind at 1. unfold get_obj at 1. fold (rv_at h r). set (y := rv_at h r).
    change (simh d h (is_ref h0 d)
      (match all_some (map int_of (vals (rv_dist y))) with
      | None => hlift (Err AssertErr)
      | Some ns =>
          dies <! hmapM (fun n => hroll_named c n d) ns ;;
          dvs <! hmapM get_obj dies ;;
          m <! hlift (from_rvs c (map MxRV dvs) (probs (rv_dist y))) ;;
          dv <! get_obj d ;;
          match m with
          | Some m => alloc (set_source m 1 (rv_dist dv))
          | None => hlift (Err Unmodelled)
          end
      end)
      (match all_some (map int_of (vals (rv_dist y))) with
      | None => slift (Err AssertErr)
      | Some ns =>
          dies <~ smapM (fun n => roll_int c n x) ns ;;
          r <~ slift (from_rvs c (map MxRV dies) (probs (rv_dist y))) ;;
          match r with
          | Some r => sret (set_source r 1 (rv_dist x))
          | None => slift (Err Unmodelled)
          end
      end)).
    destruct (all_some (map int_of (vals (rv_dist y)))) as [ns|].
    2:{ unfold simh, hlift, slift. parts; auto; apply ext_refl. }
    eapply simh_bind.
    { apply (hmapM_sim d h (is_ref h0 d)); [intros; eapply is_ref_ext; eauto| |exact O|apply ext_refl].
      intros a h' _ O' E'. apply hroll_named_sim; auto; [eapply ext_trans; eauto|eapply is_ref_ext; eauto]. }
    intros h1 dies dvs E1 O1 F.
    unfold simh, hbind at 1. rewrite (get_all h0 d dies h1 dvs F).
    change (simh d h1 (is_ref h0 d)
      (m <! hlift (from_rvs c (map MxRV dvs) (probs (rv_dist y))) ;;
          dv <! get_obj d ;;
          match m with
          | Some m => alloc (set_source m 1 (rv_dist dv))
          | None => hlift (Err Unmodelled)
          end)
      (r0 <~ slift (from_rvs c (map MxRV dvs) (probs (rv_dist y))) ;;
          match r0 with
          | Some r0 => sret (set_source r0 1 (rv_dist x))
          | None => slift (Err Unmodelled)
          end)).
    eapply simh_bind; [apply simh_lift; auto|]. intros h2 m m' E2 O2 <-.
    eapply simh_get_bind; [exact O2|eapply is_ref_ext; [|exact D]; eapply ext_trans; eauto|].
    destruct m as [m|].
    + apply simh_alloc; auto. destruct E, E1, E2. lia.
    + unfold simh, hlift, slift. parts; auto; apply ext_refl.
Qed.

(** the die as an object *)
Definition die_ref (c : cfg) (d : hdie) : HT ref :=
  match d with
  | HDInt z => alloc_res (to_die c (DInt z))
  | HDSeq l => alloc_res (to_die c (DSeq l))
  | HDRef r => hret r
  end.

Definition the_die (h : heap) (d : hdie) : ref := match d with HDRef r => r | _ => hlen h end.

Lemma die_ref_sim c d h n : hok h -> valid h n d ->
  simh (the_die h d) h (fun h' r x => r = the_die h d /\ is_ref h (the_die h d) h' r x)
       (die_ref c d) (slift (to_die c (die_of h d))).
Proof.
  intros O [_ V]. unfold die_ref.
  assert (K : forall a, die_of h d = a -> the_die h d = hlen h ->
    simh (the_die h d) h (fun h' r x => r = the_die h d /\ is_ref h (the_die h d) h' r x)
       (alloc_res (to_die c a)) (slift (to_die c a))).
  { intros a _ E. unfold alloc_res, simh, hbind, hlift, slift. destruct (to_die c a) as [x|e]; [|parts; auto].
    pose proof (simh_alloc (the_die h d) h h x O (le_n _)) as S. unfold simh in S.
    destruct (alloc_spec h x O) as (Ea & _). rewrite Ea in *. cbn [sret] in S. destruct S as (S1 & S2). split; auto. }
  destruct d as [z|l|r]; cbn [the_die die_of] in *.
  - apply K; reflexivity.
  - apply K; reflexivity.
  - cbn [to_die]. change (slift (Ok (rv_at h r))) with (sret (rv_at h r)). apply simh_ret; auto.
    split; [reflexivity|]. split; [exact V|auto].
Qed.

Lemma hroll_core_eq c n d h : hroll_core c n d h = hbind (die_ref c d) (hcount_core c n) h.
Proof. reflexivity. Qed.

Lemma hroll_core_sim c n d h : hok h -> valid h n d ->
  simh (the_die h d) h (is_ref h (the_die h d)) (hroll_core c n d) (roll_core c (count_of h n) (die_of h d)).
Proof.
  intros O V. unfold simh. rewrite hroll_core_eq. fold (simh (the_die h d) h (is_ref h (the_die h d))
    (hbind (die_ref c d) (hcount_core c n)) (roll_core c (count_of h n) (die_of h d))).
  unfold roll_core. eapply simh_bind; [apply (die_ref_sim c d h n O V)|].
  intros h1 r x E1 O1 [-> D]. 
  assert (Ec : count_of h n = count_of h1 n).
  { destruct n as [m|s|q]; auto. cbn. destruct V as [V _]. f_equal. symmetry. now apply E1. }
  rewrite Ec. apply hcount_sim; auto. destruct n as [m|s|q]; auto. destruct V as [V _]. destruct E1. lia.
Qed.

(** one roll on the heap computes what the roll of RollModel.v computes, changes the value of no
    existing object, and renames only the object it returns, the die it was given and rolls in the table *)
Theorem hroll_sim c n d h : hok h -> valid h n d ->
  match hroll c n d h, roll_core c (count_of h n) (die_of h d) (memo_of h) with
  | (Ok r, h'), (Ok x, m) =>
      rv_at h' r = x /\ memo_of h' = m /\ hok h' /\ (hlen h <= hlen h')%nat /\ (r < hlen h')%nat /\
      (forall q, (q < hlen h)%nat -> rv_at h' q = rv_at h q) /\
      (forall q, (q < hlen h)%nat -> name_at h' q = name_at h q \/ d = HDRef q \/ in_table h' q)
  | (Err e, h'), (Err e', m) =>
      e = e' /\ memo_of h' = m /\ hok h' /\ (hlen h <= hlen h')%nat /\
      (forall q, (q < hlen h)%nat -> rv_at h' q = rv_at h q) /\
      (forall q, (q < hlen h)%nat -> name_at h' q = name_at h q \/ d = HDRef q \/ in_table h' q)
  | _, _ => False
  end.
Proof.
  intros O V.
  pose proof (sim_then_name (the_die h d) h h _ _ (setup_name n d) O (ext_refl _ _) (setup_pure n d) (hroll_core_sim c n d h O V)) as K.
  unfold hroll.
  assert (N : forall h', ext (the_die h d) h h' ->
    forall q, (q < hlen h)%nat -> name_at h' q = name_at h q \/ d = HDRef q \/ in_table h' q).
  { intros h' [_ _ _ E] q Hq. destruct (E q Hq) as [X|[X|X]]; auto. destruct d as [z|l|r]; cbn in X; subst; auto; lia. }
  destruct (hbind _ _ h) as [[r|e] h'], (roll_core c (count_of h n) (die_of h d) (memo_of h)) as [[x|e'] m]; try contradiction.
  - destruct K as ((K1 & K2 & _) & K3 & K4 & K5 & K6 & K7 & _). parts; auto.
  - destruct K as (K1 & K3 & K4 & K5 & K6 & K7 & _). parts; auto.
Qed.

(** histories of rolls *)
Definition hcall : Type := cfg * hcount * hdie.
Definition hstep (h : heap) (k : hcall) : heap := snd (hroll (fst (fst k)) (snd (fst k)) (snd k) h).
Definition hrun (calls : list hcall) (h : heap) : heap := fold_left hstep calls h.
Fixpoint hvalid (calls : list hcall) (h : heap) : Prop :=
  match calls with
  | [] => True
  | k :: rest => valid h (snd (fst k)) (snd k) /\ hvalid rest (hstep h k)
  end.

Lemma hrun_values calls : forall h, hok h -> hvalid calls h ->
  hok (hrun calls h) /\ (hlen h <= hlen (hrun calls h))%nat /\
  forall q, (q < hlen h)%nat -> rv_at (hrun calls h) q = rv_at h q.
Proof.
  induction calls as [|[[c n] d] calls IH]; intros h O V; [parts; auto|].
  destruct V as [V1 V2]. cbn [fst snd] in V1. cbn [hrun fold_left]. fold (hrun calls (hstep h (c, n, d))).
  pose proof (hroll_sim c n d h O V1) as S.
  assert (K : hok (hstep h (c, n, d)) /\ (hlen h <= hlen (hstep h (c, n, d)))%nat /\
     forall q, (q < hlen h)%nat -> rv_at (hstep h (c, n, d)) q = rv_at h q).
  { unfold hstep. cbn [fst snd].
    destruct (hroll c n d h) as [[r|e] h'], (roll_core c (count_of h n) (die_of h d) (memo_of h)) as [[x|e'] m];
      try contradiction; cbn [snd].
    - destruct S as (_ & _ & S1 & S2 & _ & S3 & _). auto.
    - destruct S as (_ & _ & S1 & S2 & S3 & _). auto. }
  destruct K as (K1 & K2 & K3). destruct (IH _ K1 V2) as (I1 & I2 & I3). parts; auto; [lia|].
  intros q Hq. rewrite I3 by lia. auto.
Qed.

(** the name of a roll of plain dice *)
Lemma hroll_name c n m h r h' : hok h -> hroll c (HCInt n) (HDInt m) h = (Ok r, h') -> name_at h' r = (n, RInt m).
Proof.
  intros O E. unfold hroll in E. cbn [setup_name] in E.
  pose proof (hroll_core_sim c (HCInt n) (HDInt m) h O (conj I I)) as S. unfold simh in S.
  unfold hbind at 1 in E. destruct (hroll_core c (HCInt n) (HDInt m) h) as [[q|e] h1]; [|discriminate].
  destruct (roll_core c _ _ _) as [[x|e'] m']; [|contradiction]. destruct S as ((S1 & _) & _ & O1 & _).
  unfold hbind, hret in E. destruct (rename_spec h1 q (n, RInt m) O1 S1) as (R & _ & _ & _ & N & _). rewrite R in E.
  injection E as <- <-. exact N.
Qed.
