(** C83: the outputs of a program have the probabilities that its text says. *)
From Coq Require Import String Ascii Bool List ZArith QArith Sorted Lia.
From Verif Require Import PyBase Spec Num Val RVModel UtilModel Obj LexModel LexSpec LexFacts GramModel ParseModel SynSpec ParseSound ParseLaws
  NameSpec ResolveModel ResolveGen CompileFacts PySpec PyDet PyTrans PyReady PyLines PyProg PyCompile PyLaws PyProgLaws
  Runtime PySem ExecModel MeanSpec RunSpec SemLaws RunModel ConstructFacts RefineFacts IdealFacts IdealSpec IdealVals IdealCast IdealLaws PropRun.
Import ListNotations.
Open Scope string_scope.
Open Scope Z_scope.
Open Scope list_scope.

(** * C83 *)

(** A random variable of the library has exactly the given probabilities: the same
    values, from the lowest to the highest, and the weight of each over the sum of all
    weights is its probability. *)
Definition all_weights (r : rv) : Z := fold_right (fun vw s => snd vw + s) 0 (rv_dist r).
Definition has_law (t : table) (r : rv) : Prop :=
  Forall2 (fun zq vw => fst vw = VN (NI (fst zq)) /\ (0 < snd zq)%Q /\
                        (inject_Z (snd vw) / inject_Z (all_weights r) == snd zq)%Q) t (rv_dist r) /\
  StronglySorted (fun x y => fst x < fst y) t /\ (chance (fun _ => true) t == 1)%Q.

(** What the library shows is what the ideal meaning says. *)
Inductive agrees : ival -> obj -> Prop :=
| ag_num z : agrees (INum z) (OV (VN (NI z)))
| ag_text s : agrees (IText s) (OStr s)
| ag_seq l : agrees (ISeq l) (OSeq (map (fun z => VN (NI z)) l))
| ag_list l l' : Forall2 agrees l l' -> agrees (IList l) (OIter l')
| ag_dice t p r : has_law t r -> agrees (IDice t p) (ORV r)
| ag_blank b : agrees (IBlank b) (OBlank b)
| ag_none : agrees INone ONone.
Definition same_output (a : ival * option ival) (b : obj * option obj) : Prop :=
  agrees (fst a) (fst b) /\
  match snd a, snd b with Some x, Some y => agrees x y | None, None => True | _, _ => False end.

Lemma reps_law t r : reps t (rv_dist r) -> has_law t r.
Proof.
  intro R. pose proof R as [[S P] C PW F].
  assert (T : 0 < total (rv_dist r)) by exact (positive_total _ (proj1 (proj1 C)) PW).
  assert (A : all_weights r = total (rv_dist r)).
  { unfold all_weights. generalize (rv_dist r). intro d. unfold total. induction d as [|[v x] d IH]; [reflexivity|].
    cbn [fold_right mass snd]. rewrite IH. reflexivity. }
  assert (N : ~ (inject_Z (total (rv_dist r)) == 0)%Q) by (intro Z; change 0%Q with (inject_Z 0) in Z; rewrite inject_Z_injective in Z; lia).
  split; [|split].
  - rewrite A. clear -F P N. revert F N. generalize (total (rv_dist r)). intros T F N. unfold positive in P. induction F as [|a b t d [E1 E2] _ IH]; [constructor|]. inversion P; subst.
    constructor; [|apply IH; assumption]. split; [exact E1|]. split; [assumption|]. rewrite E2. field. exact N.
  - exact S.
  - assert (X : (inject_Z (total (rv_dist r)) * chance (fun _ => true) t == inject_Z (total (rv_dist r)))%Q).
    { clear -F. revert F. generalize (total (rv_dist r)) at 1 2 as T. intros T F.
      unfold total. induction F as [|[z q] [v w] t d [_ E2] _ IH]; [cbn; ring|]. cbn [chance fst snd] in *.
      cbn [mass]. rewrite inject_Z_plus, Qmult_plus_distr_r, IH, <- E2.
      reflexivity. }
    rewrite <- (Qmult_1_r (inject_Z (total (rv_dist r)))) in X at 2. apply Qmult_inj_l in X; [exact X|exact N].
Qed.
Lemma val_agrees : forall v o, is_val v o -> agrees v o.
Proof.
  fix IH 3. intros v o H. destruct H as [z|s|l|l l' H|t p x [R _]|b|].
  - apply ag_num.
  - apply ag_text.
  - apply ag_seq.
  - apply ag_list. induction H; constructor; [now apply IH|assumption].
  - apply ag_dice, reps_law, R.
  - apply ag_blank.
  - apply ag_none.
Qed.
Lemma shows_same a b : shows a b -> same_output a b.
Proof.
  intros [H1 H2]. split; [now apply val_agrees|]. unfold opt_rel in H2.
  destruct (snd a), (snd b); try exact H2. now apply val_agrees.
Qed.

(** Whatever the ideal meaning of a program covers, the library computes exactly: the
    program ends without failure, and its outputs have, in order, the names and the
    probabilities that the ideal meaning gives them. *)
Theorem C83_exact : forall oplib lib n p w, mean_program ideal oplib lib n p ideal_start = Some (Ok Datatypes.tt, w) ->
  exists w', mean_program library oplib lib n p fresh_world = Some (Ok Datatypes.tt, w') /\
    Forall2 same_output (iw_outputs w) (rw_outputs w').
Proof.
  intros oplib lib n p w E. destruct (ideal_program oplib lib n p _ w E) as [w' [E' S]]. exists w'. split; [exact E'|].
  pose proof (sf_outputs _ _ S) as O. clear -O. induction O as [|a b x y H _ IH]; constructor; [now apply shows_same|exact IH].
Qed.
Print Assumptions C83_exact.

(** So does the Python program that is generated from it. *)
Theorem C83_executed : forall fl src text, fl_check fl = true -> fl_prefix fl = false -> compile fl src = Ok text ->
  exists p fl', wf p = true /\ scan src = Some (toks p) /\ settled fl p fl' /\
    (keeps fl' p = true -> results_inside p = true -> tame fl' p = true ->
     forall n w, mean_program ideal (fl_oplib fl) (negb (fl_prefix fl')) n p ideal_start = Some (Ok Datatypes.tt, w) ->
     forall q, py_program text q ->
     exists w', unsafe_exec library n q fresh_world = Some (Ok Datatypes.tt, w') /\
       Forall2 same_output (iw_outputs w) (rw_outputs w')).
Proof.
  intros fl src text C P E. destruct (runs_as_meant fl src text C P E) as [p [fl' [W [S [H R]]]]].
  exists p, fl'. split; [exact W|split; [exact S|split; [exact H|]]]. intros K I T n w Ew q Q.
  destruct (R K I T) as [_ X]. destruct (C83_exact _ _ n p w Ew) as [w' [E' O]].
  exists w'. split; [|exact O]. rewrite (X q Q). exact E'.
Qed.
Print Assumptions C83_executed.

(** The outputs of a program that ends without failure. *)
Definition ideal_outputs (r : option (res unit * iworld)) : list (table * option ival) :=
  match r with
  | Some (Ok _, w) => map (fun o => (match fst o with IDice t _ => t | _ => [] end, snd o)) (iw_outputs w)
  | _ => []
  end.
Definition num (s : string) : expr := ETerm (TNum s).
Definition var (s : string) : expr := ETerm (TVar s).
Definition fight_source : string :=
  "function: best S:s { result: 1@S + 2@S }
   function: hit A:n vs B:n { if A > B { result: 1 } if A = B { result: d{0,1} } result: 0 }
   output [best 3d3]
   output [hit d4 vs d6] named ""hit""
   loop I over {1..2} { output I d {1,3} >= 4 named ""of [I]"" }
   output 2@3d3".
Definition fight_program : program :=
  [ SFunction (HWord (WName "best")) [HTyped "S" (SynSpec.PName "s")]
      [ SResult (EBin OAdd (EBin OAt (num "1") (var "S")) (EBin OAt (num "2") (var "S"))) ];
    SFunction (HWord (WName "hit")) [HTyped "A" (SynSpec.PName "n"); HWord (WName "vs"); HTyped "B" (SynSpec.PName "n")]
      [ SIf (Branch (EBin OGt (var "A") (var "B")) [SResult (num "1")]) [] None;
        SIf (Branch (EBin OEq (var "A") (var "B")) [SResult (EDie (TSeq [LOne (num "0"); LOne (num "1")]))]) [] None;
        SResult (num "0") ];
    SOutput (ETerm (TCall [CWord (WName "best"); CArg (EDice (TNum "3") (TNum "3"))]));
    SNamed (ETerm (TCall [CWord (WName "hit"); CArg (EDie (TNum "4")); CWord (WName "vs"); CArg (EDie (TNum "6"))])) (PAny "hit") [];
    SLoop "I" (ETerm (TSeq [LRange (num "1") (num "2")]))
      [SNamed (EBin OGe (EDice (TVar "I") (TSeq [LOne (num "1"); LOne (num "3")])) (num "4")) (PAny "of ") [PVar "I"]];
    SOutput (EBin OAt (num "2") (EDice (TNum "3") (TNum "3"))) ].

(** The ideal meaning of a program with functions of numbers and sequences, conditions, a
    loop and selections. *)
Example C83_sample :
  scan fight_source = Some (toks fight_program) /\ wf fight_program = true /\ keeps default_flags fight_program = true /\
  results_inside fight_program = true /\ tame default_flags fight_program = true /\
  (exists text, compile default_flags fight_source = Ok text /\ py_program text (py_prog default_flags fight_program)) /\
  ideal_outputs (mean_program ideal (fl_oplib default_flags) true 3 fight_program ideal_start) =
    [ ([(2, (1 # 27)%Q); (3, (1 # 9)%Q); (4, (7 # 27)%Q); (5, (1 # 3)%Q); (6, (7 # 27)%Q)], None);
      ([(0, (2 # 3)%Q); (1, (1 # 3)%Q)], Some (IText "hit"));
      ([(0, 1%Q)], Some (IText "of 1"));
      ([(0, (1 # 4)%Q); (1, (3 # 4)%Q)], Some (IText "of 2"));
      ([(1, (7 # 27)%Q); (2, (13 # 27)%Q); (3, (7 # 27)%Q)], None) ].
Proof.
  do 5 (split; [vm_compute; reflexivity|]). split.
  - eexists. split; [vm_compute; reflexivity|]. apply (reads_of fight_source); vm_compute; reflexivity.
  - vm_compute. reflexivity.
Qed.

(** Library functions and the two settings they depend on. *)
Definition lib_source : string :=
  "output [highest 2 of 3d{0,1}]
   set ""explode depth"" to 1
   output [explode d3] named ""burst""
   output 1@2d2
   set ""position order"" to ""lowest first""
   output 1@2d2
   output [lowest of d2 and d3]
   output [count {1,3} in 2d3]".
Definition lib_program : program :=
  let of n d := EDice (TNum n) d in
  [ SOutput (ETerm (TCall [CWord (WName "highest"); CArg (num "2"); CWord (WName "of"); CArg (of "3" (TSeq [LOne (num "0"); LOne (num "1")]))]));
    SSet (PAny "explode depth") [] (num "1");
    SNamed (ETerm (TCall [CWord (WName "explode"); CArg (EDie (TNum "3"))])) (PAny "burst") [];
    SOutput (EBin OAt (num "1") (of "2" (TNum "2")));
    SSet (PAny "position order") [] (ETerm (TStr (PAny "lowest first") []));
    SOutput (EBin OAt (num "1") (of "2" (TNum "2")));
    SOutput (ETerm (TCall [CWord (WName "lowest"); CWord (WName "of"); CArg (EDie (TNum "2")); CWord (WName "and"); CArg (EDie (TNum "3"))]));
    SOutput (ETerm (TCall [CWord (WName "count"); CArg (ETerm (TSeq [LOne (num "1"); LOne (num "3")])); CWord (WName "in"); CArg (of "2" (TNum "3"))])) ].
Example C83_lib_sample :
  scan lib_source = Some (toks lib_program) /\ wf lib_program = true /\
  ideal_outputs (mean_program ideal (fl_oplib default_flags) true 3 lib_program ideal_start) =
    [ ([(0, (1 # 8)%Q); (1, (3 # 8)%Q); (2, (1 # 2)%Q)], None);
      ([(1, (1 # 3)%Q); (2, (1 # 3)%Q); (4, (1 # 9)%Q); (5, (1 # 9)%Q); (6, (1 # 9)%Q)], Some (IText "burst"));
      ([(1, (1 # 4)%Q); (2, (3 # 4)%Q)], None);
      ([(1, (3 # 4)%Q); (2, (1 # 4)%Q)], None);
      ([(1, (2 # 3)%Q); (2, (1 # 3)%Q)], None);
      ([(0, (1 # 9)%Q); (1, (4 # 9)%Q); (2, (4 # 9)%Q)], None) ].
Proof. do 2 (split; [vm_compute; reflexivity|]). vm_compute. reflexivity. Qed.

(** Operators on sequences and dice, without the option for operators on numbers. *)
Definition op_source : string :=
  "S: {5,3,4}
   output #S + #(3d6)
   output {1,2}@S + {1,3}@907
   output {S > {4,2}, S < {9,9,9,9}}
   output {d4, 7, {}, 1d{}}
   output (d6 > 3) & (d4 > 1)
   output (d2 = 1) | (S = 0)
   output !S
   output 1d{} - S".
Definition one (l : list string) : term := TSeq (map (fun z => LOne (num z)) l).
Definition grp (o : binop) (a b : expr) : expr := ETerm (TGroup (EBin o a b)).
Definition nothing : expr := EDice (TNum "1") (TSeq []).
Definition op_program : program :=
  [ SAssign "S" (ETerm (one ["5"; "3"; "4"]));
    SOutput (EBin OAdd (ETerm (THash (TVar "S"))) (ETerm (THash (TGroup (EDice (TNum "3") (TNum "6"))))));
    SOutput (EBin OAdd (EBin OAt (ETerm (one ["1"; "2"])) (var "S")) (EBin OAt (ETerm (one ["1"; "3"])) (num "907")));
    SOutput (ETerm (TSeq [LOne (EBin OGt (var "S") (ETerm (one ["4"; "2"]))); LOne (EBin OLt (var "S") (ETerm (one ["9"; "9"; "9"; "9"])))]));
    SOutput (ETerm (TSeq [LOne (EDie (TNum "4")); LOne (num "7"); LOne (ETerm (TSeq [])); LOne nothing]));
    SOutput (EBin OAnd (grp OGt (EDie (TNum "6")) (num "3")) (grp OGt (EDie (TNum "4")) (num "1")));
    SOutput (EBin OOr (grp OEq (EDie (TNum "2")) (num "1")) (grp OEq (var "S") (num "0")));
    SOutput (ETerm (TUn UNot (TVar "S")));
    SOutput (EBin OSub nothing (var "S")) ].
Definition ideal_values (r : option (res unit * iworld)) : list ival :=
  match r with Some (Ok _, w) => map fst (iw_outputs w) | _ => [] end.
Example C83_operators_sample :
  scan op_source = Some (toks op_program) /\ wf op_program = true /\ keeps default_flags op_program = true /\
  results_inside op_program = true /\ tame default_flags op_program = true /\
  (exists text, compile default_flags op_source = Ok text /\ py_program text (py_prog default_flags op_program)) /\
  ideal_values (mean_program ideal (fl_oplib default_flags) true 3 op_program ideal_start) =
    let die t := IDice t (Some (1%nat, t)) in
    [ INum 6; INum 24; ISeq [1; 1]; ISeq [7; 1; 2; 3; 4]; die [(0, (5 # 8)%Q); (1, (3 # 8)%Q)];
      die [(0, (1 # 2)%Q); (1, (1 # 2)%Q)]; INum 0; INum (-12) ].
Proof.
  do 5 (split; [vm_compute; reflexivity|]). split.
  - eexists. split; [vm_compute; reflexivity|]. apply (reads_of op_source); vm_compute; reflexivity.
  - vm_compute. reflexivity.
Qed.

(** Without that option, negation, "and", positions and lengths of numbers do not mean
    what they mean of sequences and dice, and of numbers with the option: the negation of
    1 is -2, "1 and 2" is false, and there is no second digit and no length of 35. *)
Definition number_ops (oplib : bool) (e : expr) : option (res unit) * list (obj * option obj) :=
  match mean_program library oplib true 1 [SOutput e] fresh_world with
  | Some (r, w) => (Some r, rw_outputs w)
  | None => (None, [])
  end.
Theorem C83_numbers_refuted :
  fl_oplib default_flags = false /\
  (let not1 := ETerm (TUn UNot (TNum "1")) in
   number_ops false not1 = (Some (Ok Datatypes.tt), [(oint (-2), None)]) /\ number_ops true not1 = (Some (Ok Datatypes.tt), [(oint 0, None)])) /\
  (let both := EBin OAnd (num "1") (num "2") in
   number_ops false both = (Some (Ok Datatypes.tt), [(oint 0, None)]) /\ number_ops true both = (Some (Ok Datatypes.tt), [(oint 1, None)])) /\
  (let digit := EBin OAt (num "2") (num "35") in
   number_ops false digit = (Some (Err TypeErr), []) /\ number_ops true digit = (Some (Ok Datatypes.tt), [(oint 5, None)])) /\
  (let size := ETerm (THash (TNum "35")) in
   number_ops false size = (Some (Err TypeErr), []) /\ number_ops true size = (Some (Ok Datatypes.tt), [(oint 2, None)])).
Proof. repeat split; vm_compute; reflexivity. Qed.
Print Assumptions C83_numbers_refuted.

(** Without the limit of 10^30 on denominators it does not hold: the library cuts off
    large weights.  The probability that 60 dice show no 1 is not exact. *)
Definition many : program := [SOutput (EDice (TNum "60") (TSeq (map (fun z => LOne (num z)) ["0"; "0"; "0"; "0"; "1"])))].
Theorem C83_large_refuted : exists w r,
  scan "output 60d{0,0,0,0,1}" = Some (toks many) /\ wf many = true /\
  mean_program library (fl_oplib default_flags) true 1 many fresh_world = Some (Ok Datatypes.tt, w) /\ rw_outputs w = [(ORV r, None)] /\
  ~ has_law (several 60 (IdealSpec.fair [0; 0; 0; 0; 1])) r.
Proof.
  assert (L : forall t r, has_law t r ->
    match t, rv_dist r with
    | zq :: _, vw :: _ => Qeq_bool (inject_Z (snd vw) / inject_Z (all_weights r)) (snd zq) = true
    | _, _ => True
    end).
  { intros t r [H _]. destruct H as [|zq vw t' d' [_ [_ H]] _]; [exact Logic.I|]. now apply Qeq_bool_iff. }
  eexists. eexists. split; [vm_compute; reflexivity|]. split; [vm_compute; reflexivity|]. split; [vm_compute; reflexivity|].
  split; [vm_compute; reflexivity|]. intro H. apply L in H. vm_compute in H. discriminate H.
Qed.
Print Assumptions C83_large_refuted.
