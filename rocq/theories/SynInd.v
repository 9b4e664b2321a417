(** Induction over the abstract syntax of SynSpec.v. *)
From Coq Require Import String Bool List Arith.
From Verif Require Import LexModel ParseModel SynSpec.
Import ListNotations.
Open Scope list_scope.

Section expr_induction.
  Variables (PE : expr -> Prop) (PT : term -> Prop) (PL : element -> Prop) (PC : citem -> Prop).
  Hypothesis H_bin : forall o l r, PE l -> PE r -> PE (EBin o l r).
  Hypothesis H_dice : forall n d, PT n -> PT d -> PE (EDice n d).
  Hypothesis H_die : forall d, PT d -> PE (EDie d).
  Hypothesis H_term : forall t, PT t -> PE (ETerm t).
  Hypothesis H_num : forall s, PT (TNum s).
  Hypothesis H_dec : forall a b, PT (TDec a b).
  Hypothesis H_var : forall x, PT (TVar x).
  Hypothesis H_str : forall p ps, PT (TStr p ps).
  Hypothesis H_seq : forall es, Forall PL es -> PT (TSeq es).
  Hypothesis H_group : forall e, PE e -> PT (TGroup e).
  Hypothesis H_call : forall cs, Forall PC cs -> PT (TCall cs).
  Hypothesis H_un : forall u t, PT t -> PT (TUn u t).
  Hypothesis H_hash : forall t, PT t -> PT (THash t).
  Hypothesis H_one : forall e, PE e -> PL (LOne e).
  Hypothesis H_range : forall a b, PE a -> PE b -> PL (LRange a b).
  Hypothesis H_word : forall w, PC (CWord w).
  Hypothesis H_arg : forall e, PE e -> PC (CArg e).

  Fixpoint e_ind (e : expr) : PE e :=
    match e with
    | EBin o l r => H_bin o l r (e_ind l) (e_ind r)
    | EDice n d => H_dice n d (t_ind n) (t_ind d)
    | EDie d => H_die d (t_ind d)
    | ETerm t => H_term t (t_ind t)
    end
  with t_ind (t : term) : PT t :=
    match t with
    | TNum s => H_num s
    | TDec a b => H_dec a b
    | TVar x => H_var x
    | TStr p ps => H_str p ps
    | TSeq es => H_seq es ((fix go (l : list element) : Forall PL l :=
        match l with [] => Forall_nil _ | x :: r => Forall_cons _ (l_ind x) (go r) end) es)
    | TGroup e => H_group e (e_ind e)
    | TCall cs => H_call cs ((fix go (l : list citem) : Forall PC l :=
        match l with [] => Forall_nil _ | x :: r => Forall_cons _ (c_ind x) (go r) end) cs)
    | TUn u t => H_un u t (t_ind t)
    | THash t => H_hash t (t_ind t)
    end
  with l_ind (x : element) : PL x :=
    match x with
    | LOne e => H_one e (e_ind e)
    | LRange a b => H_range a b (e_ind a) (e_ind b)
    end
  with c_ind (c : citem) : PC c :=
    match c with
    | CWord w => H_word w
    | CArg e => H_arg e (e_ind e)
    end.

  Lemma syn_ind : (forall e, PE e) /\ (forall t, PT t) /\ (forall x, PL x) /\ (forall c, PC c).
  Proof. exact (conj e_ind (conj t_ind (conj l_ind c_ind))). Qed.
End expr_induction.

Section stmt_induction.
  Variables (PS : stmt -> Prop) (PB : branch -> Prop).
  Hypothesis H_output : forall e, PS (SOutput e).
  Hypothesis H_named : forall e p ps, PS (SNamed e p ps).
  Hypothesis H_function : forall h hs body, Forall PS body -> PS (SFunction h hs body).
  Hypothesis H_loop : forall x e body, Forall PS body -> PS (SLoop x e body).
  Hypothesis H_result : forall e, PS (SResult e).
  Hypothesis H_set : forall p ps v, PS (SSet p ps v).
  Hypothesis H_assign : forall x e, PS (SAssign x e).
  Hypothesis H_if : forall b bs els, PB b -> Forall PB bs ->
    match els with None => True | Some body => Forall PS body end -> PS (SIf b bs els).
  Hypothesis H_branch : forall c body, Forall PS body -> PB (Branch c body).

  Fixpoint s_ind (s : stmt) : PS s :=
    match s with
    | SOutput e => H_output e
    | SNamed e p ps => H_named e p ps
    | SFunction h hs body => H_function h hs body ((fix go (l : list stmt) : Forall PS l :=
        match l with [] => Forall_nil _ | x :: r => Forall_cons _ (s_ind x) (go r) end) body)
    | SLoop x e body => H_loop x e body ((fix go (l : list stmt) : Forall PS l :=
        match l with [] => Forall_nil _ | x :: r => Forall_cons _ (s_ind x) (go r) end) body)
    | SResult e => H_result e
    | SSet p ps v => H_set p ps v
    | SAssign x e => H_assign x e
    | SIf b bs els => H_if b bs els (b_ind b)
        ((fix go (l : list branch) : Forall PB l :=
          match l with [] => Forall_nil _ | x :: r => Forall_cons _ (b_ind x) (go r) end) bs)
        (match els with
         | None => I
         | Some body => (fix go (l : list stmt) : Forall PS l :=
             match l with [] => Forall_nil _ | x :: r => Forall_cons _ (s_ind x) (go r) end) body
         end)
    end
  with b_ind (b : branch) : PB b :=
    match b with
    | Branch c body => H_branch c body ((fix go (l : list stmt) : Forall PS l :=
        match l with [] => Forall_nil _ | x :: r => Forall_cons _ (s_ind x) (go r) end) body)
    end.

  Lemma stmt_ind2 : (forall s, PS s) /\ (forall b, PB b).
  Proof. exact (conj s_ind b_ind). Qed.
End stmt_induction.
