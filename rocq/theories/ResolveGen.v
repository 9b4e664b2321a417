(** The text the code generator produces for a program, as a function of its
    abstract syntax, and the functions and outputs it records on the way. *)
From Coq Require Import String Ascii Bool List Arith Lia.
From Verif Require Import PyBase LexModel LexSpec GramModel ParseModel SynSpec SynInd NameSpec ResolveModel.
Import ListNotations.
Open Scope string_scope.
Open Scope list_scope.
Open Scope py_scope.

(** ** Headers *)

Definition type_text (ty : ptype) : string := dtype (snd (ptype_tok ty)).

Definition param_text (p : string * option ptype) : string :=
  match p with
  | (x, None) => x
  | (x, Some ty) => (x ++ ": " ++ type_text ty)%string
  end.

Definition dummy (i : nat) : string := ("dummy" ++ show i)%string.

(** Parameters after renaming: from position [i] on, when the names [seen] came before. *)
Fixpoint renamed (i : nat) (seen : list string) (ps : list (string * option ptype))
  : list (string * option ptype) :=
  match ps with
  | [] => []
  | (x, ty) :: ps' =>
      (if existsb (String.eqb x) seen then dummy i else x, ty) :: renamed (S i) (x :: seen) ps'
  end.

Definition mangle (fl : flags) (s : shape) : string :=
  join "_" ((if fl_prefix fl then ["f"] else []) ++ map (fun x => match x with Some w => w | None => "X" end) s).

(** ** Expressions *)

Section gen.
  Variable fl : flags.

  Definition gen_part (p : part) : string :=
    match p with
    | PAny s | PNonvar s => double_char "}" (double_char "{" s)
    | PVar v => (if fl_vars fl then "{vars['" ++ v ++ "']}" else "{" ++ v ++ "}")%string
    end.
  Definition gen_str (ps : list part) : string :=
    ("f" ++ quote ++ join "" (map gen_part ps) ++ quote)%string.

  Definition bin_text (o : binop) (a b : string) : string :=
    let plain := (a ++ " " ++ py_op (op_text o) ++ " " ++ b)%string in
    match o with
    | OAt => if fl_oplib fl then "myMatmul(" ++ a ++ ", " ++ b ++ ")" else "(" ++ a ++ " " ++ py_op (op_text o) ++ " " ++ b ++ ")"
    | OAnd => if fl_oplib fl then "myAnd(" ++ a ++ ", " ++ b ++ ")" else plain
    | OOr => if fl_oplib fl then "myOr(" ++ a ++ ", " ++ b ++ ")" else plain
    | _ => plain
    end%string.

  Definition un_text (u : unop) (a : string) : string :=
    match u with
    | UNot => if fl_oplib fl then "myInvert(" ++ a ++ ")" else "~" ++ a
    | UPos => "+" ++ a
    | UNeg => "-" ++ a
    end%string.

  Definition call_text (s : shape) (args : list string) : string :=
    (mangle fl s ++ "(" ++ join ", " (args ++ if fl_vars fl then ["vars"] else [])%list ++ ")")%string.

  Definition c_args {A} (f : expr -> A) (cs : list citem) : list A :=
    flat_map (fun c => match c with CWord _ => [] | CArg e => [f e] end) cs.

  Fixpoint gen_e (e : expr) : string :=
    match e with
    | EBin o l r => bin_text o (gen_e l) (gen_e r)
    | EDice n d => "roll(" ++ gen_t n ++ ", " ++ gen_t d ++ ")"
    | EDie d => "roll(" ++ gen_t d ++ ")"
    | ETerm t => gen_t t
    end%string
  with gen_t (t : term) : string :=
    match t with
    | TNum s => s
    | TDec a b => a ++ "." ++ b
    | TVar x => if fl_vars fl then "vars['" ++ x ++ "']" else x
    | TStr p ps => gen_str (p :: ps)
    | TSeq es => "get_seq([" ++ join ", " (map gen_l es) ++ "])"
    | TGroup e => "(" ++ gen_e e ++ ")"
    | TCall cs => call_text (call_shape cs) (flat_map gen_c cs)
    | TUn u t => un_text u (gen_t t)
    | THash t => (if fl_oplib fl then "myLen(" else "len(") ++ gen_t t ++ ")"
    end%string
  with gen_l (x : element) : string :=
    match x with
    | LOne e => gen_e e
    | LRange a b => "myrange(" ++ gen_e a ++ ", " ++ gen_e b ++ ")"
    end%string
  with gen_c (c : citem) : list string :=
    match c with CWord _ => [] | CArg e => [gen_e e] end.

  (** ** Statements *)

  Definition block_text (ls : list string) : string :=
    match ls with [] => "pass" | _ => join nl ls end.

  Definition def_text (hs : list hitem) (body : string) : string :=
    let ps := renamed 0 [] (params hs) in
    ("@anydice_casting()" ++ nl ++ "def " ++ mangle fl (header_shape hs)
     ++ "(" ++ join ", " (map param_text ps ++ if fl_vars fl then ["vars"] else [])%list ++ "):" ++ nl
     ++ (if fl_vars fl then
           indent_str ("vars = vars.copy(); " ++
             join "; " (map (fun p => "vars[" ++ quote ++ fst p ++ quote ++ "] = " ++ fst p) ps)) ++ nl
         else "")
     ++ indent_str body ++ nl)%string.

  Definition loop_text (x o body : string) : string :=
    ("for " ++ x ++ " in " ++ o ++ ":" ++ nl
     ++ (if fl_vars fl then indent_str ("vars['" ++ x ++ "'] = " ++ x) ++ nl else "")
     ++ indent_str body ++ nl)%string.

  Fixpoint gen_s (s : stmt) : string :=
    match s with
    | SOutput e => "output(" ++ gen_e e ++ ")"
    | SNamed e p ps => "output(" ++ gen_e e ++ ", named=" ++ gen_str (p :: ps) ++ ")"
    | SFunction h hs body => def_text (h :: hs) (block_text (map gen_s body))
    | SLoop x e body => loop_text x (gen_e e) (block_text (map gen_s body))
    | SResult e => "return " ++ gen_e e
    | SSet p ps v => "settings_set(" ++ gen_str (p :: ps) ++ ", " ++ gen_e v ++ ")"
    | SAssign x e => if fl_vars fl then "vars['" ++ x ++ "'] = " ++ gen_e e else x ++ " = " ++ gen_e e
    | SIf b bs els =>
        join nl (gen_b "if " b :: map (gen_b "elif ") bs
                 ++ match els with
                    | None => []
                    | Some body => [("else:" ++ nl ++ indent_str (block_text (map gen_s body)))%string]
                    end)%list
        ++ nl
    end%string
  with gen_b (k : string) (b : branch) : string :=
    match b with
    | Branch c body =>
        (k ++ gen_e c ++ ":" ++ nl ++ indent_str (block_text (map gen_s body)))%string
    end.

  (** ** What is recorded *)

  Definition adv (d c : list shape) (o : nat) (st : rstate) : rstate :=
    mkR (rev (map (mangle fl) d) ++ r_defined st) (rev (map (mangle fl) c) ++ r_called st)
        (o + r_outputs st).

  Lemma adv_adv : forall d c o d' c' o' st,
    adv d' c' o' (adv d c o st) = adv (d ++ d') (c ++ c') (o + o') st.
  Proof.
    intros. unfold adv. cbn [r_defined r_called r_outputs].
    rewrite !map_app, !rev_app_distr, <- !app_assoc. f_equal. lia.
  Qed.
  Lemma adv_0 : forall st, adv [] [] 0 st = st.
  Proof. intros []. reflexivity. Qed.

  Lemma mapS_adv : forall A B C (f : A -> M B) (g : C -> A) (h : C -> B) D K O (ok : C -> bool) l,
    Forall (fun x => forall st, f (g x) st =
       if ok x then Ok (h x, adv (D x) (K x) (O x) st) else Err IndexErr) l ->
    forall st, mapS f (map g l) st =
      if forallb ok l then
        Ok (map h l, adv (flat_map D l) (flat_map K l) (list_sum (map O l)) st)
      else Err IndexErr.
  Proof.
    intros A B C f g h D K O ok l F. induction F as [|x l Hx F IH]; intros st.
    - cbn. now rewrite adv_0.
    - cbn [map mapS forallb flat_map list_sum fold_right]. unfold bindM. rewrite Hx.
      destruct (ok x); [|reflexivity]. cbn [andb]. rewrite IH.
      destruct (forallb ok l); [|reflexivity]. unfold ret. now rewrite adv_adv.
  Qed.

  Lemma mapS_ok : forall A B C (f : A -> M B) (g : C -> A) (h : C -> B) K l,
    Forall (fun x => forall st, f (g x) st = Ok (h x, adv [] (K x) 0 st)) l ->
    forall st, mapS f (map g l) st = Ok (map h l, adv [] (flat_map K l) 0 st).
  Proof.
    intros A B C f g h K l F. induction F as [|x l Hx F IH]; intros st.
    - cbn. now rewrite adv_0.
    - cbn [map mapS flat_map]. unfold bindM. rewrite Hx, IH. unfold ret. now rewrite adv_adv.
  Qed.

  Lemma str_gen : forall ps st, resolve_node fl (string_node ps) st = Ok (gen_str ps, st).
  Proof.
    intros ps st. unfold string_node. cbn [resolve_node]. unfold bindM.
    rewrite (mapS_ok _ _ _ _ part_node gen_part (fun _ => [])).
    - rewrite (flat_map_concat_map), <- flat_map_concat_map.
      assert (E : flat_map (fun _ : part => @nil shape) ps = []) by (induction ps; auto).
      rewrite E, adv_0. reflexivity.
    - apply Forall_forall. intros [s|s|v] _ st'; rewrite adv_0; try reflexivity.
      cbn [part_node resolve_node gen_part]. destruct (fl_vars fl); reflexivity.
  Qed.

  Theorem expr_gen :
    (forall e st, resolve_node fl (node_e e) st = Ok (gen_e e, adv [] (calls_e e) 0 st)) /\
    (forall t st, resolve_node fl (node_t t) st = Ok (gen_t t, adv [] (calls_t t) 0 st)) /\
    (forall x st, resolve_node fl (node_l x) st = Ok (gen_l x, adv [] (calls_l x) 0 st)) /\
    (forall c, match c with
               | CWord _ => True
               | CArg e => forall st, resolve_node fl (node_e e) st = Ok (gen_e e, adv [] (calls_e e) 0 st)
               end).
  Proof.
    apply syn_ind.
    - intros o l r Hl Hr st. cbn [node_e gen_e calls_e].
      destruct o; cbn [resolve_node]; unfold bindM;
        repeat match goal with
        | |- context [String.eqb ?a ?b] =>
            let v := eval vm_compute in (String.eqb a b) in change (String.eqb a b) with v
        end; cbn iota beta; unfold bindM;
        rewrite Hl, Hr, adv_adv; unfold bin_text, ret; try destruct (fl_oplib fl); reflexivity.
    - intros n d Hn Hd st. cbn [node_e gen_e calls_e resolve_node].
      change (py_op "ndm") with "ndm". cbn [String.eqb]. cbn. unfold bindM. rewrite Hn, Hd, adv_adv. reflexivity.
    - intros d Hd st. cbn [node_e gen_e calls_e resolve_node].
      change (py_op "dm") with "dm". cbn. unfold bindM. rewrite Hd. reflexivity.
    - intros t Ht st. exact (Ht st).
    - intros s st. cbn. now rewrite adv_0.
    - intros a b st. cbn. now rewrite adv_0.
    - intros x st. cbn. rewrite adv_0. destruct (fl_vars fl); reflexivity.
    - intros p ps st. cbn [node_t gen_t calls_t]. rewrite adv_0. apply str_gen.
    - intros es F st. cbn [node_t gen_t calls_t resolve_node]. unfold bindM.
      rewrite (mapS_ok _ _ _ _ (fun x => inr (node_l x)) gen_l calls_l) by exact F. reflexivity.
    - intros e He st. cbn [node_t gen_t calls_t resolve_node]. unfold bindM. now rewrite He.
    - intros cs F st. cbn [node_t gen_t calls_t resolve_node]. unfold bindM.
      rewrite (mapS_ok _ _ _ _ node_c
        (fun c => match c with
                  | CWord w => (snd (word_tok w), [])
                  | CArg e => ("X", [gen_e e]) end) calls_c).
      + unfold call, ret. cbn beta iota. f_equal. f_equal.
        * unfold call_text, mangle, call_shape. rewrite !map_map.
          replace (List.concat (map (fun x => snd match x with
              | CWord w => (snd (word_tok w), []) | CArg e => ("X", [gen_e e]) end) cs))
            with (flat_map gen_c cs).
          2:{ rewrite flat_map_concat_map. f_equal. apply map_ext. now intros []. }
          do 3 f_equal. apply map_ext. now intros [].
        * unfold adv. cbn [r_defined r_called r_outputs map rev app].
          rewrite map_app, rev_app_distr. cbn [map rev app]. f_equal. f_equal.
          unfold mangle, call_shape. rewrite !map_map. do 2 f_equal. apply map_ext. now intros [].
      + apply Forall_forall. intros c I st'. rewrite Forall_forall in F. specialize (F c I).
        destruct c as [w|e]; cbn [node_c calls_c].
        * now rewrite adv_0.
        * unfold bindM. now rewrite F.
    - intros u t Ht st. cbn [node_t gen_t calls_t resolve_node]. unfold bindM, as_str, ret.
      rewrite Ht. destruct u; cbn; unfold un_text; try destruct (fl_oplib fl); reflexivity.
    - intros t Ht st. cbn [node_t gen_t calls_t resolve_node]. unfold bindM.
      rewrite Ht. destruct (fl_oplib fl); reflexivity.
    - intros e He st. exact (He st).
    - intros a b Ha Hb st. cbn [node_l gen_l calls_l resolve_node]. unfold bindM.
      rewrite Ha, Hb, adv_adv. reflexivity.
    - exact (fun _ => Logic.I).
    - intros e He. exact He.
  Qed.
End gen.
