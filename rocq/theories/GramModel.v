(** The grammar of the AnyDice compiler (src/parser/myparser.py lines 197-615)
    and the parse tables that ply/yacc.py builds from it. *)
From Coq Require Import String Bool List Arith NArith PArith FMapPositive.
From Verif Require Import LexModel.
Import ListNotations.
Open Scope list_scope.

(** ** Symbols *)

Inductive nt : Set :=
| nStart | nMulti | nEmpty | nSingle | nIf | nElse | nElif | nVar | nString | nFuncname
| nExpr | nTerm | nElements | nElement | nRange | nCall.

Inductive sym : Set := T (t : tt) | N (n : nt).

Definition all_tt : list tt :=
  [tPLUS; tMINUS; tTIMES; tDIVIDE; tPOWER; tCOLON; tLESS; tGREATER; tEQUALS; tNOTEQUALS; tAT;
   tHASH; tOR; tAND; tEXCLAMATION; tDOT; tDOUBLE_DOT; tCOMMA; tLPAREN; tRPAREN; tLBRACE; tRBRACE;
   tLBRACKET; tRBRACKET; tLOWERNAME; tUPPERNAME; tNUMBER; tD_OP; tINSTRING_ANY; tINSTRING_VAR;
   tINSTRING_NONVAR; tOUTPUT; tFUNCTION; tLOOP; tOVER; tNAMED; tSET; tTO; tIF; tELSE; tRESULT;
   tEnd].

Definition all_nt : list nt :=
  [nStart; nMulti; nEmpty; nSingle; nIf; nElse; nElif; nVar; nString; nFuncname; nExpr; nTerm;
   nElements; nElement; nRange; nCall].

Definition tt_idx (t : tt) : nat :=
  match t with
  | tPLUS => 0 | tMINUS => 1 | tTIMES => 2 | tDIVIDE => 3 | tPOWER => 4 | tCOLON => 5
  | tLESS => 6 | tGREATER => 7 | tEQUALS => 8 | tNOTEQUALS => 9 | tAT => 10 | tHASH => 11
  | tOR => 12 | tAND => 13 | tEXCLAMATION => 14 | tDOT => 15 | tDOUBLE_DOT => 16 | tCOMMA => 17
  | tLPAREN => 18 | tRPAREN => 19 | tLBRACE => 20 | tRBRACE => 21 | tLBRACKET => 22
  | tRBRACKET => 23 | tLOWERNAME => 24 | tUPPERNAME => 25 | tNUMBER => 26 | tD_OP => 27
  | tINSTRING_ANY => 28 | tINSTRING_VAR => 29 | tINSTRING_NONVAR => 30 | tOUTPUT => 31
  | tFUNCTION => 32 | tLOOP => 33 | tOVER => 34 | tNAMED => 35 | tSET => 36 | tTO => 37
  | tIF => 38 | tELSE => 39 | tRESULT => 40 | tEnd => 41
  end.

Definition nt_idx (n : nt) : nat :=
  match n with
  | nStart => 0 | nMulti => 1 | nEmpty => 2 | nSingle => 3 | nIf => 4 | nElse => 5 | nElif => 6
  | nVar => 7 | nString => 8 | nFuncname => 9 | nExpr => 10 | nTerm => 11 | nElements => 12
  | nElement => 13 | nRange => 14 | nCall => 15
  end.

Definition tt_eqb (a b : tt) : bool := Nat.eqb (tt_idx a) (tt_idx b).
Definition nt_eqb (a b : nt) : bool := Nat.eqb (nt_idx a) (nt_idx b).
Definition sym_eqb (a b : sym) : bool :=
  match a, b with
  | T x, T y => tt_eqb x y
  | N x, N y => nt_eqb x y
  | _, _ => false
  end.

(** ** Precedence: myparser.py lines 408-423; ply/yacc.py [validate_precedence]
    numbers the levels from 1. *)

Inductive assoc := Left | Right.

(** A name in the precedence table: a token, or one of the names that only
    occur after %prec. *)
Inductive pname := PTok (t : tt) | HASH_OP | UMINUS | UPLUS.

Definition precedence (p : pname) : option (assoc * nat) :=
  match p with
  | PTok tOR => Some (Left, 1)
  | PTok tAND => Some (Left, 2)
  | PTok tLESS | PTok tGREATER | PTok tEQUALS | PTok tNOTEQUALS => Some (Left, 3)
  | PTok tPLUS | PTok tMINUS => Some (Left, 4)
  | PTok tTIMES | PTok tDIVIDE => Some (Left, 5)
  | PTok tPOWER => Some (Left, 6)
  | PTok tAT => Some (Left, 7)
  | PTok tD_OP => Some (Left, 8)
  | HASH_OP => Some (Right, 9)
  | PTok tEXCLAMATION => Some (Right, 10)
  | UMINUS | UPLUS => Some (Right, 11)
  | PTok tDOT => Some (Left, 12)
  | PTok _ => None
  end.

(** ** Productions *)

(** The function whose docstring holds the rule. *)
Inductive pfun : Set :=
| f_start | f_multiline_code | f_multiline_code_empty | f_empty | f_single_code
| f_single_code_if_elseif_else | f_if | f_else | f_elif | f_var_assign | f_var_name
| f_string_instring | f_strvar_instring | f_funcname_def | f_funcname_def_impossibletocall
| f_funcname_def_param | f_expression_binop | f_expression_dop | f_expression_comparison
| f_expression_term | f_term_unary | f_term_hash | f_term_grouped | f_term_number
| f_term_number_decimal | f_term_name | f_term_seq | f_elements | f_element | f_range
| f_str_element | f_term_call | f_call_elements | f_call_elements_expr.

Record prod := mkProd {
  p_lhs : nt;
  p_rhs : list sym;
  p_name : option pname;     (* the name after %prec *)
  p_fun : pfun;
  p_line : nat               (* as computed by yacc.py parse_grammar *)
}.

(** The rules in the order of yacc.py [get_pfunctions] (by line number), after
    rule 0, S' -> start ([set_start]). *)
Definition prods : list prod :=
  [
    mkProd nStart [N nMulti] None f_start 0;
    mkProd nMulti [N nSingle] None f_multiline_code 210;
    mkProd nMulti [N nMulti; N nSingle] None f_multiline_code 211;
    mkProd nMulti [N nEmpty] None f_multiline_code_empty 220;
    mkProd nEmpty [] None f_empty 225;
    mkProd nSingle [T tOUTPUT; N nExpr] None f_single_code 231;
    mkProd nSingle [T tOUTPUT; N nExpr; T tNAMED; N nString] None f_single_code 232;
    mkProd nSingle [T tFUNCTION; T tCOLON; N nFuncname; T tLBRACE; N nMulti; T tRBRACE] None f_single_code 234;
    mkProd nSingle [T tLOOP; N nVar; T tOVER; N nExpr; T tLBRACE; N nMulti; T tRBRACE] None f_single_code 236;
    mkProd nSingle [T tRESULT; T tCOLON; N nExpr] None f_single_code 238;
    mkProd nSingle [T tSET; N nString; T tTO; N nString] None f_single_code 239;
    mkProd nSingle [T tSET; N nString; T tTO; N nExpr] None f_single_code 240;
    mkProd nSingle [N nIf] None f_single_code_if_elseif_else 261;
    mkProd nSingle [N nIf; N nElse] None f_single_code_if_elseif_else 262;
    mkProd nSingle [N nIf; N nElif] None f_single_code_if_elseif_else 263;
    mkProd nSingle [N nIf; N nElif; N nElse] None f_single_code_if_elseif_else 264;
    mkProd nIf [T tIF; N nExpr; T tLBRACE; N nMulti; T tRBRACE] None f_if 273;
    mkProd nElse [T tELSE; T tLBRACE; N nMulti; T tRBRACE] None f_else 280;
    mkProd nElif [T tELSE; T tIF; N nExpr; T tLBRACE; N nMulti; T tRBRACE] None f_elif 287;
    mkProd nElif [N nElif; T tELSE; T tIF; N nExpr; T tLBRACE; N nMulti; T tRBRACE] None f_elif 288;
    mkProd nSingle [N nVar; T tCOLON; N nExpr] None f_var_assign 299;
    mkProd nVar [T tUPPERNAME] None f_var_name 306;
    mkProd nString [T tINSTRING_ANY] None f_string_instring 313;
    mkProd nString [T tINSTRING_NONVAR] None f_string_instring 314;
    mkProd nString [N nString; T tINSTRING_ANY] None f_string_instring 315;
    mkProd nString [N nString; T tINSTRING_NONVAR] None f_string_instring 316;
    mkProd nString [T tINSTRING_VAR] None f_strvar_instring 327;
    mkProd nString [N nString; T tINSTRING_VAR] None f_strvar_instring 328;
    mkProd nFuncname [T tLOWERNAME] None f_funcname_def 341;
    mkProd nFuncname [T tOUTPUT] None f_funcname_def 342;
    mkProd nFuncname [T tFUNCTION] None f_funcname_def 343;
    mkProd nFuncname [T tLOOP] None f_funcname_def 344;
    mkProd nFuncname [T tOVER] None f_funcname_def 345;
    mkProd nFuncname [T tNAMED] None f_funcname_def 346;
    mkProd nFuncname [T tSET] None f_funcname_def 347;
    mkProd nFuncname [T tTO] None f_funcname_def 348;
    mkProd nFuncname [T tIF] None f_funcname_def 349;
    mkProd nFuncname [T tELSE] None f_funcname_def 350;
    mkProd nFuncname [T tRESULT] None f_funcname_def 351;
    mkProd nFuncname [N nFuncname; T tLOWERNAME] None f_funcname_def 352;
    mkProd nFuncname [N nFuncname; T tOUTPUT] None f_funcname_def 353;
    mkProd nFuncname [N nFuncname; T tFUNCTION] None f_funcname_def 354;
    mkProd nFuncname [N nFuncname; T tLOOP] None f_funcname_def 355;
    mkProd nFuncname [N nFuncname; T tOVER] None f_funcname_def 356;
    mkProd nFuncname [N nFuncname; T tNAMED] None f_funcname_def 357;
    mkProd nFuncname [N nFuncname; T tSET] None f_funcname_def 358;
    mkProd nFuncname [N nFuncname; T tTO] None f_funcname_def 359;
    mkProd nFuncname [N nFuncname; T tIF] None f_funcname_def 360;
    mkProd nFuncname [N nFuncname; T tELSE] None f_funcname_def 361;
    mkProd nFuncname [N nFuncname; T tRESULT] None f_funcname_def 362;
    mkProd nFuncname [] None f_funcname_def_impossibletocall 372;
    mkProd nFuncname [T tD_OP] None f_funcname_def_impossibletocall 373;
    mkProd nFuncname [N nFuncname; T tD_OP] None f_funcname_def_impossibletocall 374;
    mkProd nFuncname [N nVar] None f_funcname_def_param 388;
    mkProd nFuncname [N nVar; T tCOLON; T tD_OP] None f_funcname_def_param 389;
    mkProd nFuncname [N nVar; T tCOLON; T tLOWERNAME] None f_funcname_def_param 390;
    mkProd nFuncname [N nFuncname; N nVar] None f_funcname_def_param 391;
    mkProd nFuncname [N nFuncname; N nVar; T tCOLON; T tD_OP] None f_funcname_def_param 392;
    mkProd nFuncname [N nFuncname; N nVar; T tCOLON; T tLOWERNAME] None f_funcname_def_param 393;
    mkProd nExpr [N nExpr; T tPLUS; N nExpr] None f_expression_binop 430;
    mkProd nExpr [N nExpr; T tMINUS; N nExpr] None f_expression_binop 431;
    mkProd nExpr [N nExpr; T tTIMES; N nExpr] None f_expression_binop 432;
    mkProd nExpr [N nExpr; T tDIVIDE; N nExpr] None f_expression_binop 433;
    mkProd nExpr [N nExpr; T tPOWER; N nExpr] None f_expression_binop 434;
    mkProd nExpr [N nExpr; T tAT; N nExpr] None f_expression_binop 435;
    mkProd nExpr [N nExpr; T tAND; N nExpr] None f_expression_binop 436;
    mkProd nExpr [N nExpr; T tOR; N nExpr] None f_expression_binop 437;
    mkProd nExpr [N nTerm; T tD_OP; N nTerm] (Some (PTok tD_OP)) f_expression_dop 444;
    mkProd nExpr [T tD_OP; N nTerm] (Some (PTok tD_OP)) f_expression_dop 445;
    mkProd nExpr [N nExpr; T tLESS; N nExpr] None f_expression_comparison 455;
    mkProd nExpr [N nExpr; T tGREATER; N nExpr] None f_expression_comparison 456;
    mkProd nExpr [N nExpr; T tEQUALS; N nExpr] None f_expression_comparison 457;
    mkProd nExpr [N nExpr; T tNOTEQUALS; N nExpr] None f_expression_comparison 458;
    mkProd nExpr [N nExpr; T tLESS; T tEQUALS; N nExpr] None f_expression_comparison 459;
    mkProd nExpr [N nExpr; T tGREATER; T tEQUALS; N nExpr] None f_expression_comparison 460;
    mkProd nExpr [N nTerm] None f_expression_term 470;
    mkProd nTerm [T tPLUS; N nTerm] (Some UPLUS) f_term_unary 477;
    mkProd nTerm [T tMINUS; N nTerm] (Some UMINUS) f_term_unary 478;
    mkProd nTerm [T tEXCLAMATION; N nTerm] (Some (PTok tEXCLAMATION)) f_term_unary 479;
    mkProd nTerm [T tHASH; N nTerm] (Some HASH_OP) f_term_hash 486;
    mkProd nTerm [T tLPAREN; N nExpr; T tRPAREN] None f_term_grouped 493;
    mkProd nTerm [T tNUMBER] None f_term_number 500;
    mkProd nTerm [T tNUMBER; T tDOT; T tNUMBER] None f_term_number_decimal 507;
    mkProd nTerm [N nVar] None f_term_name 514;
    mkProd nTerm [T tLBRACE; T tRBRACE] None f_term_seq 523;
    mkProd nTerm [T tLBRACE; N nElements; T tRBRACE] None f_term_seq 524;
    mkProd nElements [N nElements; T tCOMMA; N nElement] None f_elements 534;
    mkProd nElements [N nElement] None f_elements 535;
    mkProd nElement [N nExpr] None f_element 545;
    mkProd nElement [N nRange] None f_element 546;
    mkProd nRange [N nExpr; T tDOUBLE_DOT; N nExpr] None f_range 553;
    mkProd nTerm [N nString] None f_str_element 560;
    mkProd nTerm [T tLBRACKET; N nCall; T tRBRACKET] None f_term_call 568;
    mkProd nCall [T tLOWERNAME] None f_call_elements 575;
    mkProd nCall [T tOUTPUT] None f_call_elements 576;
    mkProd nCall [T tFUNCTION] None f_call_elements 577;
    mkProd nCall [T tLOOP] None f_call_elements 578;
    mkProd nCall [T tOVER] None f_call_elements 579;
    mkProd nCall [T tNAMED] None f_call_elements 580;
    mkProd nCall [T tSET] None f_call_elements 581;
    mkProd nCall [T tTO] None f_call_elements 582;
    mkProd nCall [T tIF] None f_call_elements 583;
    mkProd nCall [T tELSE] None f_call_elements 584;
    mkProd nCall [T tRESULT] None f_call_elements 585;
    mkProd nCall [N nCall; T tLOWERNAME] None f_call_elements 586;
    mkProd nCall [N nCall; T tOUTPUT] None f_call_elements 587;
    mkProd nCall [N nCall; T tFUNCTION] None f_call_elements 588;
    mkProd nCall [N nCall; T tLOOP] None f_call_elements 589;
    mkProd nCall [N nCall; T tOVER] None f_call_elements 590;
    mkProd nCall [N nCall; T tNAMED] None f_call_elements 591;
    mkProd nCall [N nCall; T tSET] None f_call_elements 592;
    mkProd nCall [N nCall; T tTO] None f_call_elements 593;
    mkProd nCall [N nCall; T tIF] None f_call_elements 594;
    mkProd nCall [N nCall; T tELSE] None f_call_elements 595;
    mkProd nCall [N nCall; T tRESULT] None f_call_elements 596;
    mkProd nCall [N nExpr] None f_call_elements_expr 606;
    mkProd nCall [N nCall; N nExpr] None f_call_elements_expr 607
  ].

Definition nprod (i : nat) : prod := nth i prods (mkProd nStart [] None f_start 0).

(** yacc.py [add_production], lines 852-869: %prec, or the rightmost terminal. *)
Definition rightmost_terminal (l : list sym) : option tt :=
  fold_left (fun acc s => match s with T t => Some t | N _ => acc end) l None.

Definition prod_prec (p : prod) : assoc * nat :=
  let look n := match precedence n with Some x => x | None => (Right, 0) end in
  match p_name p with
  | Some n => look n
  | None => match rightmost_terminal (p_rhs p) with
            | Some t => look (PTok t)
            | None => (Right, 0)
            end
  end.

Definition tok_prec (t : tt) : assoc * nat :=
  match precedence (PTok t) with Some x => x | None => (Right, 0) end.

(** ** LR(0) item sets *)

(** An item: production number, position of the dot, symbols after the dot. *)
Definition item := (nat * nat * list sym)%type.

Definition item_eqb (a b : item) : bool :=
  let '(p, d, _) := a in let '(q, e, _) := b in Nat.eqb p q && Nat.eqb d e.

Definition numbered : list (nat * prod) := combine (seq 0 (length prods)) prods.

Definition prods_of (n : nt) : list nat :=
  map fst (filter (fun ip => nt_eqb (p_lhs (snd ip)) n) numbered).

Definition start_item (i : nat) : item := (i, 0, p_rhs (nprod i)).

Definition mem (i : nat) (l : list nat) : bool := existsb (Nat.eqb i) l.

(** yacc.py [lr0_closure], lines 1350-1367. *)
Fixpoint closure (fuel : nat) (todo done : list item) (added : list nat) : list item :=
  match fuel, todo with
  | S f, it :: q =>
      let new := match it with
                 | (_, _, N a :: _) => filter (fun i => negb (mem i added)) (prods_of a)
                 | _ => []
                 end in
      closure f (q ++ map start_item new) (it :: done) (new ++ added)
  | _, _ => rev done
  end.

(** The items of the goto sets, grouped by symbol, in the order of the items
    (yacc.py [lr0_goto], lines 1376-1408; a set is identified by the sequence of
    its kernel items). *)
Fixpoint add_group (s : sym) (it : item) (g : list (sym * list item)) :=
  match g with
  | [] => [(s, [it])]
  | (s', l) :: g' => if sym_eqb s s' then (s', l ++ [it]) :: g' else (s', l) :: add_group s it g'
  end.

Definition groups (items : list item) : list (sym * list item) :=
  fold_left (fun g (it : item) =>
    match it with
    | (p, d, s :: r) => add_group s (p, S d, r) g
    | _ => g
    end) items [].

Fixpoint kernel_eqb (a b : list item) : bool :=
  match a, b with
  | [], [] => true
  | x :: a', y :: b' => item_eqb x y && kernel_eqb a' b'
  | _, _ => false
  end.

Fixpoint index_of (k : list item) (ks : list (list item)) (i : nat) : option nat :=
  match ks with
  | [] => None
  | k' :: ks' => if kernel_eqb k k' then Some i else index_of k ks' (S i)
  end.

Record state := mkState { st_items : list item; st_trans : list (sym * nat) }.

Fixpoint number_groups (g : list (sym * list item)) (ks : list (list item))
  : list (sym * nat) * list (list item) :=
  match g with
  | [] => ([], ks)
  | (s, k) :: g' =>
      let '(i, ks1) := match index_of k ks 0 with
                       | Some i => (i, ks)
                       | None => (length ks, ks ++ [k])
                       end in
      let '(tr, ks2) := number_groups g' ks1 in
      ((s, i) :: tr, ks2)
  end.

(** yacc.py [lr0_items], lines 1411-1439. *)
Fixpoint explore (fuel i : nat) (ks : list (list item)) (acc : list state) : list state :=
  match fuel with
  | O => rev acc
  | S f =>
      match nth_error ks i with
      | None => rev acc
      | Some k =>
          let items := closure 400 k [] [] in
          let '(tr, ks') := number_groups (groups items) ks in
          explore f (S i) ks' (mkState items tr :: acc)
      end
  end.

Definition build_states : list state := explore 400 0 [[start_item 0]] [].

(** ** LALR(1) lookaheads (DeRemer and Pennello), yacc.py lines 1467-1738 *)

Fixpoint assoc_sym {A : Type} (s : sym) (l : list (sym * A)) : option A :=
  match l with
  | [] => None
  | (s', a) :: l' => if sym_eqb s s' then Some a else assoc_sym s l'
  end.

Definition empty_state : state := mkState [] [].

Definition goto_of (sts : list state) (i : nat) (s : sym) : option nat :=
  assoc_sym s (st_trans (nth i sts empty_state)).

(** [compute_nullable_nonterminals]. *)
Definition sym_in (l : list nt) (s : sym) : bool :=
  match s with N n => existsb (nt_eqb n) l | T _ => false end.

Fixpoint nullables (fuel : nat) (l : list nt) : list nt :=
  match fuel with
  | O => l
  | S f =>
      nullables f (fold_left (fun acc p =>
        if forallb (sym_in acc) (p_rhs p) && negb (existsb (nt_eqb (p_lhs p)) acc)
        then p_lhs p :: acc else acc) (tl prods) l)
  end.

Definition nullable : list nt := nullables 16 [].

(** Keys of non-terminal transitions, and sets of tokens as bit masks. *)
Definition key (i : nat) (n : nt) : positive := Pos.of_succ_nat (i * 16 + nt_idx n).
Definition bit (t : tt) : BinNums.N := BinNat.N.shiftl 1 (BinNat.N.of_nat (tt_idx t)).
Definition has (m : BinNums.N) (t : tt) : bool := BinNat.N.testbit m (BinNat.N.of_nat (tt_idx t)).

Definition masks := PositiveMap.t BinNums.N.
Definition get_mask (m : masks) (k : positive) : BinNums.N :=
  match PositiveMap.find k m with Some x => x | None => 0%N end.
Definition or_mask (m : masks) (k : positive) (x : BinNums.N) : masks :=
  PositiveMap.add k (BinNat.N.lor (get_mask m k) x) m.

Section lookaheads.
  Variable sts : list state.

  (** [find_nonterminal_transitions]. *)
  Definition nt_trans : list (nat * nt) :=
    flat_map (fun '(i, st) =>
      flat_map (fun '(s, _) => match s with N n => [(i, n)] | T _ => [] end) (st_trans st))
      (combine (seq 0 (length sts)) sts).

  (** [dr_relation]. *)
  Definition dr (i : nat) (n : nt) : BinNums.N :=
    let ts := match goto_of sts i (N n) with
              | Some j => fold_left (fun m '(s, _) => match s with
                                                      | T t => BinNat.N.lor m (bit t)
                                                      | N _ => m
                                                      end)
                            (st_trans (nth j sts empty_state)) 0%N
              | None => 0%N
              end in
    if Nat.eqb i 0 && nt_eqb n nMulti then BinNat.N.lor ts (bit tEnd) else ts.

  (** [reads_relation]. *)
  Definition reads (i : nat) (n : nt) : list positive :=
    match goto_of sts i (N n) with
    | Some j => flat_map (fun '(s, _) => match s with
                                         | N c => if sym_in nullable s then [key j c] else []
                                         | T _ => []
                                         end)
                  (st_trans (nth j sts empty_state))
    | None => []
    end.

  (** [compute_lookback_includes]: run every item of a non-terminal from its dot
      to the end of the rule.  Returns the end state and the transitions whose
      rest of the rule is nullable.  As in yacc.py, items whose dot is not at
      the start also take part in the includes relation. *)
  Fixpoint run_rule (i : nat) (l : list sym) : nat * list positive :=
    match l with
    | [] => (i, [])
    | s :: l' =>
        match goto_of sts i s with
        | None => (i, [])
        | Some j =>
            let '(e, inc) := run_rule j l' in
            (e, match s with
                | N c => if forallb (sym_in nullable) l' then key i c :: inc else inc
                | T _ => inc
                end)
        end
    end.

  Definition items_of (i : nat) (n : nt) : list item :=
    filter (fun it : item => let '(p, _, _) := it in nt_eqb (p_lhs (nprod p)) n)
      (st_items (nth i sts empty_state)).

  (** Edges [(a, b)]: the set of [a] includes the set of [b]. *)
  Definition includes : list (positive * positive) :=
    flat_map (fun '(i, n) =>
      flat_map (fun it : item => let '(_, _, r) := it in
                 map (fun a => (a, key i n)) (snd (run_rule i r))) (items_of i n)) nt_trans.

  Definition lookbacks : list (nat * nat * positive) :=
    flat_map (fun '(i, n) =>
      flat_map (fun it : item => let '(p, d, r) := it in
                 if Nat.eqb d 0 then [(fst (run_rule i r), p, key i n)] else [])
        (items_of i n)) nt_trans.

  (** The least solution (yacc.py [digraph]) by iteration until nothing
      changes. *)
  Definition pass (edges : list (positive * positive)) (m : masks) : masks * bool :=
    fold_left (fun '(m, ch) '(a, b) =>
      let x := get_mask m a in
      let y := BinNat.N.lor x (get_mask m b) in
      if BinNat.N.eqb x y then (m, ch) else (PositiveMap.add a y m, true)) edges (m, false).

  Fixpoint solve (fuel : nat) (edges : list (positive * positive)) (m : masks) : masks :=
    match fuel with
    | O => m
    | S f => let '(m', ch) := pass edges m in if ch then solve f edges m' else m'
    end.

  Definition read_sets : masks :=
    solve 100
      (flat_map (fun '(i, n) => map (fun b => (key i n, b)) (reads i n)) nt_trans)
      (fold_left (fun m '(i, n) => or_mask m (key i n) (dr i n)) nt_trans (PositiveMap.empty _)).

  Definition follow_sets : masks := solve 100 includes read_sets.

  (** [add_lookaheads]: the lookaheads of a completed rule in a state. *)
  Definition la_key (st p : nat) : positive := Pos.of_succ_nat (st * 128 + p).

  Definition lookaheads : masks :=
    let f := follow_sets in
    fold_left (fun m '(e, p, k) => or_mask m (la_key e p) (get_mask f k)) lookbacks
      (PositiveMap.empty _).
End lookaheads.

(** ** The tables, yacc.py [lr_parse_table] lines 1745-1930 *)

Inductive act : Set := Shift (n : nat) | Reduce (p : nat) | Accept.

Definition acts := list (tt * act).

Fixpoint get_act (t : tt) (l : acts) : option act :=
  match l with
  | [] => None
  | (t', a) :: l' => if tt_eqb t t' then Some a else get_act t l'
  end.

Fixpoint set_act (t : tt) (a : act) (l : acts) : acts :=
  match l with
  | [] => [(t, a)]
  | (t', b) :: l' => if tt_eqb t t' then (t, a) :: l' else (t', b) :: set_act t a l'
  end.

(** A completed rule on lookahead [t] (lines 1780-1830). *)
Definition add_reduce (p : nat) (l : acts) (t : tt) : acts :=
  match get_act t l with
  | None => set_act t (Reduce p) l
  | Some (Shift _) =>
      let '(_, slevel) := tok_prec t in
      let '(rprec, rlevel) := prod_prec (nprod p) in
      if Nat.ltb slevel rlevel || (Nat.eqb slevel rlevel && match rprec with Left => true | Right => false end)
      then set_act t (Reduce p) l else l
  | Some (Reduce q) =>
      if Nat.ltb (p_line (nprod p)) (p_line (nprod q)) then set_act t (Reduce p) l else l
  | Some Accept => l
  end.

(** A dot before token [t] (lines 1832-1880). *)
Definition add_shift (j : nat) (l : acts) (t : tt) : acts :=
  match get_act t l with
  | None => set_act t (Shift j) l
  | Some (Shift _) => l
  | Some (Reduce q) =>
      let '(_, slevel) := tok_prec t in
      let '(rprec, rlevel) := prod_prec (nprod q) in
      if Nat.ltb rlevel slevel || (Nat.eqb slevel rlevel && match rprec with Right => true | Left => false end)
      then set_act t (Shift j) l else l
  | Some Accept => l
  end.

Definition state_acts (la : masks) (i : nat) (st : state) : acts :=
  fold_left (fun l (it : item) =>
    match it with
    | (p, _, []) =>
        if Nat.eqb p 0 then set_act tEnd Accept l
        else fold_left (add_reduce p)
               (filter (has (get_mask la (la_key i p))) all_tt) l
    | (_, _, T t :: _) =>
        match assoc_sym (T t) (st_trans st) with
        | Some j => add_shift j l t
        | None => l
        end
    | (_, _, N _ :: _) => l
    end) (st_items st) [].

Definition gotos (st : state) : list (nt * nat) :=
  flat_map (fun '(s, j) => match s with N n => [(n, j)] | T _ => [] end) (st_trans st).

Definition build_tables : list (acts * list (nt * nat)) :=
  let sts := build_states in
  let la := lookaheads sts in
  map (fun '(i, st) => (state_acts la i st, gotos st)) (combine (seq 0 (length sts)) sts).

(** The tables, computed once and for all. *)
Definition tables : list (acts * list (nt * nat)) := Eval vm_compute in build_tables.
