(** The parser of the AnyDice compiler: the syntax tree and grammar actions of
    src/parser/myparser.py (lines 137-615), and the engine of ply/yacc.py
    (lines 273-600) run on the tables of GramModel.v. *)
From Coq Require Import String Bool List Arith.
From Verif Require Import PyBase LexModel GramModel.
Import ListNotations.
Open Scope list_scope.
Open Scope py_scope.

(** ** Syntax trees, lines 140-195 *)

Inductive ntype : Set :=
| MULTILINE_CODE | SINGLE_CODE | OUTPUT | OUTPUT_NAMED | FUNCTION | LOOP | SET | RESULT
| IF_ELIF_ELSE | IF | ELSE | ELSEIF | VAR_ASSIGN
| STRING | STRVAR | FUNCNAME_DEF | PARAM | PARAM_WITH_DTYPE
| EXPR_OP | UNARY | HASH | GROUP | NUMBER | NUMBER_DECIMAL | VAR | SEQ | RANGE | CALL | CALL_EXPR.

(** [Node(type, *children)]; a child is a string ([inl]) or a node ([inr]). *)
Inductive node : Set := Node (ty : ntype) (vals : list (string + node)).

Definition node_type (n : node) : ntype := let 'Node ty _ := n in ty.

(** The value of a grammar symbol: the text of a token, a node, a list of nodes
    (if_expr, else_expr, elseif_expr) or None (empty). *)
Inductive sval : Set :=
| VStr (s : string)
| VNode (n : node)
| VList (l : list node)
| VNone.

(** ** Grammar actions *)

(** [p[i]], counting from 1; IndexError beyond the right-hand side. *)
Definition arg (p : list sval) (i : nat) : res sval :=
  match nth_error p (i - 1) with Some v => Ok v | None => Err IndexErr end.

(** [v.type]. *)
Definition type_of (v : sval) : res ntype :=
  match v with VNode n => Ok (node_type n) | _ => Err AttrErr end.

Definition is_node (v : sval) : bool := match v with VNode _ => true | _ => false end.

(** A value as a child of a node.  (A list or None is never made a child.) *)
Definition child (v : sval) : res (string + node) :=
  match v with
  | VStr s => Ok (inl s)
  | VNode n => Ok (inr n)
  | _ => Err Unmodelled
  end.

Definition mk (ty : ntype) (vs : list sval) : res sval :=
  cs <- mapM child vs ;; Ok (VNode (Node ty cs)).

(** [v.with_child(c)], line 177; the updated node is never shared. *)
Definition with_child (v : sval) (c : string + node) : res sval :=
  match v with
  | VNode (Node ty vs) => Ok (VNode (Node ty (vs ++ [c])))
  | _ => Err AttrErr
  end.

(** [s[1:-1]]. *)
Definition inner (s : string) : string := substring 1 (String.length s - 2) s.

Definition str_is (v : sval) (s : string) : bool :=
  match v with VStr x => String.eqb x s | _ => false end.

Open Scope string_scope.

Definition ntype_is (a b : ntype) : bool :=
  match a, b with
  | MULTILINE_CODE, MULTILINE_CODE | CALL, CALL => true
  | _, _ => false
  end.

(** One case per function of myparser.py lines 208-615; [p] is p[1:]. *)
Definition semact (f : pfun) (p : list sval) : res sval :=
  match f with
  | f_start => arg p 1
  | f_multiline_code =>                                       (* 208-216 *)
      a <- arg p 1 ;; ty <- type_of a ;;
      if ntype_is ty MULTILINE_CODE then (b <- arg p 2 ;; c <- child b ;; with_child a c)
      else mk MULTILINE_CODE [a]
  | f_multiline_code_empty => Ok (VNode (Node MULTILINE_CODE []))
  | f_empty => Ok VNone
  | f_single_code =>                                          (* 229-256 *)
      a <- arg p 1 ;;
      if str_is a "output" then
        if Nat.eqb (length p) 2 then (e <- arg p 2 ;; mk OUTPUT [e])
        else (e <- arg p 2 ;; s <- arg p 4 ;; mk OUTPUT_NAMED [e; s])
      else if str_is a "function" then (h <- arg p 3 ;; b <- arg p 5 ;; mk FUNCTION [h; b])
      else if str_is a "loop" then
        (v <- arg p 2 ;; e <- arg p 4 ;; b <- arg p 6 ;; mk LOOP [v; e; b])
      else if str_is a "set" then (s <- arg p 2 ;; v <- arg p 4 ;; mk SET [s; v])
      else if str_is a "result" then (e <- arg p 3 ;; mk RESULT [e])
      else Err AssertErr
  | f_single_code_if_elseif_else =>                           (* 259-268 *)
      ls <- mapM (fun v => match v with VList l => Ok l | _ => Err TypeErr end) p ;;
      Ok (VNode (Node IF_ELIF_ELSE (map inr (concat ls))))
  | f_if =>                                                   (* 271-275 *)
      e <- arg p 2 ;; b <- arg p 4 ;; ce <- child e ;; cb <- child b ;;
      Ok (VList [Node IF [ce; cb]])
  | f_else =>                                                 (* 278-282 *)
      b <- arg p 3 ;; cb <- child b ;; Ok (VList [Node ELSE [cb]])
  | f_elif =>                                                 (* 285-294 *)
      a <- arg p 1 ;;
      match a with
      | VList l =>
          e <- arg p 4 ;; b <- arg p 6 ;; ce <- child e ;; cb <- child b ;;
          Ok (VList (l ++ [Node ELSEIF [ce; cb]]))
      | _ =>
          e <- arg p 3 ;; b <- arg p 5 ;; ce <- child e ;; cb <- child b ;;
          Ok (VList [Node ELSEIF [ce; cb]])
      end
  | f_var_assign => v <- arg p 1 ;; e <- arg p 3 ;; mk VAR_ASSIGN [v; e]
  | f_var_name => arg p 1
  | f_string_instring =>                                      (* 311-322 *)
      a <- arg p 1 ;;
      if is_node a then (b <- arg p 2 ;; c <- child b ;; with_child a c) else mk STRING [a]
  | f_strvar_instring =>                                      (* 325-336 *)
      a <- arg p 1 ;;
      let var v := match v with
                   | VStr s => Ok (Node STRVAR [inl (inner s)])
                   | _ => Err TypeErr
                   end in
      if is_node a then (b <- arg p 2 ;; v <- var b ;; with_child a (inr v))
      else (v <- var a ;; mk STRING [VNode v])
  | f_funcname_def | f_funcname_def_impossibletocall =>       (* 339-383 *)
      a <- arg p 1 ;;
      if is_node a then (b <- arg p 2 ;; c <- child b ;; with_child a c) else mk FUNCNAME_DEF [a]
  | f_funcname_def_param =>                                   (* 386-405 *)
      a <- arg p 1 ;;
      if is_node a then
        (n <- (if Nat.eqb (length p) 2 then (v <- arg p 2 ;; mk PARAM [v])
               else (v <- arg p 2 ;; d <- arg p 4 ;; mk PARAM_WITH_DTYPE [v; d])) ;;
         c <- child n ;; with_child a c)
      else
        (n <- (if Nat.eqb (length p) 1 then mk PARAM [a]
               else (d <- arg p 3 ;; mk PARAM_WITH_DTYPE [a; d])) ;;
         mk FUNCNAME_DEF [n])
  | f_expression_binop =>                                     (* 428-439 *)
      o <- arg p 2 ;; a <- arg p 1 ;; b <- arg p 3 ;; mk EXPR_OP [o; a; b]
  | f_expression_dop =>                                       (* 442-450 *)
      if Nat.eqb (length p) 3 then (a <- arg p 1 ;; b <- arg p 3 ;; mk EXPR_OP [VStr "ndm"; a; b])
      else (b <- arg p 2 ;; mk EXPR_OP [VStr "dm"; b; VStr "DUMMY VAL"])
  | f_expression_comparison =>                                (* 453-465 *)
      if Nat.eqb (length p) 3 then
        (o <- arg p 2 ;; a <- arg p 1 ;; b <- arg p 3 ;; mk EXPR_OP [o; a; b])
      else
        (o <- arg p 2 ;; o' <- arg p 3 ;; a <- arg p 1 ;; b <- arg p 4 ;;
         match o, o' with
         | VStr x, VStr y => mk EXPR_OP [VStr (x ++ y); a; b]
         | _, _ => Err TypeErr
         end)
  | f_expression_term => arg p 1
  | f_term_unary => o <- arg p 1 ;; e <- arg p 2 ;; mk UNARY [o; e]
  | f_term_hash => e <- arg p 2 ;; mk HASH [e]
  | f_term_grouped => e <- arg p 2 ;; mk GROUP [e]
  | f_term_number => a <- arg p 1 ;; mk NUMBER [a]
  | f_term_number_decimal => a <- arg p 1 ;; b <- arg p 3 ;; mk NUMBER_DECIMAL [a; b]
  | f_term_name => a <- arg p 1 ;; mk VAR [a]
  | f_term_seq =>                                             (* 521-529 *)
      a <- arg p 2 ;; if is_node a then Ok a else Ok (VNode (Node SEQ []))
  | f_elements =>                                             (* 532-540 *)
      if Nat.eqb (length p) 3 then (a <- arg p 1 ;; b <- arg p 3 ;; c <- child b ;; with_child a c)
      else (a <- arg p 1 ;; mk SEQ [a])
  | f_element => arg p 1
  | f_range => a <- arg p 1 ;; b <- arg p 3 ;; mk RANGE [a; b]
  | f_str_element => arg p 1
  | f_term_call => arg p 2
  | f_call_elements =>                                        (* 573-601 *)
      a <- arg p 1 ;;
      if is_node a then (b <- arg p 2 ;; c <- child b ;; with_child a c) else mk CALL [a]
  | f_call_elements_expr =>                                   (* 604-615 *)
      a <- arg p 1 ;; ty <- type_of a ;;
      if ntype_is ty CALL then
        (b <- arg p 2 ;; w <- mk CALL_EXPR [b] ;; c <- child w ;; with_child a c)
      else (w <- mk CALL_EXPR [a] ;; mk CALL [w])
  end.

Close Scope string_scope.

(** ** The engine, yacc.py lines 273-600 *)

Definition act_row (q : nat) : acts := fst (nth q tables ([], [])).
Definition goto_row (q : nat) : list (nt * nat) := snd (nth q tables ([], [])).

Fixpoint assoc_nt (n : nt) (l : list (nt * nat)) : option nat :=
  match l with
  | [] => None
  | (m, j) :: l' => if nt_eqb n m then Some j else assoc_nt n l'
  end.

(** [set_defaulted_states], lines 255-260: a state whose only action is a
    reduction reduces without looking at the next token. *)
Definition default_red (r : acts) : option nat :=
  match r with
  | [(_, Reduce p)] => Some p
  | _ => None
  end.

(** The action in a state; the next token is [tEnd] at the end of the input. *)
Definition action_at (q : nat) (t : tt) : option act :=
  let r := act_row q in
  match default_red r with
  | Some p => Some (Reduce p)
  | None => get_act t r
  end.

Definition la (ts : list tok) : tt := match ts with [] => tEnd | (t, _) :: _ => t end.

(** The stack, top first; the bottom is state 0. *)
Definition stack := list (nat * sval).

Inductive outcome :=
| Go (s : stack) (ts : list tok)
| Done (r : res sval).

Definition top_state (s : stack) : nat := match s with [] => 0 | (q, _) :: _ => q end.

(** A reduction, lines 379-470. *)
Definition do_reduce (p : nat) (s : stack) (ts : list tok) : outcome :=
  let pr := nprod p in
  let n := length (p_rhs pr) in
  match semact (p_fun pr) (rev (map snd (firstn n s))) with
  | Err e => Done (Err e)
  | Ok v =>
      let s' := skipn n s in
      match assoc_nt (p_lhs pr) (goto_row (top_state s')) with
      | Some j => Go ((j, v) :: s') ts
      | None => Done (Err KeyErr)
      end
  end.

(** One turn of the loop.  Simplification: a syntax error ends the parse at
    once.  In yacc.py error recovery goes on reading, but the grammar has no
    error rule and p_error has recorded the token (or the end of the input
    gives None), so that compile_anydice fails in any case.  ReportModel.v has
    the recovery; the texts accepted are the same (C92_accepted). *)
Definition parse_step (s : stack) (ts : list tok) : outcome :=
  match action_at (top_state s) (la ts) with
  | Some (Shift j) =>
      match ts with
      | (_, v) :: ts' => Go ((j, VStr v) :: s) ts'
      | [] => Done (Err Unmodelled)
      end
  | Some (Reduce p) => do_reduce p s ts
  | Some Accept => Done (Ok (match s with (_, v) :: _ => v | [] => VNone end))
  | None => Done (Err AssertErr)
  end.

Fixpoint parse_run (fuel : nat) (s : stack) (ts : list tok) : option (res sval) :=
  match fuel with
  | O => None
  | S f =>
      match parse_step s ts with
      | Done r => Some r
      | Go s' ts' => parse_run f s' ts'
      end
  end.

(** The parser always stops within this many steps (LrFacts.v). *)
Definition parse_fuel (ts : list tok) : nat := 20 * S (length ts).

Definition parse (ts : list tok) : res sval :=
  match parse_run (parse_fuel ts) [] ts with
  | Some r => r
  | None => Err Unmodelled
  end.
