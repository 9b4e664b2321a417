(** The language as abstract syntax: what programs are, how they are written as
    tokens, which trees a text denotes, and the tree the parser should return.
    Written from the description of the language, not from the grammar rules. *)
From Coq Require Import String Bool List Arith.
From Verif Require Import LexModel ParseModel.
Import ListNotations.
Open Scope list_scope.

(** ** Words *)

Inductive kw : Set := kOutput | kFunction | kLoop | kOver | kNamed | kSet | kTo | kIf | kElse | kResult.

Definition kw_tok (k : kw) : tok :=
  match k with
  | kOutput => (tOUTPUT, "output") | kFunction => (tFUNCTION, "function")
  | kLoop => (tLOOP, "loop") | kOver => (tOVER, "over") | kNamed => (tNAMED, "named")
  | kSet => (tSET, "set") | kTo => (tTO, "to") | kIf => (tIF, "if") | kElse => (tELSE, "else")
  | kResult => (tRESULT, "result")
  end%string.

(** A word of a function name: reserved words are allowed there. *)
Inductive word : Set := WName (s : string) | WKey (k : kw).

Definition word_tok (w : word) : tok :=
  match w with WName s => (tLOWERNAME, s) | WKey k => kw_tok k end.

(** ** Strings: runs of text, and variables in brackets *)

Inductive part : Set := PAny (s : string) | PNonvar (s : string) | PVar (v : string).

Definition part_tok (p : part) : tok :=
  match p with
  | PAny s => (tINSTRING_ANY, s)
  | PNonvar s => (tINSTRING_NONVAR, s)
  | PVar v => (tINSTRING_VAR, "[" ++ v ++ "]")
  end%string.

Definition part_node (p : part) : string + node :=
  match p with
  | PAny s | PNonvar s => inl s
  | PVar v => inr (Node STRVAR [inl v])
  end.

Definition string_node (ps : list part) : node := Node STRING (map part_node ps).

(** ** Operators *)

Inductive binop : Set :=
| OAdd | OSub | OMul | ODiv | OPow | OAt | OAnd | OOr | OLt | OGt | OEq | ONe | OLe | OGe.

Definition op_toks (o : binop) : list tok :=
  match o with
  | OAdd => [(tPLUS, "+")] | OSub => [(tMINUS, "-")] | OMul => [(tTIMES, "*")]
  | ODiv => [(tDIVIDE, "/")] | OPow => [(tPOWER, "^")] | OAt => [(tAT, "@")]
  | OAnd => [(tAND, "&")] | OOr => [(tOR, "|")] | OLt => [(tLESS, "<")]
  | OGt => [(tGREATER, ">")] | OEq => [(tEQUALS, "=")] | ONe => [(tNOTEQUALS, "!=")]
  | OLe => [(tLESS, "<"); (tEQUALS, "=")] | OGe => [(tGREATER, ">"); (tEQUALS, "=")]
  end%string.

Definition op_text (o : binop) : string := String.concat "" (map snd (op_toks o)).

(** The documented precedence, from | (loosest) to @ (tightest). *)
Definition op_level (o : binop) : nat :=
  match o with
  | OOr => 1
  | OAnd => 2
  | OLt | OGt | OEq | ONe | OLe | OGe => 3
  | OAdd | OSub => 4
  | OMul | ODiv => 5
  | OPow => 6
  | OAt => 7
  end.

Inductive unop : Set := UPos | UNeg | UNot.

Definition un_tok (u : unop) : tok :=
  match u with UPos => (tPLUS, "+") | UNeg => (tMINUS, "-") | UNot => (tEXCLAMATION, "!") end%string.

(** ** Expressions *)

Inductive expr : Set :=
| EBin (o : binop) (l r : expr)
| EDice (n d : term)
| EDie (d : term)
| ETerm (t : term)
with term : Set :=
| TNum (s : string)
| TDec (a b : string)
| TVar (x : string)
| TStr (p : part) (ps : list part)
| TSeq (es : list element)
| TGroup (e : expr)
| TCall (cs : list citem)
| TUn (u : unop) (t : term)
| THash (t : term)
with element : Set :=
| LOne (e : expr)
| LRange (a b : expr)
with citem : Set :=
| CWord (w : word)
| CArg (e : expr).

Fixpoint sepby (s : tok) (l : list (list tok)) : list tok :=
  match l with
  | [] => []
  | [x] => x
  | x :: l' => x ++ s :: sepby s l'
  end.

Open Scope string_scope.

Fixpoint toks_e (e : expr) : list tok :=
  match e with
  | EBin o l r => toks_e l ++ op_toks o ++ toks_e r
  | EDice n d => toks_t n ++ (tD_OP, "d") :: toks_t d
  | EDie d => (tD_OP, "d") :: toks_t d
  | ETerm t => toks_t t
  end%list
with toks_t (t : term) : list tok :=
  match t with
  | TNum s => [(tNUMBER, s)]
  | TDec a b => [(tNUMBER, a); (tDOT, "."); (tNUMBER, b)]
  | TVar x => [(tUPPERNAME, x)]
  | TStr p ps => map part_tok (p :: ps)
  | TSeq es => (tLBRACE, "{") :: sepby (tCOMMA, ",") (map toks_l es) ++ [(tRBRACE, "}")]
  | TGroup e => (tLPAREN, "(") :: toks_e e ++ [(tRPAREN, ")")]
  | TCall cs => (tLBRACKET, "[") :: flat_map toks_c cs ++ [(tRBRACKET, "]")]
  | TUn u t => un_tok u :: toks_t t
  | THash t => (tHASH, "#") :: toks_t t
  end%list
with toks_l (x : element) : list tok :=
  match x with
  | LOne e => toks_e e
  | LRange a b => toks_e a ++ (tDOUBLE_DOT, "..") :: toks_e b
  end%list
with toks_c (c : citem) : list tok :=
  match c with
  | CWord w => [word_tok w]
  | CArg e => toks_e e
  end%list.

Fixpoint node_e (e : expr) : node :=
  match e with
  | EBin o l r => Node EXPR_OP [inl (op_text o); inr (node_e l); inr (node_e r)]
  | EDice n d => Node EXPR_OP [inl "ndm"; inr (node_t n); inr (node_t d)]
  | EDie d => Node EXPR_OP [inl "dm"; inr (node_t d); inl "DUMMY VAL"]
  | ETerm t => node_t t
  end
with node_t (t : term) : node :=
  match t with
  | TNum s => Node NUMBER [inl s]
  | TDec a b => Node NUMBER_DECIMAL [inl a; inl b]
  | TVar x => Node VAR [inl x]
  | TStr p ps => string_node (p :: ps)
  | TSeq es => Node SEQ (map (fun x => inr (node_l x)) es)
  | TGroup e => Node GROUP [inr (node_e e)]
  | TCall cs => Node CALL (map node_c cs)
  | TUn u t => Node UNARY [inl (snd (un_tok u)); inr (node_t t)]
  | THash t => Node HASH [inr (node_t t)]
  end
with node_l (x : element) : node :=
  match x with
  | LOne e => node_e e
  | LRange a b => Node RANGE [inr (node_e a); inr (node_e b)]
  end
with node_c (c : citem) : string + node :=
  match c with
  | CWord w => inl (snd (word_tok w))
  | CArg e => inr (Node CALL_EXPR [inr (node_e e)])
  end.

(** ** Which trees a text stands for *)

(** How tightly the outermost operator binds; 8 if there is none. *)
Definition level (e : expr) : nat :=
  match e with EBin o _ _ => op_level o | _ => 8 end.

(** The rightmost operand is not a dice expression. *)
Fixpoint ends_plain (e : expr) : bool :=
  match e with
  | EBin _ _ r => ends_plain r
  | EDice _ _ | EDie _ => false
  | ETerm _ => true
  end.

Definition in_string (t : tt) : bool :=
  match t with tINSTRING_ANY | tINSTRING_NONVAR | tINSTRING_VAR => true | _ => false end.

Definition first (l : list tok) : tt := match l with [] => tEnd | (t, _) :: _ => t end.
Definition final (l : list tok) : tt := first (rev l).

(** Two neighbouring arguments of a call stay apart: the second does not go on
    where the first ends. *)
Definition apart (a b : expr) : bool :=
  match first (toks_e b) with
  | tPLUS | tMINUS => false
  | tD_OP => negb (ends_plain a)
  | t => negb (in_string t && in_string (final (toks_e a)))
  end.

Fixpoint all_apart (cs : list citem) : bool :=
  match cs with
  | CArg a :: (CArg b :: _) as cs' => apart a b && all_apart cs'
  | _ :: cs' => all_apart cs'
  | [] => true
  end.

(** A call has at least one word or argument, and does not begin with an
    argument that is itself just a call (C77). *)
Definition call_start (cs : list citem) : bool :=
  match cs with
  | [] | CArg (ETerm (TCall _)) :: _ => false
  | _ => true
  end.

(** Operators of one level group to the left, tighter ones first. *)
Fixpoint wf_e (e : expr) : bool :=
  match e with
  | EBin o l r =>
      Nat.leb (op_level o) (level l) && Nat.ltb (op_level o) (level r) && wf_e l && wf_e r
  | EDice n d => wf_t n && wf_t d
  | EDie d => wf_t d
  | ETerm t => wf_t t
  end
with wf_t (t : term) : bool :=
  match t with
  | TNum _ | TDec _ _ | TVar _ | TStr _ _ => true
  | TSeq es => forallb wf_l es
  | TGroup e => wf_e e
  | TCall cs => call_start cs && all_apart cs && forallb wf_c cs
  | TUn _ t | THash t => wf_t t
  end
with wf_l (x : element) : bool :=
  match x with LOne e => wf_e e | LRange a b => wf_e a && wf_e b end
with wf_c (c : citem) : bool :=
  match c with CWord _ => true | CArg e => wf_e e end.

(** ** Function headers *)

Inductive ptype : Set := PD | PName (s : string).
Inductive hitem : Set :=
| HWord (w : word)
| HD
| HParam (x : string)
| HTyped (x : string) (ty : ptype).

Definition ptype_tok (ty : ptype) : tok :=
  match ty with PD => (tD_OP, "d") | PName s => (tLOWERNAME, s) end.

Definition toks_h (h : hitem) : list tok :=
  match h with
  | HWord w => [word_tok w]
  | HD => [(tD_OP, "d")]
  | HParam x => [(tUPPERNAME, x)]
  | HTyped x ty => [(tUPPERNAME, x); (tCOLON, ":"); ptype_tok ty]
  end%list.

Definition node_h (h : hitem) : string + node :=
  match h with
  | HWord w => inl (snd (word_tok w))
  | HD => inl "d"
  | HParam x => inr (Node PARAM [inl x])
  | HTyped x ty => inr (Node PARAM_WITH_DTYPE [inl x; inl (snd (ptype_tok ty))])
  end.

(** ** Statements *)

Inductive stmt : Set :=
| SOutput (e : expr)
| SNamed (e : expr) (p : part) (ps : list part)
| SFunction (h : hitem) (hs : list hitem) (body : list stmt)
| SLoop (x : string) (over : expr) (body : list stmt)
| SResult (e : expr)
| SSet (p : part) (ps : list part) (v : expr)
| SAssign (x : string) (e : expr)
| SIf (b : branch) (elifs : list branch) (els : option (list stmt))
with branch : Set :=
| Branch (c : expr) (body : list stmt).

Definition kwt (k : kw) : tok := kw_tok k.
Definition colon : tok := (tCOLON, ":").

Definition braces (l : list tok) : list tok := ((tLBRACE, "{") :: l ++ [(tRBRACE, "}")])%list.

Fixpoint toks_s (s : stmt) : list tok :=
  match s with
  | SOutput e => kwt kOutput :: toks_e e
  | SNamed e p ps => kwt kOutput :: toks_e e ++ kwt kNamed :: map part_tok (p :: ps)
  | SFunction h hs body =>
      kwt kFunction :: colon :: flat_map toks_h (h :: hs) ++ braces (flat_map toks_s body)
  | SLoop x e body =>
      kwt kLoop :: (tUPPERNAME, x) :: kwt kOver :: toks_e e ++ braces (flat_map toks_s body)
  | SResult e => kwt kResult :: colon :: toks_e e
  | SSet p ps v => kwt kSet :: map part_tok (p :: ps) ++ kwt kTo :: toks_e v
  | SAssign x e => (tUPPERNAME, x) :: colon :: toks_e e
  | SIf b bs els =>
      kwt kIf :: toks_b b ++ flat_map (fun b => kwt kElse :: kwt kIf :: toks_b b) bs
      ++ match els with
         | None => []
         | Some body => kwt kElse :: braces (flat_map toks_s body)
         end
  end%list
with toks_b (b : branch) : list tok :=
  match b with Branch c body => toks_e c ++ braces (flat_map toks_s body) end%list.

Fixpoint node_s (s : stmt) : node :=
  match s with
  | SOutput e => Node OUTPUT [inr (node_e e)]
  | SNamed e p ps => Node OUTPUT_NAMED [inr (node_e e); inr (string_node (p :: ps))]
  | SFunction h hs body =>
      Node FUNCTION [inr (Node FUNCNAME_DEF (map node_h (h :: hs)));
                     inr (Node MULTILINE_CODE (map (fun x => inr (node_s x)) body))]
  | SLoop x e body =>
      Node LOOP [inl x; inr (node_e e);
                 inr (Node MULTILINE_CODE (map (fun x => inr (node_s x)) body))]
  | SResult e => Node RESULT [inr (node_e e)]
  | SSet p ps v => Node SET [inr (string_node (p :: ps)); inr (node_e v)]
  | SAssign x e => Node VAR_ASSIGN [inl x; inr (node_e e)]
  | SIf b bs els =>
      Node IF_ELIF_ELSE
        (inr (node_b IF b) :: map (fun b => inr (node_b ELSEIF b)) bs
         ++ match els with
            | None => []
            | Some body =>
                [inr (Node ELSE [inr (Node MULTILINE_CODE (map (fun x => inr (node_s x)) body))])]
            end)%list
  end
with node_b (ty : ntype) (b : branch) : node :=
  match b with
  | Branch c body =>
      Node ty [inr (node_e c); inr (Node MULTILINE_CODE (map (fun x => inr (node_s x)) body))]
  end.

Fixpoint wf_s (s : stmt) : bool :=
  match s with
  | SOutput e | SNamed e _ _ | SResult e | SSet _ _ e | SAssign _ e => wf_e e
  | SFunction _ _ body => forallb wf_s body
  | SLoop _ e body => wf_e e && forallb wf_s body
  | SIf b bs els =>
      wf_b b && forallb wf_b bs
      && match els with None => true | Some body => forallb wf_s body end
  end
with wf_b (b : branch) : bool :=
  match b with Branch c body => wf_e c && forallb wf_s body end.

(** ** Programs *)

Definition program := list stmt.
Definition toks (p : program) : list tok := flat_map toks_s p.
Definition tree (p : program) : node := Node MULTILINE_CODE (map (fun s => inr (node_s s)) p).
Definition wf (p : program) : bool := forallb wf_s p.
