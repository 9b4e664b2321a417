(** What the Python program generated for a dice program should be: a
    translation from the abstract syntax of SynSpec.v into the syntax of
    PySpec.v, and the conditions under which the text can be read as that.
    Written from the meaning of the language, not from the generated text. *)
From Coq Require Import String Ascii Bool List Arith.
From Verif Require Import LexModel SynSpec NameSpec ResolveModel PySpec.
Import ListNotations.
Open Scope string_scope.
Open Scope list_scope.

Section translation.
  (** The compiler options: variables in a dictionary, operators as functions,
      function names with a prefix. *)
  Variable fl : flags.

  (** ** Names *)

  (** The Python function of a shape: its words, X for an argument. *)
  Definition fun_name (s : shape) : string :=
    String.concat "_" ((if fl_prefix fl then ["f"] else [])
                       ++ map (fun x => match x with Some w => w | None => "X" end) s).

  Definition vars_at (x : string) : pexpr := PIndex (PName "vars") (PString x).
  Definition variable (x : string) : pexpr := if fl_vars fl then vars_at x else PName x.

  Definition call (f : string) (es : list pexpr) : pexpr := PCall (PName f) (map (fun e => (None, e)) es).

  (** ** Strings: characters, and variables to be filled in *)

  Definition text_pieces (s : string) : list piece := map Lit (list_ascii_of_string s).
  Definition part_pieces (p : part) : list piece :=
    match p with
    | PAny s | PNonvar s => text_pieces s
    | PVar v => [Field (if fl_vars fl then "vars['" ++ v ++ "']" else v)%string]
    end.
  Definition py_str (ps : list part) : pexpr := PFormat (flat_map part_pieces ps).

  (** ** Expressions *)

  Definition py_operator (o : binop) : string :=
    match o with
    | OAdd => "+" | OSub => "-" | OMul => "*" | ODiv => "//" | OPow => "**" | OAt => "@"
    | OAnd => "&" | OOr => "|" | OLt => "<" | OGt => ">" | OEq => "==" | ONe => "!="
    | OLe => "<=" | OGe => ">="
    end.

  Definition is_comparison (o : binop) : bool :=
    match o with OLt | OGt | OEq | ONe | OLe | OGe => true | _ => false end.

  (** The operators that are functions under the second option. *)
  Definition op_function (o : binop) : option string :=
    if fl_oplib fl then
      match o with OAt => Some "myMatmul" | OAnd => Some "myAnd" | OOr => Some "myOr" | _ => None end
    else None.

  Definition py_bin (o : binop) (a b : pexpr) : pexpr :=
    match op_function o with
    | Some f => call f [a; b]
    | None => if is_comparison o then PCompare a [(py_operator o, b)] else PBinary (py_operator o) a b
    end.

  Definition py_un (u : unop) (a : pexpr) : pexpr :=
    match u with
    | UPos => PUnary "+" a
    | UNeg => PUnary "-" a
    | UNot => if fl_oplib fl then call "myInvert" [a] else PUnary "~" a
    end.

  Fixpoint py_e (e : expr) : pexpr :=
    match e with
    | EBin o l r => py_bin o (py_e l) (py_e r)
    | EDice n d => call "roll" [py_t n; py_t d]
    | EDie d => call "roll" [py_t d]
    | ETerm t => py_t t
    end
  with py_t (t : term) : pexpr :=
    match t with
    | TNum s => PNumber s
    | TDec a b => PNumber (a ++ "." ++ b)
    | TVar x => variable x
    | TStr p ps => py_str (p :: ps)
    | TSeq es => call "get_seq" [PList (map py_l es)]
    | TGroup e => py_e e
    | TCall cs => call (fun_name (call_shape cs))
                       (flat_map py_c cs ++ if fl_vars fl then [PName "vars"] else [])
    | TUn u t => py_un u (py_t t)
    | THash t => call (if fl_oplib fl then "myLen" else "len") [py_t t]
    end
  with py_l (x : element) : pexpr :=
    match x with
    | LOne e => py_e e
    | LRange a b => call "myrange" [py_e a; py_e b]
    end
  with py_c (c : citem) : list pexpr :=
    match c with CWord _ => [] | CArg e => [py_e e] end.

  (** ** Statements *)

  Definition body_or_pass (ss : list pstmt) : list pstmt := match ss with [] => [PPass] | _ => ss end.

  (** Parameters: one that repeats an earlier name is called after its position. *)
  Fixpoint own_names (i : nat) (seen : list string) (ps : list (string * option ptype))
    : list (string * option ptype) :=
    match ps with
    | [] => []
    | (x, ty) :: ps' =>
        (if existsb (String.eqb x) seen then "dummy" ++ show i else x, ty)%string
        :: own_names (S i) (x :: seen) ps'
    end.

  Definition py_params (ps : list (string * option ptype)) : list (string * option pexpr) :=
    map (fun p => (fst p, option_map (fun ty => PName (annotation ty)) (snd p))) ps
    ++ if fl_vars fl then [("vars", None)] else [].

  (** With variables in a dictionary a function works on its own copy, which
      gets the arguments. *)
  Definition enter (ps : list (string * option ptype)) : list pstmt :=
    if fl_vars fl then
      PAssign (PName "vars") (PCall (PAttr (PName "vars") "copy") [])
      :: map (fun p => PAssign (vars_at (fst p)) (PName (fst p))) ps
    else [].

  Fixpoint py_s (s : stmt) : pstmt :=
    match s with
    | SOutput e => PExpr (call "output" [py_e e])
    | SNamed e p ps =>
        PExpr (PCall (PName "output") [(None, py_e e); (Some "named", py_str (p :: ps))])
    | SFunction h hs body =>
        let ps := own_names 0 [] (params (h :: hs)) in
        PDef (call "anydice_casting" []) (fun_name (header_shape (h :: hs))) (py_params ps)
             (enter ps ++ body_or_pass (map py_s body))
    | SLoop x e body =>
        PFor x (py_e e)
          ((if fl_vars fl then [PAssign (vars_at x) (PName x)] else [])
           ++ body_or_pass (map py_s body))
    | SResult e => PReturn (py_e e)
    | SSet p ps v => PExpr (call "settings_set" [py_str (p :: ps); py_e v])
    | SAssign x e => PAssign (variable x) (py_e e)
    | SIf b bs els =>
        let '(c, body) := py_b b in
        PIf c body
          (fold_right (fun b els => let '(c, body) := py_b b in Some [PIf c body els])
             (match els with None => None | Some body => Some (body_or_pass (map py_s body)) end) bs)
    end
  with py_b (b : branch) : pexpr * list pstmt :=
    match b with Branch c body => (py_e c, body_or_pass (map py_s body)) end.

  Definition py_prog (p : program) : list pstmt :=
    (if fl_vars fl then [PAssign (PName "vars") PDict] else []) ++ body_or_pass (map py_s p).

  (** ** Expressions whose structure the text keeps *)

  Definition top (e : expr) : option binop := match e with EBin o _ _ => Some o | _ => None end.
  Definition top_comparison (e : expr) : bool :=
    match top e with Some o => is_comparison o | None => false end.
  (** Begins with + or -, or with the operator ! if that is not a function. *)
  Definition signed (e : expr) : bool :=
    match e with
    | ETerm (TUn UNot _) => negb (fl_oplib fl)
    | ETerm (TUn _ _) => true
    | _ => false
    end.

  (** - the base of a power is neither signed nor itself a power;
      - what is compared is not itself a comparison;
      - beside & and | stand no comparisons, unless those are functions. *)
  Definition keeps_op (o : binop) (l r : expr) : bool :=
    match o with
    | OPow => negb (signed l) && match top l with Some OPow => false | _ => true end
    | OAnd | OOr => fl_oplib fl || (negb (top_comparison l) && negb (top_comparison r))
    | _ => negb (is_comparison o && top_comparison l)
    end.

  (** A number without superfluous zeros in front. *)
  Definition plain_number (s : string) : bool :=
    match s with
    | String "0" (String _ _) => forallb (Ascii.eqb "0") (list_ascii_of_string s)
    | _ => true
    end.

  (** A string without backslash, carriage return and NUL. *)
  Definition plain_char (c : ascii) : bool :=
    negb (Ascii.eqb c c_backslash || Ascii.eqb c c_return || Ascii.eqb c c_nul).
  Definition plain_part (p : part) : bool :=
    match p with
    | PAny s | PNonvar s => forallb plain_char (list_ascii_of_string s)
    | PVar _ => true
    end.

  (** A function whose name is not a word of Python. *)
  Definition plain_fun (s : shape) : bool := negb (mem (fun_name s) py_keywords).

  Fixpoint keeps_e (e : expr) : bool :=
    match e with
    | EBin o l r => keeps_op o l r && keeps_e l && keeps_e r
    | EDice n d => keeps_t n && keeps_t d
    | EDie d => keeps_t d
    | ETerm t => keeps_t t
    end
  with keeps_t (t : term) : bool :=
    match t with
    | TNum s => plain_number s
    | TDec _ _ | TVar _ => true
    | TStr p ps => forallb plain_part (p :: ps)
    | TSeq es => forallb keeps_l es
    | TGroup e => keeps_e e
    | TCall cs => plain_fun (call_shape cs) && forallb keeps_c cs
    | TUn _ t | THash t => keeps_t t
    end
  with keeps_l (x : element) : bool :=
    match x with LOne e => keeps_e e | LRange a b => keeps_e a && keeps_e b end
  with keeps_c (c : citem) : bool :=
    match c with CWord _ => true | CArg e => keeps_e e end.

  Definition plain_type (p : string * option ptype) : bool :=
    match snd p with None => true | Some ty => negb (mem (annotation ty) py_keywords) end.

  Fixpoint keeps_s (s : stmt) : bool :=
    match s with
    | SOutput e | SResult e | SAssign _ e => keeps_e e
    | SNamed e p ps | SSet p ps e => keeps_e e && forallb plain_part (p :: ps)
    | SFunction h hs body =>
        plain_fun (header_shape (h :: hs)) && forallb plain_type (params (h :: hs))
        && forallb keeps_s body
    | SLoop _ e body => keeps_e e && forallb keeps_s body
    | SIf b bs els =>
        keeps_b b && forallb keeps_b bs
        && match els with None => true | Some body => forallb keeps_s body end
    end
  with keeps_b (b : branch) : bool :=
    match b with Branch c body => keeps_e c && forallb keeps_s body end.

  Definition keeps (p : program) : bool := forallb keeps_s p.

  (** ** Words and numbers that Python does not take: [plain_number], [plain_fun] and
      [plain_type] hold throughout *)

  Fixpoint words_e (e : expr) : bool :=
    match e with
    | EBin _ l r => words_e l && words_e r
    | EDice n d => words_t n && words_t d
    | EDie d => words_t d
    | ETerm t => words_t t
    end
  with words_t (t : term) : bool :=
    match t with
    | TNum s => plain_number s
    | TDec _ _ | TVar _ | TStr _ _ => true
    | TSeq es => forallb words_l es
    | TGroup e => words_e e
    | TCall cs => plain_fun (call_shape cs) && forallb words_c cs
    | TUn _ t | THash t => words_t t
    end
  with words_l (x : element) : bool :=
    match x with LOne e => words_e e | LRange a b => words_e a && words_e b end
  with words_c (c : citem) : bool :=
    match c with CWord _ => true | CArg e => words_e e end.

  Fixpoint words_s (s : stmt) : bool :=
    match s with
    | SOutput e | SResult e | SAssign _ e | SNamed e _ _ | SSet _ _ e => words_e e
    | SFunction h hs body =>
        plain_fun (header_shape (h :: hs)) && forallb plain_type (params (h :: hs))
        && forallb words_s body
    | SLoop _ e body => words_e e && forallb words_s body
    | SIf b bs els =>
        words_b b && forallb words_b bs
        && match els with None => true | Some body => forallb words_s body end
    end
  with words_b (b : branch) : bool :=
    match b with Branch c body => words_e c && forallb words_s body end.

  Definition plain_words (p : program) : bool := forallb words_s p.
End translation.

(** All strings are without backslash, carriage return and NUL. *)
Fixpoint strings_e (e : expr) : bool :=
  match e with
  | EBin _ l r => strings_e l && strings_e r
  | EDice n d => strings_t n && strings_t d
  | EDie d => strings_t d
  | ETerm t => strings_t t
  end
with strings_t (t : term) : bool :=
  match t with
  | TNum _ | TDec _ _ | TVar _ => true
  | TStr p ps => forallb plain_part (p :: ps)
  | TSeq es => forallb strings_l es
  | TGroup e => strings_e e
  | TCall cs => forallb strings_c cs
  | TUn _ t | THash t => strings_t t
  end
with strings_l (x : element) : bool :=
  match x with LOne e => strings_e e | LRange a b => strings_e a && strings_e b end
with strings_c (c : citem) : bool :=
  match c with CWord _ => true | CArg e => strings_e e end.

Fixpoint strings_s (s : stmt) : bool :=
  match s with
  | SOutput e | SResult e | SAssign _ e => strings_e e
  | SNamed e p ps | SSet p ps e => strings_e e && forallb plain_part (p :: ps)
  | SFunction _ _ body => forallb strings_s body
  | SLoop _ e body => strings_e e && forallb strings_s body
  | SIf b bs els =>
      strings_b b && forallb strings_b bs
      && match els with None => true | Some body => forallb strings_s body end
  end
with strings_b (b : branch) : bool :=
  match b with Branch c body => strings_e c && forallb strings_s body end.
Definition plain_strings (p : program) : bool := forallb strings_s p.

(** result: stands only in functions. *)
Fixpoint results_inside_s (s : stmt) : bool :=
  match s with
  | SResult _ => false
  | SLoop _ _ body => forallb results_inside_s body
  | SIf b bs els =>
      results_inside_b b && forallb results_inside_b bs
      && match els with None => true | Some body => forallb results_inside_s body end
  | _ => true
  end
with results_inside_b (b : branch) : bool :=
  match b with Branch _ body => forallb results_inside_s body end.
Definition results_inside (p : program) : bool := forallb results_inside_s p.
