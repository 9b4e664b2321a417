(** A reference reader for the part of Python that generated programs use:
    tokens, expressions by precedence, blocks by indentation, statements.
    Written from the Python 3.9 language reference (chapters 2, 6, 7, 8 and the
    grammar), independently of the generator.

    The readings are relations that mirror the rules of the grammar.  They are
    greedy, as Python's parser is: a reading stops only where the next token
    cannot continue it. *)
From Coq Require Import String Ascii Bool List Arith.
Import ListNotations.
Open Scope string_scope.
Open Scope list_scope.

(** ** Characters *)

Definition code (c : ascii) : nat := nat_of_ascii c.
Definition in_range (a b : nat) (c : ascii) : bool := Nat.leb a (code c) && Nat.leb (code c) b.

Definition py_letter (c : ascii) : bool :=
  in_range 65 90 c || in_range 97 122 c || Ascii.eqb c "_".
Definition py_digit (c : ascii) : bool := in_range 48 57 c.
Definition py_idchar (c : ascii) : bool := py_letter c || py_digit c.

Definition c_newline : ascii := ascii_of_nat 10.
Definition c_return : ascii := ascii_of_nat 13.
Definition c_nul : ascii := ascii_of_nat 0.
Definition c_dquote : ascii := ascii_of_nat 34.
Definition c_squote : ascii := ascii_of_nat 39.
Definition c_backslash : ascii := ascii_of_nat 92.

(** The longest beginning whose characters satisfy [p], and the rest. *)
Fixpoint span (p : ascii -> bool) (s : string) : string * string :=
  match s with
  | EmptyString => (EmptyString, EmptyString)
  | String c r => if p c then let '(a, b) := span p r in (String c a, b) else (EmptyString, s)
  end.

(** ** Tokens of one line (2.3-2.6)

    A comment ends the line.  Some texts that are one token in Python (1e5, 0x1F,
    b'...', three quotes, +=, >>) are here several tokens, which no rule below
    accepts side by side: a program that uses them has no reading here. *)

Inductive ptok : Set :=
| PN (s : string)    (* a name or keyword *)
| PNum (s : string)  (* a number *)
| PF (s : string)    (* f"...": what is between the quotes *)
| PS (s : string)    (* '...' or "..." *)
| PO (s : string).   (* an operator or delimiter *)

(** 2.4.1: a string ends at the next quote that is not behind a backslash, and
    may not go on to the next line. *)
Fixpoint py_close (q : ascii) (s : string) : option (string * string) :=
  match s with
  | EmptyString => None
  | String c r =>
      if Ascii.eqb c q then Some (EmptyString, r)
      else if Ascii.eqb c c_newline || Ascii.eqb c c_return || Ascii.eqb c c_nul then None
      else if Ascii.eqb c c_backslash then
        match r with
        | EmptyString => None
        | String d r' =>
            match py_close q r' with
            | Some (a, b) => Some (String c (String d a), b)
            | None => None
            end
        end
      else match py_close q r with Some (a, b) => Some (String c a, b) | None => None end
  end.

Definition two_char_ops : list string := ["**"; "//"; "=="; "!="; "<="; ">="].
Definition one_char_ops : list string :=
  ["+"; "-"; "*"; "@"; "&"; "|"; "~"; "<"; ">"; "("; ")"; "["; "]"; "{"; "}"; ","; ":"; "="; ";"; "."].

Definition mem (x : string) (l : list string) : bool := existsb (String.eqb x) l.

Definition lex_op (c : ascii) (r : string) : option (ptok * string) :=
  let one := if mem (String c "") one_char_ops then Some (PO (String c ""), r) else None in
  match r with
  | String d r' => if mem (String c (String d "")) two_char_ops then Some (PO (String c (String d "")), r') else one
  | EmptyString => one
  end.

Definition lex_one (s : string) : option (ptok * string) :=
  match s with
  | EmptyString => None
  | String c r =>
      if py_letter c then
        match r with
        | String d r' =>
            if Ascii.eqb c "f" && Ascii.eqb d c_dquote
            then match py_close c_dquote r' with Some (a, b) => Some (PF a, b) | None => None end
            else let '(w, b) := span py_idchar s in Some (PN w, b)
        | EmptyString => let '(w, b) := span py_idchar s in Some (PN w, b)
        end
      else if py_digit c then
        let '(a, b) := span py_digit s in
        match b with
        | String d b' =>
            if Ascii.eqb d "." then let '(a', b2) := span py_digit b' in Some (PNum (a ++ "." ++ a'), b2)
            else Some (PNum a, b)
        | EmptyString => Some (PNum a, b)
        end
      else if Ascii.eqb c c_dquote || Ascii.eqb c c_squote then
        match py_close c r with Some (a, b) => Some (PS a, b) | None => None end
      else lex_op c r
  end.

Fixpoint py_lex_n (n : nat) (s : string) : option (list ptok) :=
  match s with
  | EmptyString => Some []
  | String c r =>
      match n with
      | O => None
      | S n' =>
          if Ascii.eqb c " " then py_lex_n n' r
          else if Ascii.eqb c "#" then Some []
          else match lex_one s with
               | Some (t, r') => option_map (cons t) (py_lex_n n' r')
               | None => None
               end
      end
  end.

Definition py_lex (s : string) : option (list ptok) := py_lex_n (String.length s) s.

(** 2.3.1, the keywords that are all lower-case. *)
Definition py_keywords : list string :=
  ["and"; "as"; "assert"; "async"; "await"; "break"; "class"; "continue"; "def"; "del"; "elif";
   "else"; "except"; "finally"; "for"; "from"; "global"; "if"; "import"; "in"; "is"; "lambda";
   "nonlocal"; "not"; "or"; "pass"; "raise"; "return"; "try"; "while"; "with"; "yield"].
Definition py_name (s : string) : Prop := ~ In s py_keywords.

(** 2.4.5: an integer does not begin with 0 unless it is 0; fractions may. *)
Definition py_number (s : string) : Prop :=
  (exists r, s = String "0" r) ->
  (forall c, In c (list_ascii_of_string s) -> c = "0"%char) \/ In "."%char (list_ascii_of_string s).

(** 2.4.3: the pieces of a formatted string: a character, or the text of an expression in
    braces.  Of the escapes only those of quotes and of the backslash itself are
    here; a string with another one has no reading. *)
Inductive piece : Set := Lit (c : ascii) | Field (s : string).

Fixpoint fpieces (s : string) : option (list piece) :=
  match s with
  | EmptyString => Some []
  | String c r =>
      if Ascii.eqb c c_backslash then
        match r with
        | EmptyString => None
        | String d r' =>
            if Ascii.eqb d c_dquote || Ascii.eqb d c_squote || Ascii.eqb d c_backslash
            then option_map (cons (Lit d)) (fpieces r') else None
        end
      else if Ascii.eqb c "{" then
        match r with
        | EmptyString => None
        | String d r' =>
            if Ascii.eqb d "{" then option_map (cons (Lit "{")) (fpieces r')
            else (fix field (acc : string) (s : string) : option (list piece) :=
                    match s with
                    | EmptyString => None
                    | String c r => if Ascii.eqb c "}" then option_map (cons (Field acc)) (fpieces r)
                                    else field (acc ++ String c "")%string r
                    end) "" r
        end
      else if Ascii.eqb c "}" then
        match r with
        | String d r' => if Ascii.eqb d "}" then option_map (cons (Lit "}")) (fpieces r') else None
        | EmptyString => None
        end
      else option_map (cons (Lit c)) (fpieces r)
  end.

(** ** Expressions (6) *)

Inductive pexpr : Set :=
| PName (s : string)
| PNumber (s : string)
| PFormat (ps : list piece)
| PString (s : string)
| PCall (f : pexpr) (args : list (option string * pexpr))   (* with keyword, if any *)
| PIndex (a i : pexpr)
| PAttr (a : pexpr) (x : string)
| PDict                                                     (* {} *)
| PList (es : list pexpr)
| PUnary (o : string) (e : pexpr)
| PBinary (o : string) (l r : pexpr)
| PCompare (e : pexpr) (rest : list (string * pexpr)).      (* a < b < c is one comparison *)

Definition comparisons : list string := ["<"; ">"; "=="; "!="; "<="; ">="].

(** The left-associative operators of 6.9, 6.8, 6.7 (shifts left out) and 6.7. *)
Definition level_ops (k : nat) : list string :=
  match k with
  | 1 => ["|"]
  | 2 => ["&"]
  | 3 => ["+"; "-"]
  | 4 => ["*"; "@"; "//"]
  | _ => []
  end.

(** The next token is none of these operators. *)
Definition next_not (ops : list string) (ts : list ptok) : Prop :=
  match ts with PO o :: _ => ~ In o ops | _ => True end.

(** [reads k ts e rest]: Python reads an expression of level [k] at the
    beginning of [ts]: 0 comparison, 1 |, 2 &, 3 + -, 4 * @ //, 5 unary, 6 **,
    7 calls, attributes and subscripts, 8 atoms. *)
Inductive reads : nat -> list ptok -> pexpr -> list ptok -> Prop :=
| rd_cmp ts a r es r' : reads 1 ts a r -> chain r es r' ->
    reads 0 ts (match es with [] => a | _ => PCompare a es end) r'
| rd_bin k ts a r e r' : 1 <= k <= 4 -> reads (S k) ts a r -> loop k a r e r' -> reads k ts e r'
| rd_un o ts e r : In o ["+"; "-"; "~"] -> reads 5 ts e r -> reads 5 (PO o :: ts) (PUnary o e) r
| rd_noun ts e r : next_not ["+"; "-"; "~"] ts -> reads 6 ts e r -> reads 5 ts e r
| rd_pow ts a r b r' : reads 7 ts a (PO "**" :: r) -> reads 5 r b r' -> reads 6 ts (PBinary "**" a b) r'
| rd_nopow ts a r : reads 7 ts a r -> next_not ["**"] r -> reads 6 ts a r
| rd_primary ts a r e r' : reads 8 ts a r -> trailers a r e r' -> reads 7 ts e r'
| rd_name s r : py_name s -> reads 8 (PN s :: r) (PName s) r
| rd_number s r : py_number s -> reads 8 (PNum s :: r) (PNumber s) r
| rd_format s ps r : fpieces s = Some ps -> reads 8 (PF s :: r) (PFormat ps) r
| rd_string s r : reads 8 (PS s :: r) (PString s) r
| rd_paren ts e r : reads 0 ts e (PO ")" :: r) -> reads 8 (PO "(" :: ts) e r
| rd_dict r : reads 8 (PO "{" :: PO "}" :: r) PDict r
| rd_list ts es r : items ts es (PO "]" :: r) -> reads 8 (PO "[" :: ts) (PList es) r
(** a < b < ... *)
with chain : list ptok -> list (string * pexpr) -> list ptok -> Prop :=
| ch_stop r : next_not comparisons r -> chain r [] r
| ch_more o ts e r es r' : In o comparisons -> reads 1 ts e r -> chain r es r' ->
    chain (PO o :: ts) ((o, e) :: es) r'
(** the rest of a left-associative sequence of operators that begins with [a] *)
with loop : nat -> pexpr -> list ptok -> pexpr -> list ptok -> Prop :=
| lp_stop k a r : next_not (level_ops k) r -> loop k a r a r
| lp_more k o a ts b r e r' : In o (level_ops k) -> reads (S k) ts b r ->
    loop k (PBinary o a b) r e r' -> loop k a (PO o :: ts) e r'
(** calls, attributes and subscripts *)
with trailers : pexpr -> list ptok -> pexpr -> list ptok -> Prop :=
| tr_stop a r : next_not ["("; "["; "."] r -> trailers a r a r
| tr_attr a x r e r' : py_name x -> trailers (PAttr a x) r e r' -> trailers a (PO "." :: PN x :: r) e r'
| tr_call a ts es r e r' : args ts es (PO ")" :: r) -> trailers (PCall a es) r e r' ->
    trailers a (PO "(" :: ts) e r'
| tr_index a ts i r e r' : reads 0 ts i (PO "]" :: r) -> trailers (PIndex a i) r e r' ->
    trailers a (PO "[" :: ts) e r'
(** a comma-separated list up to a closing bracket *)
with items : list ptok -> list pexpr -> list ptok -> Prop :=
| it_none r : items (PO "]" :: r) [] (PO "]" :: r)
| it_last ts e r : reads 0 ts e r -> next_not [","] r -> items ts [e] r
| it_more ts e r es r' : reads 0 ts e (PO "," :: r) -> items r es r' -> es <> [] -> items ts (e :: es) r'
with args : list ptok -> list (option string * pexpr) -> list ptok -> Prop :=
| ar_none r : args (PO ")" :: r) [] (PO ")" :: r)
| ar_last ts a r : arg ts a r -> next_not [","] r -> args ts [a] r
| ar_more ts a r es r' : arg ts a (PO "," :: r) -> args r es r' -> es <> [] -> args ts (a :: es) r'
with arg : list ptok -> option string * pexpr -> list ptok -> Prop :=
| ag_plain ts e r : (forall s r', ts <> PN s :: PO "=" :: r') -> reads 0 ts e r -> arg ts (None, e) r
| ag_named s ts e r : py_name s -> reads 0 ts e r -> arg (PN s :: PO "=" :: ts) (Some s, e) r.

(** The expression a text stands for. *)
Definition py_expression (s : string) (e : pexpr) : Prop :=
  exists ts, py_lex s = Some ts /\ reads 0 ts e [].

(** ** Lines and blocks (2.1) *)

Fixpoint py_lines (s : string) : list string :=
  match s with
  | EmptyString => [EmptyString]
  | String c r =>
      if Ascii.eqb c c_newline then EmptyString :: py_lines r
      else match py_lines r with
           | l :: ls => String c l :: ls
           | [] => [String c EmptyString]
           end
  end.

(** The number of spaces in front, and what follows them. *)
Fixpoint indentation (s : string) : nat * string :=
  match s with
  | String c r => if Ascii.eqb c " " then let '(n, t) := indentation r in (S n, t) else (0, s)
  | EmptyString => (0, EmptyString)
  end.

(** Blank lines do not count. *)
Definition code_lines (s : string) : list (nat * string) :=
  filter (fun l => negb (String.eqb (snd l) "")) (map indentation (py_lines s)).

(** A line that opens a block: its last token is a colon. *)
Definition opens (s : string) : Prop := exists ts, py_lex s = Some (ts ++ [PO ":"]).

Inductive pblock : Set := PLine (s : string) | PBlock (head : string) (body : list pblock).

(** [blocks d ls bs rest]: the lines [ls] begin with the statements [bs] at
    indentation [d]; [rest] is less indented. *)
Inductive blocks : nat -> list (nat * string) -> list pblock -> list (nat * string) -> Prop :=
| bl_end d : blocks d [] [] []
| bl_dedent d n t r : n < d -> blocks d ((n, t) :: r) [] ((n, t) :: r)
| bl_line d t r bs r' : ~ opens t -> blocks d r bs r' -> blocks d ((d, t) :: r) (PLine t :: bs) r'
| bl_block d t m t' r body r' bs r2 : opens t -> d < m -> blocks m ((m, t') :: r) body r' ->
    blocks d r' bs r2 -> blocks d ((d, t) :: (m, t') :: r) (PBlock t body :: bs) r2.

(** ** Statements (7, 8) *)

Inductive pstmt : Set :=
| PExpr (e : pexpr)
| PAssign (target value : pexpr)
| PReturn (e : pexpr)
| PPass
| PFor (x : string) (e : pexpr) (body : list pstmt)
| PIf (c : pexpr) (body : list pstmt) (els : option (list pstmt))   (* elif is an if in the else part *)
| PDef (decorator : pexpr) (name : string) (params : list (string * option pexpr)) (body : list pstmt).

(** A parameter, with annotation or without. *)
Inductive pparam : list ptok -> string * option pexpr -> list ptok -> Prop :=
| pa_plain s r : py_name s -> next_not [":"] r -> pparam (PN s :: r) (s, None) r
| pa_typed s ts e r : py_name s -> reads 0 ts e r -> pparam (PN s :: PO ":" :: ts) (s, Some e) r.

(** Parameters, up to the closing bracket. *)
Inductive pparams : list ptok -> list (string * option pexpr) -> list ptok -> Prop :=
| pp_none r : pparams (PO ")" :: r) [] (PO ")" :: r)
| pp_last ts p r : pparam ts p r -> next_not [","] r -> pparams ts [p] r
| pp_more ts p r ps r' : pparam ts p (PO "," :: r) -> pparams r ps r' -> ps <> [] -> pparams ts (p :: ps) r'.

(** One simple statement. *)
Inductive simple : list ptok -> pstmt -> list ptok -> Prop :=
| sm_pass r : simple (PN "pass" :: r) PPass r
| sm_return ts e r : reads 0 ts e r -> simple (PN "return" :: ts) (PReturn e) r
| sm_assign ts a r e r' : reads 0 ts a (PO "=" :: r) -> reads 0 r e r' -> simple ts (PAssign a e) r'
| sm_expr ts e r : reads 0 ts e r -> next_not ["="] r -> simple ts (PExpr e) r.

(** Simple statements on one line are separated by semicolons. *)
Inductive simples : list ptok -> list pstmt -> Prop :=
| ss_last ts s : simple ts s [] -> simples ts [s]
| ss_end ts s : simple ts s [PO ";"] -> simples ts [s]
| ss_more ts s r ss : simple ts s (PO ";" :: r) -> r <> [] -> simples r ss -> simples ts (s :: ss).

(** Compound statements; the names after [def] and [for] are identifiers. *)
Inductive statements : list pblock -> list pstmt -> Prop :=
| st_nil : statements [] []
| st_line t ts ss bs ss' : py_lex t = Some ts -> simples ts ss -> statements bs ss' ->
    statements (PLine t :: bs) (ss ++ ss')
| st_for t x ts e body ss bs ss' : py_lex t = Some (PN "for" :: PN x :: PN "in" :: ts) -> py_name x ->
    reads 0 ts e [PO ":"] -> statements body ss -> statements bs ss' ->
    statements (PBlock t body :: bs) (PFor x e ss :: ss')
| st_if t ts c body ss bs els bs' ss' : py_lex t = Some (PN "if" :: ts) ->
    reads 0 ts c [PO ":"] -> statements body ss -> orelse bs els bs' -> statements bs' ss' ->
    statements (PBlock t body :: bs) (PIf c ss els :: ss')
| st_def d ds dec t f ts ps body ss bs ss' : py_lex d = Some (PO "@" :: ds) -> reads 0 ds dec [] ->
    py_lex t = Some (PN "def" :: PN f :: PO "(" :: ts) -> py_name f ->
    pparams ts ps [PO ")"; PO ":"] -> statements body ss -> statements bs ss' ->
    statements (PLine d :: PBlock t body :: bs) (PDef dec f ps ss :: ss')
(** elif and else, directly after the block of if *)
with orelse : list pblock -> option (list pstmt) -> list pblock -> Prop :=
| oe_none bs : (forall t body bs' w r, bs = PBlock t body :: bs' -> py_lex t = Some (PN w :: r) ->
                w <> "elif" /\ w <> "else") -> orelse bs None bs
| oe_else t body ss bs : py_lex t = Some [PN "else"; PO ":"] -> statements body ss ->
    orelse (PBlock t body :: bs) (Some ss) bs
| oe_elif t ts c body ss els bs bs' : py_lex t = Some (PN "elif" :: ts) -> reads 0 ts c [PO ":"] ->
    statements body ss -> orelse bs els bs' ->
    orelse (PBlock t body :: bs) (Some [PIf c ss els]) bs'.

(** 7.6: return stands only inside a function. *)
Fixpoint returns_inside (s : pstmt) : Prop :=
  let all := fix all (l : list pstmt) : Prop :=
    match l with [] => True | x :: l' => returns_inside x /\ all l' end in
  match s with
  | PReturn _ => False
  | PFor _ _ body => all body
  | PIf _ body els => all body /\ match els with Some b => all b | None => True end
  | PExpr _ | PAssign _ _ | PPass | PDef _ _ _ _ => True
  end.

(** 8.6: the parameters of a function have different names. *)
Fixpoint params_differ (s : pstmt) : Prop :=
  let all := fix all (l : list pstmt) : Prop :=
    match l with [] => True | x :: l' => params_differ x /\ all l' end in
  match s with
  | PFor _ _ body => all body
  | PIf _ body els => all body /\ match els with Some b => all b | None => True end
  | PDef _ _ ps body => NoDup (map fst ps) /\ all body
  | PReturn _ | PExpr _ | PAssign _ _ | PPass => True
  end.

(** 7.2: what may stand on the left of = : names, subscripts and attributes. *)
Fixpoint targets_ok (s : pstmt) : Prop :=
  let all := fix all (l : list pstmt) : Prop :=
    match l with [] => True | x :: l' => targets_ok x /\ all l' end in
  match s with
  | PAssign a _ => match a with PName _ | PIndex _ _ | PAttr _ _ => True | _ => False end
  | PFor _ _ body => all body
  | PIf _ body els => all body /\ match els with Some b => all b | None => True end
  | PDef _ _ _ body => all body
  | PReturn _ | PExpr _ | PPass => True
  end.

(** The program a text stands for. *)
Definition py_program (s : string) (p : list pstmt) : Prop :=
  (exists bs, blocks 0 (code_lines s) bs [] /\ statements bs p) /\
  Forall returns_inside p /\ Forall params_differ p /\ Forall targets_ok p.
