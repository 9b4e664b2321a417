(** The parser generator: ply/yacc.py, from the texts in which myparser.py writes its
    grammar to the tables of the parser.

    Simplifications: messages and counters that are only printed with debug=True are left
    out (so are [compute_first] and [compute_follow], lines 1083-1196, whose sets only the
    older SLR method reads); the checks that the values of [tokens], [precedence] and of the
    p_ functions have the right Python types (lines 2083-2182, 2213-2225) are left out, as
    are the warnings of lines 2054-2076 and 2245-2261.  A while loop becomes a loop with a bound; where the
    bound is reached the model gives [Err Unmodelled]. *)
From Coq Require Import String Ascii Bool List Arith ZArith.
From Verif Require Import PyBase LexModel PlyLexModel.
Import ListNotations.
Open Scope string_scope.
Open Scope list_scope.

(** ** Python dictionaries, in the order of insertion *)

Section dict.
  Context {K V : Type} (eqb : K -> K -> bool).
  Fixpoint dget (k : K) (d : list (K * V)) : option V :=
    match d with
    | [] => None
    | (k', v) :: d' => if eqb k k' then Some v else dget k d'
    end.
  Fixpoint dset (k : K) (v : V) (d : list (K * V)) : list (K * V) :=
    match d with
    | [] => [(k, v)]
    | (k', v') :: d' => if eqb k k' then (k', v) :: d' else (k', v') :: dset k v d'
    end.
End dict.

Definition sget {V} := @dget string V String.eqb.
Definition sset {V} := @dset string V String.eqb.
Definition sin (s : string) (l : list string) : bool := existsb (String.eqb s) l.
Definition skeys {V} (d : list (string * V)) : list string := map fst d.
(** [if a not in l: l.append(a)] *)
Definition add_new (l : list string) (a : string) : list string := if sin a l then l else l ++ [a].

(** ** What myparser.py defines *)

(** lines 208-614: the p_ functions, with their first lines and their texts *)
Definition p_functions : list (nat * string * string) :=
  [(208, "p_multiline_code", "
    multiline_code : single_code
            | multiline_code single_code
    ");
  (219, "p_multiline_code_empty", "multiline_code : empty");
  (224, "p_empty", "empty :");
  (229, "p_single_code", "
    single_code : OUTPUT expression
                | OUTPUT expression NAMED string

                | FUNCTION COLON funcname_def LBRACE multiline_code RBRACE

                | LOOP var_name OVER expression LBRACE multiline_code RBRACE

                | RESULT COLON expression
                | SET string TO string
                | SET string TO expression
    ");
  (259, "p_single_code_if_elseif_else", "
    single_code : if_expr
                | if_expr else_expr
                | if_expr elseif_expr
                | if_expr elseif_expr else_expr
    ");
  (271, "p_if", "
    if_expr : IF expression LBRACE multiline_code RBRACE
    ");
  (278, "p_else", "
    else_expr : ELSE LBRACE multiline_code RBRACE
    ");
  (285, "p_elif", "
    elseif_expr :  ELSE IF expression LBRACE multiline_code RBRACE
            | elseif_expr ELSE IF expression LBRACE multiline_code RBRACE
    ");
  (297, "p_var_assign", "
    single_code : var_name COLON expression
    ");
  (304, "p_var_name", "
    var_name : UPPERNAME
    ");
  (311, "p_string_instring", "
    string : INSTRING_ANY
           | INSTRING_NONVAR
           | string INSTRING_ANY
           | string INSTRING_NONVAR
    ");
  (325, "p_strvar_instring", "
    string : INSTRING_VAR
            | string INSTRING_VAR
    ");
  (339, "p_funcname_def", "
    funcname_def : LOWERNAME
                | OUTPUT
                | FUNCTION
                | LOOP
                | OVER
                | NAMED
                | SET
                | TO
                | IF
                | ELSE
                | RESULT
                |  funcname_def LOWERNAME
                | funcname_def OUTPUT
                | funcname_def FUNCTION
                | funcname_def LOOP
                | funcname_def OVER
                | funcname_def NAMED
                | funcname_def SET
                | funcname_def TO
                | funcname_def IF
                | funcname_def ELSE
                | funcname_def RESULT
    ");
  (370, "p_funcname_def_impossibletocall", "
    funcname_def :
                | D_OP
                | funcname_def D_OP
    ");
  (386, "p_funcname_def_param", "
    funcname_def : var_name
                |  var_name COLON D_OP
                |  var_name COLON LOWERNAME
                |  funcname_def var_name
                |  funcname_def var_name COLON D_OP
                |  funcname_def var_name COLON LOWERNAME
    ");
  (428, "p_expression_binop", "
    expression : expression PLUS expression
               | expression MINUS expression
               | expression TIMES expression
               | expression DIVIDE expression
               | expression POWER expression
               | expression AT expression
               | expression AND expression
               | expression OR expression
    ");
  (442, "p_expression_dop", "
    expression : term D_OP term %prec D_OP
               | D_OP term %prec D_OP
    ");
  (453, "p_expression_comparison", "
    expression : expression LESS expression
               | expression GREATER expression
               | expression EQUALS expression
               | expression NOTEQUALS expression
               | expression LESS EQUALS expression
               | expression GREATER EQUALS expression
    ");
  (468, "p_expression_term", "
    expression : term
    ");
  (475, "p_term_unary", "
    term : PLUS term %prec UPLUS
            | MINUS term %prec UMINUS
            | EXCLAMATION term %prec EXCLAMATION
    ");
  (484, "p_term_hash", "
    term : HASH term %prec HASH_OP
    ");
  (491, "p_term_grouped", "
    term : LPAREN expression RPAREN
    ");
  (498, "p_term_number", "
    term : NUMBER
    ");
  (505, "p_term_number_decimal", "
    term : NUMBER DOT NUMBER
    ");
  (512, "p_term_name", "
    term : var_name
    ");
  (521, "p_term_seq", "
    term : LBRACE RBRACE
         | LBRACE elements RBRACE
    ");
  (532, "p_elements", "
    elements : elements COMMA element
             | element
    ");
  (543, "p_element", "
    element : expression
            | range
    ");
  (551, "p_range", "
    range : expression DOUBLE_DOT expression
    ");
  (558, "p_str_element", "
    term : string
    ");
  (566, "p_term_call", "
    term : LBRACKET call_elements RBRACKET
    ");
  (573, "p_call_elements", "
    call_elements : LOWERNAME
                | OUTPUT
                | FUNCTION
                | LOOP
                | OVER
                | NAMED
                | SET
                | TO
                | IF
                | ELSE
                | RESULT
                | call_elements LOWERNAME
                | call_elements OUTPUT
                | call_elements FUNCTION
                | call_elements LOOP
                | call_elements OVER
                | call_elements NAMED
                | call_elements SET
                | call_elements TO
                | call_elements IF
                | call_elements ELSE
                | call_elements RESULT
    ");
  (604, "p_call_elements_expr", "
    call_elements : expression
                | call_elements expression
    ")].

(** lines 410-424 *)
Definition prec_table : list (string * list string) :=
  [("left", ["OR"]); ("left", ["AND"]); ("left", ["LESS"; "GREATER"; "EQUALS"; "NOTEQUALS"]); ("left", ["PLUS"; "MINUS"]);
   ("left", ["TIMES"; "DIVIDE"]); ("left", ["POWER"]); ("left", ["AT"]); ("left", ["D_OP"]); ("right", ["HASH_OP"]);
   ("right", ["EXCLAMATION"]); ("right", ["UMINUS"; "UPLUS"]); ("left", ["DOT"])].

(** line 205 *)
Definition start_name : string := "multiline_code".

(** ** Reading the texts, ply/yacc.py lines 1952-1984 *)

(** [str.splitlines]; the only line breaks in the texts are newlines *)
Fixpoint splitlines (s : string) : list string :=
  match s with
  | EmptyString => []
  | String c s' =>
      if Ascii.eqb c cNL then EmptyString :: splitlines s'
      else match splitlines s' with
           | [] => [String c EmptyString]
           | l :: ls => String c l :: ls
           end
  end.

(** [str.split()]; the only white space in the lines is the blank *)
Fixpoint words (s : string) : list string :=
  match s with
  | EmptyString => []
  | String c s' =>
      if Ascii.eqb c " "%char then words s'
      else match s' with
           | String c' _ => if Ascii.eqb c' " "%char then String c EmptyString :: words s'
                            else match words s' with
                                 | w :: ws => String c w :: ws
                                 | [] => [String c EmptyString]
                                 end
           | EmptyString => [String c EmptyString]
           end
  end.

(** a rule: line, name and symbols; [None] for a SyntaxError *)
Definition rule := (nat * string * list string)%type.

Fixpoint parse_lines (ls : list string) (dline : nat) (lastp : option string) : option (list rule) :=
  match ls with
  | [] => Some []
  | ps :: ls' =>
      let dline := S dline in
      match words ps with
      | [] => parse_lines ls' dline lastp
      | w :: p =>
          if String.eqb w "|" then
            match lastp with
            | None => None
            | Some prodname => option_map (cons (dline, prodname, p)) (parse_lines ls' dline lastp)
            end
          else match p with
               | assign :: syms =>
                   if String.eqb assign ":" || String.eqb assign "::="
                   then option_map (cons (dline, w, syms)) (parse_lines ls' dline (Some w)) else None
               | [] => None
               end
      end
  end.
Definition parse_grammar (doc : string) (line : nat) : option (list rule) := parse_lines (splitlines doc) line None.

(** [get_pfunctions] (lines 2184-2202; no two functions begin on the same line) and
    [validate_pfunctions] (lines 2205-2263): the rules, each with the name of its function *)
Fixpoint grammar_of (fs : list (nat * string * string)) : option (list (string * rule)) :=
  match fs with
  | [] => Some []
  | (line, name, doc) :: fs' =>
      match parse_grammar doc line, grammar_of fs' with
      | Some g, Some gs => Some (map (fun r => (name, r)) g ++ gs)
      | _, _ => None
      end
  end.
Definition get_grammar (fs : list (nat * string * string)) : option (list (string * rule)) :=
  grammar_of (sort_by (fun a b => Nat.leb (fst (fst a)) (fst (fst b))) fs).

(** [validate_precedence], lines 2153-2181 *)
Fixpoint preclist (level : nat) (t : list (string * list string)) : list (string * string * nat) :=
  match t with
  | [] => []
  | (a, ts) :: t' => map (fun x => (x, a, S level)) ts ++ preclist (S level) t'
  end.

(** [sorted(tokens)], line 2132 *)
Definition sorted_names (l : list string) : list string :=
  sort_by (fun a b => match String.compare a b with Gt => false | _ => true end) l.

(** ** The grammar, lines 617-1056 *)

(** [Production], lines 617-683 *)
Record production := mkProduction {
  pr_number : nat; pr_name : string; pr_prod : list string; pr_prec : string * nat; pr_func : option string; pr_line : nat }.
(** lines 634-637 *)
Definition usyms (p : production) : list string := fold_left add_new (pr_prod p) [].

Record grammar := mkGrammar {
  g_productions : list production;          (* without the entry kept free for rule 0 *)
  g_terminals : list (string * list nat);
  g_nonterminals : list (string * list nat);
  g_precedence : list (string * (string * nat));
  g_used : list string }.

(** line 756 *)
Definition new_grammar (tokens : list string) : grammar :=
  mkGrammar [] (sset "error" [] (fold_left (fun d t => sset t [] d) tokens [])) [] [] [].

(** [set_precedence], lines 806-812; a GrammarError is only logged (lines 2332-2335) *)
Definition set_precedence (g : grammar) (x : string * string * nat) : grammar :=
  let '(term, assoc, level) := x in
  match sget term (g_precedence g) with
  | Some _ => g
  | None => if sin assoc ["left"; "right"; "nonassoc"]
            then mkGrammar (g_productions g) (g_terminals g) (g_nonterminals g) (sset term (assoc, level) (g_precedence g)) (g_used g)
            else g
  end.

(** line 591: [a-zA-Z0-9_-]+ *)
Definition identifier (s : string) : bool :=
  negb (String.eqb s "") &&
  forallb (fun c => between 97 122 c || between 65 90 c || between 48 57 c || Ascii.eqb c "_"%char || Ascii.eqb c "-"%char)
    (list_ascii_of_string s).

(** lines 736-742 *)
Definition rightmost_terminal (syms : list string) (terminals : list string) : option string :=
  find (fun s => sin s terminals) (rev syms).

Definition note (n : nat) (s : string) (d : list (string * list nat)) : list (string * list nat) :=
  sset s (match sget s d with Some l => l ++ [n] | None => [n] end) d.

Definition same_rule (n : string) (syms : list string) (p : production) : bool :=
  String.eqb n (pr_name p) && if list_eq_dec string_dec syms (pr_prod p) then true else false.

(** [add_production], lines 831-906; [None] for a GrammarError.  Symbols in quotes (lines
    842-853) are refused here: the grammar has none. *)
Definition add_production (g : grammar) (x : string * rule) : option grammar :=
  let '(func, (line, prodname, syms0)) := x in
  if sin prodname (skeys (g_terminals g)) || String.eqb prodname "error" || negb (identifier prodname) then None
  else if negb (forallb (fun s => identifier s || String.eqb s "%prec") syms0) then None
  else
    let found :=
      if sin "%prec" syms0 then
        match rev syms0 with
        | precname :: mark :: before =>
            if String.eqb precname "%prec" || negb (String.eqb mark "%prec") then None
            else match sget precname (g_precedence g) with
                 | Some pp => Some (rev before, pp, add_new (g_used g) precname)
                 | None => None
                 end
        | _ => None
        end
      else
        let prec := match rightmost_terminal syms0 (skeys (g_terminals g)) with
                    | Some t => match sget t (g_precedence g) with Some pp => pp | None => ("right", 0) end
                    | None => ("right", 0)
                    end in
        Some (syms0, prec, g_used g) in
    match found with
    | None => None
    | Some (syms, prodprec, used) =>
        if existsb (same_rule prodname syms) (g_productions g) then None
        else
          let pnumber := S (List.length (g_productions g)) in
          let nts0 := match sget prodname (g_nonterminals g) with Some _ => g_nonterminals g | None => sset prodname [] (g_nonterminals g) end in
          let '(terms, nts) :=
            fold_left (fun '(ts, ns) t => if sin t (skeys ts) then (note pnumber t ts, ns) else (ts, note pnumber t ns)) syms
              (g_terminals g, nts0) in
          Some (mkGrammar (g_productions g ++ [mkProduction pnumber prodname syms prodprec (Some func) line]) terms nts (g_precedence g) used)
    end.

Fixpoint add_productions (g : grammar) (l : list (string * rule)) : option grammar :=
  match l with
  | [] => Some g
  | x :: l' => match add_production g x with Some g' => add_productions g' l' | None => None end
  end.

(** [set_start], lines 915-922: rule 0 *)
Definition augmented : string := "S'".
Definition rule_zero (start : string) : production := mkProduction 0 augmented [start] ("right", 0) None 0.
Definition set_start (g : grammar) (start : string) : option grammar :=
  match sget start (g_nonterminals g) with
  | None => None
  | Some _ => Some (mkGrammar (rule_zero start :: g_productions g) (g_terminals g) (note 0 start (g_nonterminals g)) (g_precedence g) (g_used g))
  end.

(** [Prodnames]: the rules of a name, without rule 0 *)
Definition prodnames (g : grammar) (n : string) : list production :=
  filter (fun p => String.eqb n (pr_name p)) (tl (g_productions g)).
Definition defined (g : grammar) (n : string) : bool := existsb (fun p => String.eqb n (pr_name p)) (tl (g_productions g)).

(** lines 931-944 *)
Fixpoint mark_reachable (fuel : nat) (g : grammar) (reachable : list string) (s : string) : list string :=
  match fuel with
  | O => reachable
  | S f =>
      if sin s reachable then reachable
      else fold_left (fun r p => fold_left (mark_reachable f g) (pr_prod p) r) (prodnames g s) (s :: reachable)
  end.
Definition find_unreachable (g : grammar) (start : string) : list string :=
  let r := mark_reachable (S (List.length (g_nonterminals g) + List.length (g_terminals g))) g [] start in
  filter (fun s => negb (sin s r)) (skeys (g_nonterminals g)).

(** lines 954-1009; the symbols are gone through in the order of Nonterminals instead of that
    of Prodnames, which does not change the set that is reached *)
Definition terminating_pass (g : grammar) (done : list string) : list string :=
  fold_left (fun d n => if existsb (fun p => forallb (fun s => sin s d) (pr_prod p)) (prodnames g n) then add_new d n else d)
    (skeys (g_nonterminals g)) done.
Fixpoint terminating (fuel : nat) (g : grammar) (done : list string) : list string :=
  match fuel with
  | O => done
  | S f => let d := terminating_pass g done in
           if Nat.eqb (List.length d) (List.length done) then done else terminating f g d
  end.
Definition infinite_cycles (g : grammar) : list string :=
  let d := terminating (S (List.length (g_nonterminals g))) g (skeys (g_terminals g) ++ ["$end"]) in
  filter (fun s => negb (sin s d) && defined g s) (skeys (g_nonterminals g)).

(** lines 1018-1027 *)
Definition undefined_symbols (g : grammar) : list string :=
  flat_map (fun p => filter (fun s => negb (defined g s || sin s (skeys (g_terminals g)) || String.eqb s "error")) (pr_prod p))
    (g_productions g).
(** lines 1035-1041 *)
Definition unused_terminals (g : grammar) : list string :=
  flat_map (fun sv => match snd sv with [] => if String.eqb (fst sv) "error" then [] else [fst sv] | _ => [] end) (g_terminals g).
(** lines 1050-1056 *)
Definition unused_rules (g : grammar) : list string :=
  flat_map (fun sv => match snd sv with [] => [fst sv] | _ => [] end) (g_nonterminals g).
(** lines 1067-1073 *)
Definition unused_precedence (g : grammar) : list string :=
  filter (fun t => negb (sin t (skeys (g_terminals g)) || sin t (g_used g))) (skeys (g_precedence g)).

(** ** Sets of items, lines 709-719, 1214-1240 and 1350-1437 *)

(** [LRItem]: the rule, the symbols with the dot among them, the place of the dot *)
Record lritem := mkItem { i_of : production; i_prod : list string; i_index : nat }.
Definition lr_item (p : production) (n : nat) : lritem :=
  mkItem p (firstn n (pr_prod p) ++ "." :: skipn n (pr_prod p)) n.
Definition i_name (i : lritem) : string := pr_name (i_of i).
Definition i_len (i : lritem) : nat := List.length (i_prod i).
(** the symbol after the dot *)
Definition i_after (i : lritem) : option string := nth_error (i_prod i) (S (i_index i)).
(** [lr_next] and [lr_before] (lines 1219-1239) *)
Definition lr_next (i : lritem) : option lritem :=
  if Nat.leb (S (i_index i)) (List.length (pr_prod (i_of i))) then Some (lr_item (i_of i) (S (i_index i))) else None.
Definition lr_before (i : lritem) : option string := nth_error (i_prod i) (i_index i - 1).
(** items are compared as objects: there is one for each rule and place of the dot *)
Definition item_eqb (a b : lritem) : bool :=
  Nat.eqb (pr_number (i_of a)) (pr_number (i_of b)) && Nat.eqb (i_index a) (i_index b).
Fixpoint items_eqb (a b : list lritem) : bool :=
  match a, b with
  | [], [] => true
  | x :: a', y :: b' => item_eqb x y && items_eqb a' b'
  | _, _ => false
  end.

Section tables.
  Variable g : grammar.

  (** [lr0_closure], lines 1350-1367: the loop also goes over what it appends; [added] are
      the rules marked in this call *)
  Fixpoint close (fuel : nat) (todo : list lritem) (added : list nat) : res (list lritem) :=
    match fuel, todo with
    | _, [] => Ok []
    | O, _ => Err Unmodelled
    | S f, j :: todo' =>
        let new := match i_after j with
                   | Some s => filter (fun p => negb (existsb (Nat.eqb (pr_number p)) added)) (prodnames g s)
                   | None => []
                   end in
        r <- close f (todo' ++ map (fun p => lr_item p 0) new) (map pr_number new ++ added) ;; Ok (j :: r)
    end.
  Definition lr0_closure (I : list lritem) : res (list lritem) :=
    close (List.length I + List.length (g_productions g)) I [].

  (** the items of [lr0_goto] before they are closed, lines 1390-1399.  A set is found
      again by the sequence of these items (lines 1385-1404). *)
  Definition kernel (I : list lritem) (x : string) : list lritem :=
    flat_map (fun p => match lr_next p with
                       | Some n => match lr_before n with
                                   | Some b => if String.eqb b x then [n] else []
                                   | None => []
                                   end
                       | None => []
                       end) I.

  (** A set of items with its number (its place in the list [C]), the items it was closed
      from, and where [lr0_goto] leads from it. *)
  Record itemset := mkSet { s_kernel : list lritem; s_items : list lritem; s_goto : list (string * Z) }.

  Fixpoint set_number (k : list lritem) (ks : list (list lritem)) (n : Z) : option Z :=
    match ks with
    | [] => None
    | k' :: ks' => if items_eqb k k' then Some n else set_number k ks' (n + 1)%Z
    end.

  (** lines 1425-1428 *)
  Definition asyms (I : list lritem) : list string :=
    fold_left (fun d i => fold_left add_new (usyms (i_of i)) d) I [].

  (** lines 1430-1435: where the symbols lead, and the sets known afterwards *)
  Fixpoint find_gotos (I : list lritem) (xs : list string) (ks : list (list lritem)) : list (string * Z) * list (list lritem) :=
    match xs with
    | [] => ([], ks)
    | x :: xs' =>
        match kernel I x with
        | [] => find_gotos I xs' ks
        | k => let '(n, ks1) := match set_number k ks 0%Z with
                                | Some n => (n, ks)
                                | None => (Z.of_nat (List.length ks), ks ++ [k])
                                end in
               let '(d, ks2) := find_gotos I xs' ks1 in ((x, n) :: d, ks2)
        end
    end.

  (** [lr0_items], lines 1411-1437 *)
  Fixpoint explore_sets (fuel i : nat) (ks : list (list lritem)) : res (list itemset) :=
    match nth_error ks i with
    | None => Ok []
    | Some k =>
        match fuel with
        | O => Err Unmodelled
        | S f =>
            I <- lr0_closure k ;;
            let '(d, ks') := find_gotos I (asyms I) ks in
            r <- explore_sets f (S i) ks' ;; Ok (mkSet k I d :: r)
        end
    end.

  (** ** Lookaheads, lines 1467-1738 *)

  Definition terminal (s : string) : bool := sin s (skeys (g_terminals g)).
  Definition nonterminal (s : string) : bool := sin s (skeys (g_nonterminals g)).

  (** lines 1467-1483 *)
  Definition nullable_pass (l : list string) : list string :=
    fold_left (fun d p => if forallb (fun t => sin t d) (pr_prod p) then add_new d (pr_name p) else d) (tl (g_productions g)) l.
  Fixpoint nullable_names (fuel : nat) (l : list string) : res (list string) :=
    match fuel with
    | O => Err Unmodelled
    | S f => let l' := nullable_pass l in
             if Nat.eqb (List.length l') (List.length l) then Ok l' else nullable_names f l'
    end.

  (** a transition: the number of a state and a name *)
  Definition trans := (Z * string)%type.
  Definition trans_eqb (a b : trans) : bool := Z.eqb (fst a) (fst b) && String.eqb (snd a) (snd b).
  Definition tin (t : trans) (l : list trans) : bool := existsb (trans_eqb t) l.

  Section sets.
    Variable C : list itemset.
    Variable nullable : list string.

    Definition set_at (n : Z) : res itemset :=
      if Z.ltb n 0 then Err Unmodelled else match nth_error C (Z.to_nat n) with Some s => Ok s | None => Err IndexErr end.

    (** [lr0_goto] and [lr0_cidhash.get(id(g), -1)] *)
    Definition goto_number (n : Z) (x : string) : res Z :=
      s <- set_at n ;; Ok (match sget x (s_goto s) with Some j => j | None => (-1)%Z end).

    (** lines 1496-1505 *)
    Fixpoint transitions (n : Z) (l : list itemset) : list trans :=
      match l with
      | [] => []
      | s :: l' =>
          map (fun x => (n, x)) (filter nonterminal (fold_left (fun d p => match i_after p with Some a => add_new d a | None => d end) (s_items s) []))
          ++ transitions (n + 1) l'
      end.

    (** lines 1516-1532 *)
    Definition dr_relation (start : string) (t : trans) : res (list string) :=
      let '(state, N) := t in
      j <- goto_number state N ;; s <- set_at j ;;
      let terms := fold_left (fun d p => match i_after p with Some a => if terminal a then add_new d a else d | None => d end) (s_items s) [] in
      Ok (if Z.eqb state 0 && String.eqb N start then terms ++ ["$end"] else terms).

    (** lines 1540-1553 *)
    Definition reads_relation (t : trans) : res (list trans) :=
      let '(state, N) := t in
      j <- goto_number state N ;; s <- set_at j ;;
      Ok (flat_map (fun p => match i_after p with Some a => if sin a nullable then [(j, a)] else [] | None => [] end) (s_items s)).

    (** lines 1603-1627: from the dot to the end of the rule; the state where this ends and
        the transitions on which the rest of the rule may be empty *)
    Fixpoint follow_rule (ts : list trans) (j : Z) (rest : list string) : res (Z * list trans) :=
      match rest with
      | [] => Ok (j, [])
      | t :: rest' =>
          let inc := if tin (j, t) ts && forallb (fun x => negb (terminal x) && sin x nullable) rest' then [(j, t)] else [] in
          k <- goto_number j t ;;
          '(e, incs) <- follow_rule ts k rest' ;; Ok (e, inc ++ incs)
      end.

    (** lines 1635-1642 *)
    Fixpoint prefix_eqb (n : nat) (a b : list string) : bool :=
      match n, a, b with
      | O, _, _ => true
      | S n', x :: a', y :: b' => String.eqb x y && prefix_eqb n' a' b'
      | _, _, _ => false
      end.
    Definition completes (p r : lritem) : bool :=
      String.eqb (i_name r) (i_name p) && Nat.eqb (i_len r) (i_len p) && prefix_eqb (i_index r) (i_prod r) (tl (i_prod p)).

    (** lines 1593-1647 for one transition *)
    Definition lookback_includes (ts : list trans) (t : trans) : res (list (Z * lritem) * list trans) :=
      let '(state, N) := t in
      s <- set_at state ;;
      foldM (fun '(lookb, includes) p =>
        if negb (String.eqb (i_name p) N) then Ok (lookb, includes)
        else
          '(j, inc) <- follow_rule ts state (skipn (S (i_index p)) (i_prod p)) ;;
          sj <- set_at j ;;
          Ok (lookb ++ map (fun r => (j, r)) (filter (completes p) (s_items sj)), includes ++ inc))
        ([], []) (s_items s).

    Definition included_in (d : list (trans * list trans)) (i by_ : trans) : list (trans * list trans) :=
      dset trans_eqb i (match dget trans_eqb i d with Some l => l | None => [] end ++ [by_]) d.

    (** lines 1583-1649 *)
    Definition compute_lookback_includes (ts : list trans) : res (list (trans * list (Z * lritem)) * list (trans * list trans)) :=
      foldM (fun '(lookd, incd) t =>
        '(lookb, includes) <- lookback_includes ts t ;;
        Ok (lookd ++ [(t, lookb)], fold_left (fun d i => included_in d i t) includes incd)) ([], []) ts.
  End sets.

  (** [digraph] and [traverse], lines 1266-1298.  The values of [F] are list objects, which
      several transitions can share; [heap] holds them.  MAXINT is [None]. *)
  Record digraph_state := mkD {
    d_stack : list trans; d_N : list (trans * option nat); d_F : list (trans * nat); d_heap : list (list string) }.

  Definition obj (h : list (list string)) (i : nat) : list string := nth i h [].
  Fixpoint put (h : list (list string)) (i : nat) (l : list string) : list (list string) :=
    match h, i with
    | [], _ => []
    | _ :: h', O => l :: h'
    | x :: h', S i' => x :: put h' i' l
    end.

  (** [min(N[x], N[y])] *)
  Definition min_n (a b : option nat) : option nat :=
    match a, b with
    | Some x, Some y => Some (Nat.min x y)
    | Some x, None => Some x
    | None, y => y
    end.

  (** lines 1292-1298 *)
  Fixpoint pop_until (x : trans) (fx : nat) (stack : list trans) (N : list (trans * option nat)) (F : list (trans * nat)) :=
    match stack with
    | [] => None
    | e :: stack' =>
        let N' := dset trans_eqb e None N in
        let F' := dset trans_eqb e fx F in
        if trans_eqb e x then Some (stack', N', F') else pop_until x fx stack' N' F'
    end.

  Section digraph.
    Variable R : trans -> res (list trans).
    (** the list object that FP gives, and the heap with it *)
    Variable FP : list (list string) -> trans -> res (nat * list (list string)).

    Fixpoint traverse (fuel : nat) (x : trans) (s : digraph_state) : res digraph_state :=
      match fuel with
      | O => Err Unmodelled
      | S f =>
          let stack := x :: d_stack s in
          let d := List.length stack in
          '(fx, h) <- FP (d_heap s) x ;;
          rel <- R x ;;
          s1 <- foldM (fun s y =>
                  s <- match dget trans_eqb y (d_N s) with
                       | None => Err KeyErr
                       | Some (Some O) => traverse f y s
                       | Some _ => Ok s
                       end ;;
                  match dget trans_eqb x (d_N s), dget trans_eqb y (d_N s), dget trans_eqb x (d_F s) with
                  | Some nx, Some ny, Some ox =>
                      let fy := match dget trans_eqb y (d_F s) with Some oy => obj (d_heap s) oy | None => [] end in
                      Ok (mkD (d_stack s) (dset trans_eqb x (min_n nx ny) (d_N s)) (d_F s)
                            (put (d_heap s) ox (fold_left add_new fy (obj (d_heap s) ox))))
                  | _, _, _ => Err KeyErr
                  end)
                (mkD stack (dset trans_eqb x (Some d) (d_N s)) (dset trans_eqb x fx (d_F s)) h) rel ;;
          match dget trans_eqb x (d_N s1), dget trans_eqb x (d_F s1) with
          | Some (Some n), Some ox =>
              if Nat.eqb n d then
                match pop_until x ox (d_stack s1) (d_N s1) (d_F s1) with
                | Some (st, N, F) => Ok (mkD st N F (d_heap s1))
                | None => Err IndexErr
                end
              else Ok s1
          | Some None, Some _ => Ok s1
          | _, _ => Err KeyErr
          end
      end.

    Definition digraph (X : list trans) (h : list (list string)) : res (list (trans * nat) * list (list string)) :=
      s <- foldM (fun s x => match dget trans_eqb x (d_N s) with
                             | Some (Some O) => traverse (S (List.length X)) x s
                             | Some _ => Ok s
                             | None => Err KeyErr
                             end)
             (mkD [] (fold_left (fun N x => dset trans_eqb x (Some O) N) X []) [] h) X ;;
      Ok (d_F s, d_heap s).
  End digraph.

  (** lines 1703-1712: [p.lookaheads[state]], by states and then by items *)
  Definition la_table := list (Z * list (lritem * list string)).
  Definition add_lookahead (f : list string) (d : la_table) (sp : Z * lritem) : la_table :=
    let '(state, p) := sp in
    let row := match dget Z.eqb state d with Some r => r | None => [] end in
    let old := match dget item_eqb p row with Some l => l | None => [] end in
    dset Z.eqb state (dset item_eqb p (fold_left add_new f old) row) d.

  (** [add_lalr_lookaheads], lines 1663-1689 and 1721-1738 *)
  Definition lalr_lookaheads (start : string) (C : list itemset) : res la_table :=
    nullable <- nullable_names (S (List.length (g_nonterminals g))) [] ;;
    let ts := transitions 0 C in
    '(readsets, h) <- digraph (reads_relation C nullable)
                        (fun h x => l <- dr_relation C start x ;; Ok (List.length h, h ++ [l])) ts [] ;;
    '(lookd, included) <- compute_lookback_includes C nullable ts ;;
    '(followsets, h) <- digraph (fun x => Ok (match dget trans_eqb x included with Some l => l | None => [] end))
                          (fun h x => match dget trans_eqb x readsets with Some o => Ok (o, h) | None => Err KeyErr end) ts h ;;
    Ok (fold_left (fun d tl_ =>
          let f := match dget trans_eqb (fst tl_) followsets with Some o => obj h o | None => [] end in
          fold_left (add_lookahead f) (snd tl_) d) lookd []).

  (** ** The tables, [lr_parse_table] lines 1745-1923 *)

  (** An entry of [st_action] (the value [None] stands for an error that the precedence
      rules ask for) and the rule of [st_actionp]. *)
  Definition action_row := list (string * (option Z * production)).

  Definition prec_of (a : string) : string * nat :=
    match sget a (g_precedence g) with Some p => p | None => ("right", 0) end.

  (** lines 1784-1836, for one lookahead *)
  Definition reduce_entry (p : production) (row : action_row) (a : string) : res action_row :=
    let number := (- Z.of_nat (pr_number p))%Z in
    match sget a row with
    | Some (Some r, _) =>
        if Z.ltb 0 r then
          let '(_, slevel) := prec_of a in
          let '(rprec, rlevel) := pr_prec p in
          if Nat.ltb slevel rlevel || (Nat.eqb slevel rlevel && String.eqb rprec "left") then Ok (sset a (Some number, p) row)
          else if Nat.eqb slevel rlevel && String.eqb rprec "nonassoc" then Ok (sset a (None, p) row)
          else Ok row
        else if Z.ltb r 0 then
          match nth_error (g_productions g) (Z.to_nat (- r)) with
          | Some oldp => Ok (if Nat.ltb (pr_line p) (pr_line oldp) then sset a (Some number, p) row else row)
          | None => Err IndexErr
          end
        else Err AssertErr
    | _ => Ok (sset a (Some number, p) row)
    end.

  (** lines 1846-1884 *)
  Definition shift_entry (p : production) (j : Z) (row : action_row) (a : string) : res action_row :=
    match sget a row with
    | Some (Some r, q) =>
        if Z.ltb 0 r then (if Z.eqb r j then Ok row else Err AssertErr)
        else if Z.ltb r 0 then
          let '(_, slevel) := prec_of a in
          let '(rprec, rlevel) := pr_prec q in
          if Nat.ltb rlevel slevel || (Nat.eqb slevel rlevel && String.eqb rprec "right") then Ok (sset a (Some j, p) row)
          else if Nat.eqb slevel rlevel && String.eqb rprec "nonassoc" then Ok (sset a (None, p) row)
          else Ok row
        else Err AssertErr
    | _ => Ok (sset a (Some j, p) row)
    end.

  (** lines 1775-1884 *)
  Definition at_end (i : lritem) : bool := Nat.eqb (i_len i) (S (i_index i)).
  Definition action_of (la : la_table) (st : Z) (s : itemset) : res action_row :=
    foldM (fun row p =>
      if at_end p then
        if String.eqb (i_name p) augmented then Ok (sset "$end" (Some 0%Z, i_of p) row)
        else
          match dget Z.eqb st la with
          | Some laheads => match dget item_eqb p laheads with
                            | Some l => foldM (reduce_entry (i_of p)) row l
                            | None => Err KeyErr
                            end
          | None => Err KeyErr
          end
      else
        match i_after p with
        | Some a =>
            if terminal a then
              match sget a (s_goto s) with
              | Some j => shift_entry (i_of p) j row a
              | None => Ok row
              end
            else Ok row
        | None => Err IndexErr
        end) [] (s_items s).

  (** lines 1908-1918 *)
  Definition goto_of (s : itemset) : list (string * Z) :=
    flat_map (fun n => match sget n (s_goto s) with Some j => [(n, j)] | None => [] end) (filter nonterminal (asyms (s_items s))).

  Record lr_table := mkTable { lr_action : list (list (string * option Z)); lr_goto : list (list (string * Z)) }.

  Fixpoint action_rows (la : la_table) (st : Z) (C : list itemset) : res (list (list (string * option Z))) :=
    match C with
    | [] => Ok []
    | s :: C' => row <- action_of la st s ;; r <- action_rows la (st + 1)%Z C' ;; Ok (map (fun x => (fst x, fst (snd x))) row :: r)
    end.

  (** the bound on the number of sets *)
  Definition many_sets : nat := 1000.

  Definition lr_parse_table (start : string) : res lr_table :=
    C <- explore_sets many_sets 0 [[lr_item (rule_zero start) 0]] ;;
    la <- lalr_lookaheads start C ;;
    rows <- action_rows la 0%Z C ;;
    Ok (mkTable rows (map goto_of C)).
End tables.

(** ** [yacc], lines 2271-2482 *)

(** What is printed to stderr without debug=True, and what is raised *)
Record reports := mkReports { r_unused_tokens : list string; r_unused_rules : list string; r_unreachable : list string }.

(** The grammar, or [None] for a YaccError *)
Definition yacc_grammar (tokens : list string) (prec : list (string * list string)) (fs : list (nat * string * string)) (start : string)
  : option (grammar * reports) :=
  match get_grammar fs with
  | None => None
  | Some rules =>
      let g0 := fold_left set_precedence (preclist 0 prec) (new_grammar (sorted_names tokens)) in
      match add_productions g0 rules with
      | None => None
      | Some g1 =>
          match set_start g1 start with
          | None => None
          | Some g =>
              match undefined_symbols g, infinite_cycles g, unused_precedence g with
              | [], [], [] => Some (g, mkReports (unused_terminals g) (unused_rules g) (find_unreachable g start))
              | _, _, _ => None
              end
          end
      end
  end.

(** The rules and the tables that the parser gets *)
Definition yacc_tables (tokens : list string) (prec : list (string * list string)) (fs : list (nat * string * string)) (start : string)
  : option (list production * lr_table) :=
  match yacc_grammar tokens prec fs start with
  | None => None
  | Some (g, _) => match lr_parse_table g start with Ok t => Some (g_productions g, t) | Err _ => None end
  end.

(** the parser of the module: [build_lex_yacc], myparser.py lines 627-630 *)
Definition build_parser : option (list production * lr_table) :=
  yacc_tables token_names prec_table p_functions start_name.
