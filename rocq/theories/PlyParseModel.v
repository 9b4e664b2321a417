(** The parsing loop of ply/yacc.py (lines 227-581) with the tables that the generator
    builds (PlyYaccModel.v), and the compiler that reads with the lexer and the parser of
    ply.

    Simplifications: the parser does not change the lexer, so that its tokens are given as
    a list; no grammar function raises SyntaxError (lines 416-426, 454-463 are left out),
    none calls [errok]; [tracking] and [debug] are off. *)
From Coq Require Import String Ascii Bool List Arith ZArith.
From Verif Require Import PyBase LexModel GramModel ParseModel ResolveModel ReportModel PlyLexModel PlyYaccModel.
Import ListNotations.
Open Scope string_scope.
Open Scope list_scope.

(** [bind_callables] (lines 1344-1346) and [bind] (lines 681-683): the functions of
    myparser.py (ParseModel.v) by their names *)
Definition callables : list (string * pfun) :=
  [("p_multiline_code", f_multiline_code); ("p_multiline_code_empty", f_multiline_code_empty); ("p_empty", f_empty);
   ("p_single_code", f_single_code); ("p_single_code_if_elseif_else", f_single_code_if_elseif_else); ("p_if", f_if);
   ("p_else", f_else); ("p_elif", f_elif); ("p_var_assign", f_var_assign); ("p_var_name", f_var_name);
   ("p_string_instring", f_string_instring); ("p_strvar_instring", f_strvar_instring); ("p_funcname_def", f_funcname_def);
   ("p_funcname_def_impossibletocall", f_funcname_def_impossibletocall); ("p_funcname_def_param", f_funcname_def_param);
   ("p_expression_binop", f_expression_binop); ("p_expression_dop", f_expression_dop);
   ("p_expression_comparison", f_expression_comparison); ("p_expression_term", f_expression_term);
   ("p_term_unary", f_term_unary); ("p_term_hash", f_term_hash); ("p_term_grouped", f_term_grouped);
   ("p_term_number", f_term_number); ("p_term_number_decimal", f_term_number_decimal); ("p_term_name", f_term_name);
   ("p_term_seq", f_term_seq); ("p_elements", f_elements); ("p_element", f_element); ("p_range", f_range);
   ("p_str_element", f_str_element); ("p_term_call", f_term_call); ("p_call_elements", f_call_elements);
   ("p_call_elements_expr", f_call_elements_expr)].

(** Objects on the stack of symbols: the end mark, tokens, the symbols of rules with their
    values, and the symbol for an error, whose value is the token where it happened. *)
Inductive ysym := YEnd | YTok (t : ltoken) | YName (n : string) (v : sval) | YError (t : ltoken).

Definition sym_type (s : ysym) : string :=
  match s with YEnd => "$end" | YTok t => t_type t | YName n _ => n | YError _ => "error" end.

(** [.value] *)
Definition sym_value (s : ysym) : res sval :=
  match s with
  | YEnd => Err AttrErr
  | YTok t => Ok (VStr (t_value t))
  | YName _ v => Ok v
  | YError _ => Err Unmodelled
  end.

(** The local variables of [parse] and the attributes it changes; tops of stacks first.
    [e_illegals] is YACC_ILLEGALs without the columns. *)
Record engine := mkE {
  e_lookahead : option ysym; e_pushed : list ysym; e_states : list Z; e_state : Z; e_syms : list ysym;
  e_count : nat; e_errorok : bool; e_input : list ltoken; e_illegals : list ltoken }.

Inductive pturned :=
| PGo (e : engine)
| PReturn (v : sval) (illegals : list ltoken)     (** [VNone] for None *)
| PRaise (x : pyerr).

Section parser.
  Variable prods : list production.
  Variable T : lr_table.

  (** [set_defaulted_states], lines 255-260 *)
  Definition defaulted (row : list (string * option Z)) : option Z :=
    match row with
    | [(_, Some r)] => if Z.ltb r 0 then Some r else None
    | _ => None
    end.

  Definition row_of {A} (l : list A) (st : Z) : option A := if Z.ltb st 0 then None else nth_error l (Z.to_nat st).

  (** lines 327-341: the engine with its lookahead, and [t] *)
  Definition look (e : engine) : res (engine * option Z) :=
    match row_of (lr_action T) (e_state e) with
    | None => Err KeyErr
    | Some row =>
        match defaulted row with
        | Some r => Ok (e, Some r)
        | None =>
            let '(l, pushed, input) :=
              match e_lookahead e with
              | Some l => (l, e_pushed e, e_input e)
              | None =>
                  match e_pushed e, e_input e with
                  | l :: p, i => (l, p, i)
                  | [], t :: i => (YTok t, [], i)
                  | [], [] => (YEnd, [], [])
                  end
              end in
            Ok (mkE (Some l) pushed (e_states e) (e_state e) (e_syms e) (e_count e) (e_errorok e) input (e_illegals e),
                match sget (sym_type l) row with Some r => r | None => None end)
        end
    end.

  (** lines 352-364 *)
  Definition shift (t : Z) (e : engine) : pturned :=
    match e_lookahead e with
    | Some l => PGo (mkE None (e_pushed e) (t :: e_states e) t (l :: e_syms e) (e_count e - 1) (e_errorok e) (e_input e) (e_illegals e))
    | None => PRaise Unmodelled
    end.

  (** lines 368-465 *)
  Definition reduce (t : Z) (e : engine) : pturned :=
    match nth_error prods (Z.to_nat (- t)) with
    | None => PRaise IndexErr
    | Some p =>
        let plen := List.length (pr_prod p) in
        if Nat.ltb (List.length (e_syms e)) (S plen) || Nat.ltb (List.length (e_states e)) (S plen) then PRaise Unmodelled
        else
          match mapM sym_value (rev (firstn plen (e_syms e))) with
          | Err x => PRaise x
          | Ok vs =>
              match pr_func p with
              | None => PRaise TypeErr
              | Some f =>
                  match sget f callables with
                  | None => PRaise KeyErr
                  | Some fn =>
                      match semact fn vs with
                      | Err x => PRaise x
                      | Ok v =>
                          let states := skipn plen (e_states e) in
                          match states with
                          | [] => PRaise IndexErr
                          | below :: _ =>
                              match row_of (lr_goto T) below with
                              | None => PRaise KeyErr
                              | Some row =>
                                  match sget (pr_name p) row with
                                  | None => PRaise KeyErr
                                  | Some s =>
                                      PGo (mkE (e_lookahead e) (e_pushed e) (s :: states) s
                                             (YName (pr_name p) v :: skipn plen (e_syms e)) (e_count e) (e_errorok e) (e_input e) (e_illegals e))
                                  end
                              end
                          end
                      end
                  end
              end
          end
    end.

  (** lines 467-475 *)
  Definition accept (e : engine) : pturned :=
    match e_syms e with
    | [] => PRaise IndexErr
    | YEnd :: _ => PReturn VNone (e_illegals e)
    | s :: _ => match sym_value s with Ok v => PReturn v (e_illegals e) | Err x => PRaise x end
    end.

  (** lines 493-578, with [p_error] (myparser.py lines 617-622) *)
  Definition error_turn (e : engine) : pturned :=
    match e_lookahead e with
    | None => PRaise Unmodelled
    | Some l =>
        let report := Nat.eqb (e_count e) 0 || e_errorok e in
        let illegals :=
          if report then match l with
                         | YTok t => Ok (e_illegals e ++ [t])
                         | YEnd => Ok (e_illegals e)
                         | _ => Err Unmodelled
                         end
          else Ok (e_illegals e) in
        match illegals with
        | Err x => PRaise x
        | Ok ill =>
            let ok := if report then false else e_errorok e in
            if Nat.leb (List.length (e_states e)) 1 && negb (String.eqb (sym_type l) "$end") then
              PGo (mkE None [] (e_states e) 0 (e_syms e) error_count ok (e_input e) ill)
            else if String.eqb (sym_type l) "$end" then PReturn VNone ill
            else if negb (String.eqb (sym_type l) "error") then
              match e_syms e with
              | [] => PRaise IndexErr
              | s :: _ =>
                  if String.eqb (sym_type s) "error" then
                    PGo (mkE None (e_pushed e) (e_states e) (e_state e) (e_syms e) error_count ok (e_input e) ill)
                  else
                    match l with
                    | YTok t => PGo (mkE (Some (YError t)) (l :: e_pushed e) (e_states e) (e_state e) (e_syms e) error_count ok (e_input e) ill)
                    | _ => PRaise Unmodelled
                    end
              end
            else
              match e_syms e, e_states e with
              | _ :: syms, _ :: (s :: ss) => PGo (mkE (Some l) (e_pushed e) (s :: ss) s syms error_count ok (e_input e) ill)
              | _, _ => PRaise IndexErr
              end
        end
    end.

  (** one turn of the loop, lines 319-581 *)
  Definition parse_turn (e : engine) : pturned :=
    match look e with
    | Err x => PRaise x
    | Ok (e1, Some t) => if Z.ltb 0 t then shift t e1 else if Z.ltb t 0 then reduce t e1 else accept e1
    | Ok (e1, None) => error_turn e1
    end.

  Inductive finishes : engine -> pturned -> Prop :=
  | finishes_now : forall e r, parse_turn e = r -> (forall e', r <> PGo e') -> finishes e r
  | finishes_later : forall e e' r, parse_turn e = PGo e' -> finishes e' r -> finishes e r.

  (** lines 278-318; [ok] is [self.errorok] when [parse] is called *)
  Definition parse_start (ok : bool) (ts : list ltoken) : engine := mkE None [] [0%Z] 0 [YEnd] 0 ok ts [].
End parser.

(** ** The compiler *)

Definition ltoken_entry (src : string) (t : ltoken) : entry :=
  mkEntry (t_value t) (t_lexpos t) (t_lineno t) (find_column src (t_lexpos t)).

(** [compile_anydice], parse_and_exec.py lines 77-85: a lexer and a parser are built for
    each text; the lexer reads it once for illegal characters and again for the parser. *)
Inductive compiles_with (fl : flags) (src : string) : compiled -> Prop :=
| with_blank : is_blank src = true -> compiles_with fl src Blank
| with_characters : forall L l0 ts, is_blank src = false -> build_lexer = Some L ->
    read_tokens L src new_lexer = Ok (ts, l0) -> lx_illegal l0 <> [] -> compiles_with fl src (Characters (lx_illegal l0))
| with_parser : forall L l0 l1 ts0 ts P T r c, is_blank src = false -> build_lexer = Some L ->
    read_tokens L src new_lexer = Ok (ts0, l0) -> lx_illegal l0 = [] ->
    read_tokens L src l0 = Ok (ts, l1) ->
    build_parser = Some (P, T) -> finishes P T (parse_start true ts) r ->
    c = match r with
        | PGo _ => Raised Unmodelled
        | PRaise x => Raised x
        | PReturn v ill =>
            match ill, v with
            | [], VNode n => match resolve fl n with Ok t => Text t | Err x => Raised x end
            | _, _ => Tokens (map (ltoken_entry src) ill)
            end
        end ->
    compiles_with fl src c.
