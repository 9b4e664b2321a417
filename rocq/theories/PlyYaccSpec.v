(** The names that the grammar in myparser.py uses. *)
From Coq Require Import String List Arith ZArith.
From Verif Require Import LexModel GramModel ParseModel ReportModel PlyLexModel PlySpec PlyYaccModel.
Import ListNotations.
Open Scope string_scope.

Definition nt_name (n : nt) : string :=
  match n with
  | nStart => "S'" | nMulti => "multiline_code" | nEmpty => "empty" | nSingle => "single_code" | nIf => "if_expr"
  | nElse => "else_expr" | nElif => "elseif_expr" | nVar => "var_name" | nString => "string" | nFuncname => "funcname_def"
  | nExpr => "expression" | nTerm => "term" | nElements => "elements" | nElement => "element" | nRange => "range"
  | nCall => "call_elements"
  end.

Definition sym_name (s : sym) : string := match s with T t => type_name t | N n => nt_name n end.

Definition function_name (f : pfun) : option string :=
  match f with
  | f_start => None
  | f_multiline_code => Some "p_multiline_code" | f_multiline_code_empty => Some "p_multiline_code_empty"
  | f_empty => Some "p_empty" | f_single_code => Some "p_single_code"
  | f_single_code_if_elseif_else => Some "p_single_code_if_elseif_else" | f_if => Some "p_if" | f_else => Some "p_else"
  | f_elif => Some "p_elif" | f_var_assign => Some "p_var_assign" | f_var_name => Some "p_var_name"
  | f_string_instring => Some "p_string_instring" | f_strvar_instring => Some "p_strvar_instring"
  | f_funcname_def => Some "p_funcname_def" | f_funcname_def_impossibletocall => Some "p_funcname_def_impossibletocall"
  | f_funcname_def_param => Some "p_funcname_def_param" | f_expression_binop => Some "p_expression_binop"
  | f_expression_dop => Some "p_expression_dop" | f_expression_comparison => Some "p_expression_comparison"
  | f_expression_term => Some "p_expression_term" | f_term_unary => Some "p_term_unary" | f_term_hash => Some "p_term_hash"
  | f_term_grouped => Some "p_term_grouped" | f_term_number => Some "p_term_number"
  | f_term_number_decimal => Some "p_term_number_decimal" | f_term_name => Some "p_term_name" | f_term_seq => Some "p_term_seq"
  | f_elements => Some "p_elements" | f_element => Some "p_element" | f_range => Some "p_range"
  | f_str_element => Some "p_str_element" | f_term_call => Some "p_term_call" | f_call_elements => Some "p_call_elements"
  | f_call_elements_expr => Some "p_call_elements_expr"
  end.

Definition side_name (a : assoc) : string := match a with Left => "left" | Right => "right" end.

(** a rule of GramModel.v as ply holds it *)
Definition as_production (np : nat * prod) : production :=
  let '(n, p) := np in
  let '(a, level) := prod_prec p in
  mkProduction n (nt_name (p_lhs p)) (map sym_name (p_rhs p)) (side_name a, level) (function_name (p_fun p)) (p_line p).

(** an action of GramModel.v as ply writes it, with other numbers for the states *)
Definition action_number (number : nat -> Z) (a : act) : Z :=
  match a with Shift j => number j | Reduce p => (- Z.of_nat p)%Z | Accept => 0%Z end.

(** the entry for a symbol in the row of a state *)
Definition table_entry {A} (rows : list (list (string * A))) (state : Z) (s : string) : option A :=
  match nth_error rows (Z.to_nat state) with Some row => sget s row | None => None end.
