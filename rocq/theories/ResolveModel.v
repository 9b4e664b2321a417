(** The code generator: src/parser/python_resolver.py, and compile_anydice of
    src/parser/parse_and_exec.py (lines 77-85). *)
From Coq Require Import String Ascii Bool List Arith DecimalString.
From Verif Require Import PyBase LexModel GramModel ParseModel.
Import ListNotations.
Open Scope list_scope.
Open Scope string_scope.
Open Scope py_scope.

(** ** Python string operations *)

Definition join (sep : string) (l : list string) : string := String.concat sep l.

Definition nl : string := String cNL "".
Definition quote : string := String cQUOTE "".

(** [s.replace(c, c + c)] for a single character. *)
Fixpoint double_char (c : ascii) (s : string) : string :=
  match s with
  | EmptyString => EmptyString
  | String d s' =>
      if Ascii.eqb c d then String d (String d (double_char c s'))
      else String d (double_char c s')
  end.

(** [s.split('\n')]: never empty. *)
Fixpoint split_lines (s : string) : list string :=
  match s with
  | EmptyString => [EmptyString]
  | String c s' =>
      if Ascii.eqb c cNL then EmptyString :: split_lines s'
      else match split_lines s' with
           | l :: ls => String c l :: ls
           | [] => [String c EmptyString]
           end
  end.

(** Characters removed by [str.strip()] among the code points 0-255. *)
Definition is_space (c : ascii) : bool :=
  let n := nat_of_ascii c in
  between 9 13 c || between 28 32 c || Nat.eqb n 133 || Nat.eqb n 160.

(** [s.strip() == '']. *)
Fixpoint is_blank (s : string) : bool :=
  match s with
  | EmptyString => true
  | String c s' => is_space c && is_blank s'
  end.

(** The text after the first ": ", up to the next one: [s.split(': ')[1]]. *)
Fixpoint cut_at (s : string) : string :=
  match s with
  | EmptyString => EmptyString
  | String c s' =>
      match s' with
      | String d _ => if Ascii.eqb c ":" && Ascii.eqb d " " then EmptyString else String c (cut_at s')
      | EmptyString => String c EmptyString
      end
  end.

Fixpoint after_colon (s : string) : option string :=
  match s with
  | EmptyString => None
  | String c s' =>
      match s' with
      | String d s'' => if Ascii.eqb c ":" && Ascii.eqb d " " then Some (cut_at s'') else after_colon s'
      | EmptyString => None
      end
  end.

Definition show (n : nat) : string := NilZero.string_of_uint (Nat.to_uint n).

(** ** Compiler flags and state, lines 10-56 *)

(** Lines 34-40. *)
Record flags := mkFlags {
  fl_vars : bool;      (* COMPILER_FLAG_NON_LOCAL_SCOPE *)
  fl_oplib : bool;     (* COMPILER_FLAG_OPERATOR_ON_INT *)
  fl_prefix : bool;    (* COMPILER_FLAG_FUNC_LIB_CONFLICT *)
  fl_check : bool      (* COMPILER_FLAG_FUNC_EXIST_CHECK *)
}.

Definition default_flags : flags := mkFlags false false false true.

(** CONST['function library'], line 17. *)
Definition library : list string :=
  ["absolute_X"; "X_contains_X"; "count_X_in_X"; "explode_X"; "highest_X_of_X"; "lowest_X_of_X";
   "middle_X_of_X"; "highest_of_X_and_X"; "lowest_of_X_and_X"; "maximum_of_X"; "reverse_X";
   "sort_X"; "true_div_X_X"].

(** _FUNCS_MAY_COLLIDE, line 20. *)
Definition may_collide : list string :=
  ["output"; "roll"; "myrange"; "max_func_depth"; "anydice_casting"; "settings_set"].

(** Lines 51-56: _defined_functions, _called_functions and _output_counter.  The set of
    defined functions is a list; _user__defined_functions is only used in
    messages and left out. *)
Record rstate := mkR { r_defined : list string; r_called : list string; r_outputs : nat }.

Definition reset_state : rstate := mkR library [] 0.

Definition M (A : Type) : Type := rstate -> res (A * rstate).
Definition ret {A} (a : A) : M A := fun s => Ok (a, s).
Definition fail {A} (e : pyerr) : M A := fun _ => Err e.
Definition bindM {A B} (m : M A) (f : A -> M B) : M B :=
  fun s => match m s with Ok (a, s') => f a s' | Err e => Err e end.
Notation "x <~ e ;; f" := (bindM e (fun x => f)) (at level 61, e at next level, right associativity).

Definition define (f : string) : M unit := fun s => Ok (Datatypes.tt, mkR (f :: r_defined s) (r_called s) (r_outputs s)).
Definition call (f : string) : M unit := fun s => Ok (Datatypes.tt, mkR (r_defined s) (f :: r_called s) (r_outputs s)).
Definition count_output : M unit := fun s => Ok (Datatypes.tt, mkR (r_defined s) (r_called s) (S (r_outputs s))).

Section mapS.
  Context {A B : Type} (f : A -> M B).
  Fixpoint mapS (l : list A) : M (list B) :=
    match l with
    | [] => ret []
    | x :: l' => y <~ f x ;; ys <~ mapS l' ;; ret (y :: ys)
    end.
End mapS.

(** ** Helpers *)

(** [_indent_str], lines 95-97, with INDENT_LEVEL = 2. *)
Definition indent_str (s : string) : string :=
  join nl (map (fun x => "  " ++ x) (split_lines s)).

(** [has_dups], lines 285-286. *)
Fixpoint has_dups (l : list string) : bool :=
  match l with
  | [] => false
  | x :: l' => existsb (String.eqb x) l' || has_dups l'
  end.

Definition count_str (x : string) (l : list string) : nat :=
  length (filter (String.eqb x) l).

Fixpoint set_nth {A} (i : nat) (x : A) (l : list A) : list A :=
  match l, i with
  | [], _ => []
  | _ :: l', O => x :: l'
  | y :: l', S i' => y :: set_nth i' x l'
  end.

(** [fix_dups_in_args], lines 289-295: the loop from [i = n - 1] down to 0. *)
Fixpoint fix_dups (n : nat) (args names : list string) : res (list string * list string) :=
  match n with
  | O => Ok (args, names)
  | S i =>
      let x := nth i names "" in
      if Nat.ltb 1 (count_str x names) then
        match after_colon (nth i args "") with
        | None => Err IndexErr
        | Some ty =>
            let d := "dummy" ++ show i in
            fix_dups i (set_nth i (d ++ ": " ++ ty) args) (set_nth i d names)
        end
      else fix_dups i args names
  end.

(** Line 169. *)
Definition dtype (s : string) : string :=
  if String.eqb s "s" then "T_S" else if String.eqb s "n" then "T_N"
  else if String.eqb s "d" then "T_D" else s.

(** One element of a function header, lines 157-172: the part of the name, and
    for a parameter its text and its name. *)
Definition header_part (x : string + node) : res (string * option (string * string)) :=
  match x with
  | inl w => Ok (w, None)
  | inr (Node PARAM [inl a]) => Ok ("X", Some (a, a))
  | inr (Node PARAM_WITH_DTYPE [inl a; inl d]) => Ok ("X", Some (a ++ ": " ++ dtype d, a))
  | _ => Err AssertErr
  end.

Definition opt_list {A} (o : option A) : list A := match o with Some a => [a] | None => [] end.

(** The name, the argument texts and the argument names of a header, lines
    154-177; the extra argument [vars] (line 176) is added by [resolve_node]. *)
Definition header (fl : flags) (xs : list (string + node))
  : res (string * list string * list string) :=
  ps <- mapM header_part xs ;;
  let words := ((if fl_prefix fl then ["f"] else []) ++ map fst ps)%list in
  let args := flat_map (fun p => map fst (opt_list (snd p))) ps in
  let names := flat_map (fun p => map snd (opt_list (snd p))) ps in
  '(args', names') <- (if has_dups names then fix_dups (length args) args names else Ok (args, names)) ;;
  Ok (join "_" words, args', names').

(** The Python operator of an operator of the source, line 229. *)
Definition py_op (op : string) : string :=
  if String.eqb op "=" then "==" else if String.eqb op "^" then "**"
  else if String.eqb op "/" then "//" else op.

(** ** [resolve_node], lines 99-282

    A node whose number of children does not fit is an error here as there; the
    parser builds none.  A variable position (lines 211, 222, 223, 250) holding
    a node instead of a string would be formatted by Python; it is [Unmodelled]. *)

Section resolve.
  Variable fl : flags.

  Definition as_str (x : string + node) : M string :=
    match x with inl s => ret s | inr _ => fail Unmodelled end.

  Fixpoint resolve_node (n : node) : M string :=
    (* a string where a node is expected: line 101 *)
    let sub (x : string + node) : M string :=
      match x with inl _ => fail AssertErr | inr m => resolve_node m end in
    let 'Node ty vals := n in
    match ty with
    | MULTILINE_CODE =>
        match vals with
        | [] => ret "pass"
        | _ => ls <~ mapS sub vals ;; ret (join nl ls)
        end
    | STRING =>
        ls <~ mapS (fun x => match x with
                             | inl s => ret (double_char "}" (double_char "{" s))
                             | inr m => resolve_node m
                             end) vals ;;
        ret ("f" ++ quote ++ join "" ls ++ quote)
    | STRVAR =>
        match vals with
        | [inl v] => if fl_vars fl then ret ("{vars['" ++ v ++ "']}") else ret ("{" ++ v ++ "}")
        | _ => fail AssertErr
        end
    | NUMBER =>
        match vals with [inl v] => ret v | _ => fail AssertErr end
    | NUMBER_DECIMAL =>
        match vals with
        | [inl a; inl b] => ret (a ++ "." ++ b)
        | [_; _] => fail AssertErr
        | _ => fail ValueErr
        end
    | VAR =>
        match vals with
        | [inl v] => if fl_vars fl then ret ("vars['" ++ v ++ "']") else ret v
        | _ => fail AssertErr
        end
    | GROUP =>
        match vals with
        | [x] => e <~ sub x ;; ret ("(" ++ e ++ ")")
        | _ => fail AssertErr
        end
    | OUTPUT =>
        match vals with
        | [x] => _ <~ count_output ;; e <~ sub x ;; ret ("output(" ++ e ++ ")")
        | _ => fail AssertErr
        end
    | OUTPUT_NAMED =>
        match vals with
        | [x; y] =>
            _ <~ count_output ;; e <~ sub x ;; s <~ sub y ;;
            ret ("output(" ++ e ++ ", named=" ++ s ++ ")")
        | _ => fail ValueErr
        end
    | SET =>
        match vals with
        | [x; y] => a <~ sub x ;; b <~ sub y ;; ret ("settings_set(" ++ a ++ ", " ++ b ++ ")")
        | _ => fail ValueErr
        end
    | FUNCTION =>
        match vals with
        | [inr (Node FUNCNAME_DEF hs); code] =>
            match header fl hs with
            | Err e => fail e
            | Ok (name, args, names) =>
                let args' := if fl_vars fl then (args ++ ["vars"])%list else args in
                _ <~ define name ;;
                body <~ sub code ;;
                let pre := if fl_vars fl then
                    indent_str ("vars = vars.copy(); " ++
                      join "; " (map (fun m => "vars[" ++ quote ++ m ++ quote ++ "] = " ++ m) names))
                    ++ nl
                  else "" in
                ret ("@anydice_casting()" ++ nl ++ "def " ++ name ++ "(" ++ join ", " args' ++ "):" ++ nl
                     ++ pre ++ indent_str body ++ nl)
            end
        | [_; _] => fail AssertErr
        | _ => fail ValueErr
        end
    | RESULT =>
        match vals with
        | [x] => e <~ sub x ;; ret ("return " ++ e)
        | _ => fail AssertErr
        end
    | IF_ELIF_ELSE =>
        ls <~ mapS (fun b =>
          match b with
          | inr (Node IF [c; code]) =>
              e <~ sub c ;; s <~ sub code ;; ret ("if " ++ e ++ ":" ++ nl ++ indent_str s)
          | inr (Node ELSEIF [c; code]) =>
              e <~ sub c ;; s <~ sub code ;; ret ("elif " ++ e ++ ":" ++ nl ++ indent_str s)
          | inr (Node ELSE [code]) =>
              s <~ sub code ;; ret ("else:" ++ nl ++ indent_str s)
          | _ => fail AssertErr
          end) vals ;;
        ret (join nl ls ++ nl)
    | LOOP =>
        match vals with
        | [v; over; code] =>
            x <~ as_str v ;; o <~ sub over ;; s <~ sub code ;;
            ret ("for " ++ x ++ " in " ++ o ++ ":" ++ nl ++
                 (if fl_vars fl then indent_str ("vars['" ++ x ++ "'] = " ++ x) ++ nl else "")
                 ++ indent_str s ++ nl)
        | _ => fail ValueErr
        end
    | VAR_ASSIGN =>
        match vals with
        | [v; e] =>
            x <~ as_str v ;; s <~ sub e ;;
            if fl_vars fl then ret ("vars['" ++ x ++ "'] = " ++ s) else ret (x ++ " = " ++ s)
        | _ => fail ValueErr
        end
    | EXPR_OP =>
        match vals with
        | [inl op0; l; r] =>
            let op := py_op op0 in
            if String.eqb op "dm" then (a <~ sub l ;; ret ("roll(" ++ a ++ ")"))
            else if String.eqb op "ndm" then
              (a <~ sub l ;; b <~ sub r ;; ret ("roll(" ++ a ++ ", " ++ b ++ ")"))
            else if String.eqb op "@" then
              (a <~ sub l ;; b <~ sub r ;;
               if fl_oplib fl then ret ("myMatmul(" ++ a ++ ", " ++ b ++ ")")
               else ret ("(" ++ a ++ " " ++ op ++ " " ++ b ++ ")"))
            else if String.eqb op "&" then
              (a <~ sub l ;; b <~ sub r ;;
               if fl_oplib fl then ret ("myAnd(" ++ a ++ ", " ++ b ++ ")")
               else ret (a ++ " " ++ op ++ " " ++ b))
            else if String.eqb op "|" then
              (a <~ sub l ;; b <~ sub r ;;
               if fl_oplib fl then ret ("myOr(" ++ a ++ ", " ++ b ++ ")")
               else ret (a ++ " " ++ op ++ " " ++ b))
            else (a <~ sub l ;; b <~ sub r ;; ret (a ++ " " ++ op ++ " " ++ b))
        | [_; _; _] => fail AssertErr
        | _ => fail ValueErr
        end
    | UNARY =>
        match vals with
        | [o; x] =>
            op <~ as_str o ;; e <~ sub x ;;
            if String.eqb op "!" then
              (if fl_oplib fl then ret ("myInvert(" ++ e ++ ")") else ret ("~" ++ e))
            else ret (op ++ e)
        | _ => fail ValueErr
        end
    | HASH =>
        match vals with
        | [x] =>
            e <~ sub x ;;
            if fl_oplib fl then ret ("myLen(" ++ e ++ ")") else ret ("len(" ++ e ++ ")")
        | _ => fail AssertErr
        end
    | SEQ => ls <~ mapS sub vals ;; ret ("get_seq([" ++ join ", " ls ++ "])")
    | RANGE =>
        match vals with
        | [x; y] => a <~ sub x ;; b <~ sub y ;; ret ("myrange(" ++ a ++ ", " ++ b ++ ")")
        | _ => fail ValueErr
        end
    | CALL =>
        ps <~ mapS (fun x =>
          match x with
          | inr (Node CALL_EXPR [y]) => e <~ sub y ;; ret ("X", [e])
          | inr (Node CALL_EXPR _) => fail AssertErr
          | inl w => ret (w, [])
          | inr _ => fail AssertErr
          end) vals ;;
        let name := join "_" ((if fl_prefix fl then ["f"] else []) ++ map fst ps)%list in
        let args := (List.concat (map snd ps) ++ (if fl_vars fl then ["vars"] else []))%list in
        _ <~ call name ;;
        ret (name ++ "(" ++ join ", " args ++ ")")
    | SINGLE_CODE | IF | ELSE | ELSEIF | FUNCNAME_DEF | PARAM | PARAM_WITH_DTYPE | CALL_EXPR =>
        fail AssertErr
    end.
End resolve.

(** ** [resolve], lines 64-85 *)

(** Lines 82-85. *)
Fixpoint drop_blank_after (prev : string) (l : list string) : list string :=
  match l with
  | [] => []
  | x :: l' =>
      if negb (is_blank x) || negb (is_blank prev) then x :: drop_blank_after x l'
      else drop_blank_after x l'
  end.

Definition squeeze (s : string) : string :=
  match split_lines s with
  | [] => ""
  | x :: l => join nl (x :: drop_blank_after x l)
  end.

Definition str_mem (x : string) (l : list string) : bool := existsb (String.eqb x) l.

(** One pass, lines 65-73: the text, unless a call is undefined or there is no output. *)
Definition resolve_pass (fl : flags) (root : node) : res (string * rstate) :=
  '(s, st) <- resolve_node fl root reset_state ;;
  let text := (if fl_vars fl then "vars = {}" ++ nl ++ nl else "") ++ s ++ nl in
  if fl_check fl && negb (forallb (fun f => str_mem f (r_defined st)) (r_called st)) then Err AssertErr
  else if Nat.eqb (r_outputs st) 0 then Err AssertErr
  else Ok (text, st).

(** Line 75. *)
Definition collides (st : rstate) : bool := existsb (fun f => str_mem f (r_defined st)) may_collide.

(** Lines 64-85; the call of itself at line 79 happens at most once. *)
Definition resolve (fl : flags) (root : node) : res string :=
  '(text, st) <- resolve_pass fl root ;;
  if collides st then
    if fl_prefix fl then Err AssertErr
    else
      ('(text', st') <- resolve_pass (mkFlags (fl_vars fl) (fl_oplib fl) true (fl_check fl)) root ;;
       if collides st' then Err AssertErr else Ok (squeeze text'))
  else Ok (squeeze text).

(** [compile_anydice], parse_and_exec.py lines 77-85. *)
Definition compile (fl : flags) (src : string) : res string :=
  if is_blank src then Err AssertErr
  else match scan src with
       | None => Err AssertErr
       | Some ts =>
           v <- parse ts ;;
           match v with
           | VNode n => resolve fl n
           | _ => Err AssertErr
           end
       end.
