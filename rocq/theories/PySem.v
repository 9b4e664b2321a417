(** What running a Python program of PySpec.v does: a reference semantics of the
    part of the language that generated programs use, over any runtime.

    Written from the language reference (sections 4.2, 6, 7, 8); the section of
    the reference is given in brackets.  Outside it, [Unmodelled]: functions defined
    inside functions, calling or combining functions as if they were values, and
    dictionaries except for a dictionary that one name stands for: it can be made,
    copied, read and changed by a key that is a string, and be the last argument of a
    function, which cannot change it but only a copy of it.  So there are no two ways
    to a dictionary that is changed, and dictionaries are values here. *)
From Coq Require Import String Ascii List ZArith Bool.
From Verif Require Import PyBase LexModel ParseModel SynSpec PySpec Runtime.
Import ListNotations.
Open Scope string_scope.
Open Scope list_scope.
Open Scope run_scope.

(** ** Numbers [2.4.5, 2.4.6] *)

(** The parts before and after the first point. *)
Fixpoint at_point (s : string) : option (string * string) :=
  match s with
  | EmptyString => None
  | String c r =>
      if Ascii.eqb c "." then Some ("", r)
      else option_map (fun ab => (String c (fst ab), snd ab)) (at_point r)
  end.

(** [x['k']] as the text of an expression: the name and the key.  Used for the
    expressions in formatted strings. *)
Fixpoint at_bracket (s : string) : option (string * string) :=
  match s with
  | EmptyString => None
  | String c r =>
      if Ascii.eqb c "[" then Some ("", r)
      else option_map (fun ab => (String c (fst ab), snd ab)) (at_bracket r)
  end.
Fixpoint before_close (s : string) : option string :=
  match s with
  | EmptyString => None
  | String c r => if String.eqb s "']" then Some "" else option_map (String c) (before_close r)
  end.
Definition subscript_text (s : string) : option (string * string) :=
  match at_bracket s with
  | Some (x, String c r) =>
      if Ascii.eqb c "'" then option_map (pair x) (before_close r) else None
  | _ => None
  end.

(** ** Operators *)

Definition binary_operator (s : string) : option binop :=
  match s with
  | "+" => Some OAdd | "-" => Some OSub | "*" => Some OMul | "//" => Some ODiv
  | "**" => Some OPow | "@" => Some OAt | "&" => Some OAnd | "|" => Some OOr
  | _ => None
  end.
Definition comparison_operator (s : string) : option binop :=
  match s with
  | "<" => Some OLt | ">" => Some OGt | "==" => Some OEq | "!=" => Some ONe
  | "<=" => Some OLe | ">=" => Some OGe
  | _ => None
  end.
Definition unary_operator (s : string) : option unop :=
  match s with "+" => Some UPos | "-" => Some UNeg | "~" => Some UNot | _ => None end.

(** ** The things that names stand for *)

(** Objects of the library: helpers, the markers of parameter types, library
    functions, the builtin [len]; [GOther] is anything else. *)
Inductive glob : Set :=
| GRoll | GSeq | GRange | GSet | GOutput | GCasting | GLen
| GKind (k : kind) | GMy (m : myfn) | GLib (f : libfn) | GOther.

(** Builtins of Python 3.9 with a name of lower-case letters. *)
Definition builtin_names : list string :=
  ["abs"; "all"; "any"; "ascii"; "bin"; "bool"; "breakpoint"; "bytearray"; "bytes"; "callable"; "chr";
   "classmethod"; "compile"; "complex"; "copyright"; "credits"; "delattr"; "dict"; "dir"; "divmod";
   "enumerate"; "eval"; "exec"; "exit"; "filter"; "float"; "format"; "frozenset"; "getattr"; "globals";
   "hasattr"; "hash"; "help"; "hex"; "id"; "input"; "int"; "isinstance"; "issubclass"; "iter"; "len";
   "license"; "list"; "locals"; "map"; "max"; "memoryview"; "min"; "next"; "object"; "oct"; "open"; "ord";
   "pow"; "print"; "property"; "quit"; "range"; "repr"; "reversed"; "round"; "set"; "setattr"; "slice";
   "sorted"; "staticmethod"; "str"; "sum"; "super"; "tuple"; "type"; "vars"; "zip"].
Definition builtin (x : string) : option glob :=
  if String.eqb x "len" then Some GLen
  else if existsb (String.eqb x) builtin_names then Some GOther else None.

(** A function: the marked types of its parameters, their names, the names
    that are local to it, and its body. *)
Record pyfun : Set := mkPyFun {
  pf_kinds : list (option kind); pf_params : list string; pf_locals : list string; pf_body : list pstmt }.

(** Names bound in a block: assigned to, or the variable of a loop [4.2.1]. *)
Fixpoint bound_names (s : pstmt) : list string :=
  match s with
  | PAssign (PName x) _ => [x]
  | PFor x _ body => x :: flat_map bound_names body
  | PIf _ body els =>
      flat_map bound_names body ++ match els with Some b => flat_map bound_names b | None => [] end
  | PDef _ f _ _ => [f]
  | _ => []
  end.

Fixpoint assoc {A : Type} (x : string) (l : list (string * A)) : option A :=
  match l with
  | [] => None
  | (y, a) :: l' => if String.eqb x y then Some a else assoc x l'
  end.

Section semantics.
  Context {V W : Type} (rt : runtime V W).

  Inductive pyval : Type :=
  | PyObj (v : V)
  | PyLib (g : glob)
  | PyFun (f : pyfun)
  | PyDecorator                  (* anydice_casting() *)
  | PyDict (mine : bool) (d : list (string * V))    (* mine: made here, not an argument *)
  | PyCopy (d : list (string * V)).                 (* the method [copy] of a dictionary *)

  Definition env : Type := list (string * pyval).

  (** Where a statement runs: in the module, or in a function with its own names [4.2.2]. *)
  Inductive scope : Type :=
  | InModule (globals : env)
  | InFunction (globals : env) (names : list string) (own : env).

  Definition globals_of (sc : scope) : env :=
    match sc with InModule g | InFunction g _ _ => g end.

  Definition find_global (x : string) (g : env) : res pyval :=
    match assoc x g with
    | Some v => Ok v
    | None => match builtin x with Some b => Ok (PyLib b) | None => Err NameErr end
    end.
  (** A local name without a value is an error (UnboundLocalError, a NameError). *)
  Definition find (x : string) (sc : scope) : res pyval :=
    match sc with
    | InModule g => find_global x g
    | InFunction g names own =>
        if existsb (String.eqb x) names
        then match assoc x own with Some v => Ok v | None => Err NameErr end
        else find_global x g
    end.
  Definition bind_name (x : string) (v : pyval) (sc : scope) : scope :=
    match sc with
    | InModule g => InModule ((x, v) :: g)
    | InFunction g names own => InFunction g names ((x, v) :: own)
    end.

  Definition value (v : pyval) : M W V :=
    match v with PyObj o => ret o | _ => raise Unmodelled end.
  Definition values : list pyval -> M W (list V) := each value.

  (** ** Calls [6.3.4] *)

  (** The functions of the library as they are called: roller.py 11, 130;
      factory.py 14; settings.py 19; decorators.py 16; the recorder that replaces
      [output], parse_and_exec.py 136; utils.py 33-64; funclib.py.  Python checks
      the number of arguments; numbers that do not occur are left out. *)
  Definition call_lib (g : glob) (pos : list V) (named : list (string * V)) : M W pyval :=
    match g, pos, named with
    | GRoll, [n], [] => r <== rt_roll rt n None ;; ret (PyObj r)
    | GRoll, [n; d], [] => r <== rt_roll rt n (Some d) ;; ret (PyObj r)
    | GSeq, [l], [] => r <== rt_seq rt l ;; ret (PyObj r)
    | GRange, [a; b], [] => r <== rt_range rt a b ;; ret (PyObj r)
    | GSet, [n; v], [] => r <== rt_set rt n v ;; ret (PyObj r)
    | GOutput, [v], [] => r <== rt_output rt v None ;; ret (PyObj r)
    | GOutput, [v], [("named", t)] => r <== rt_output rt v (Some t) ;; ret (PyObj r)
    | GCasting, [], [] => ret PyDecorator
    | GLen, [v], [] => r <== rt_len rt v ;; ret (PyObj r)
    | GMy m, l, [] => r <== rt_my rt m l ;; ret (PyObj r)
    | GLib f, l, [] => r <== rt_lib rt f l ;; ret (PyObj r)
    | _, _, _ => raise Unmodelled
    end.

  Fixpoint named_args (l : list (option string * pyval)) : M W (list V * list (string * V)) :=
    match l with
    | [] => ret ([], [])
    | (k, v) :: l' =>
        o <== value v ;;
        '(ps, ns) <== named_args l' ;;
        ret (match k with None => (o :: ps, ns) | Some s => (ps, (s, o) :: ns) end)
    end.

  (** How functions of the program are called, perhaps with a dictionary as the last
      argument: see [call_fun]. *)
  Variable callf : env -> pyfun -> list V -> option (list (string * V)) -> M W V.

  (** A dictionary as the last argument. *)
  Fixpoint split_dict (l : list (option string * pyval))
    : list (option string * pyval) * option (list (string * V)) :=
    match l with
    | [] => ([], None)
    | [(None, PyDict _ d)] => ([], Some d)
    | a :: l' => let '(l2, d) := split_dict l' in (a :: l2, d)
    end.

  (** A dictionary beyond the parameters of a function of the library is not looked at
      by its decorator (decorators.py 49-53), nor by the function: funclib.py collects
      it in [*args], utils.py 63 does not take it.  [None] stands for it. *)
  Definition apply (sc : scope) (f : pyval) (l : list (option string * pyval)) : M W pyval :=
    let '(l, d) := split_dict l in
    '(pos, named) <== named_args l ;;
    match f, named, d with
    | PyLib g, _, None => call_lib g pos named
    | PyLib (GLib f), [], Some _ => r <== rt_lib rt f (pos ++ [rt_none rt]) ;; ret (PyObj r)
    | PyFun f, [], _ => r <== callf (globals_of sc) f pos d ;; ret (PyObj r)
    | PyObj _, _, _ => raise TypeErr            (* no value is callable *)
    | PyCopy d, [], None => match pos with [] => ret (PyDict true d) | _ => raise TypeErr end
    | _, _, _ => raise Unmodelled
    end.

  (** ** Expressions *)

  Definition number (s : string) : res V :=
    match at_point s with
    | None => Ok (rt_int rt (decimal_value s))
    | Some (a, b) => rt_float rt (decimal_value (a ++ b)) (String.length b)
    end.

  Definition operation (o : option binop) (a b : pyval) : M W pyval :=
    match o with
    | Some o => x <== value a ;; y <== value b ;; r <== rt_op rt o x y ;; ret (PyObj r)
    | None => raise Unmodelled
    end.

  (** A subscription [6.3.2].  A key without a value is a KeyError, which is not told
      apart from the error of a name without a value here. *)
  Definition entry (v : pyval) (k : string) : M W pyval :=
    match v with
    | PyDict _ d => match assoc k d with Some o => ret (PyObj o) | None => raise NameErr end
    | _ => raise Unmodelled
    end.

  (** The pieces of a formatted string, from left to right [2.4.3]; the expressions
      in it are names, or names with a subscript. *)
  Definition field (sc : scope) (s : string) : M W pyval :=
    match subscript_text s with
    | Some (x, k) => v <== lift (find x sc) ;; entry v k
    | None => lift (find s sc)
    end.
  Fixpoint format_pieces (sc : scope) (ps : list piece) : M W string :=
    match ps with
    | [] => ret ""
    | Lit c :: ps' => s <== format_pieces sc ps' ;; ret (String c s)
    | Field x :: ps' =>
        v <== field sc x ;; o <== value v ;; t <== rt_str rt o ;;
        s <== format_pieces sc ps' ;; ret (t ++ s)%string
    end.

  Fixpoint eval (sc : scope) (e : pexpr) : M W pyval :=
    match e with
    | PName x => lift (find x sc)
    | PNumber s => v <== lift (number s) ;; ret (PyObj v)
    | PFormat ps => s <== format_pieces sc ps ;; ret (PyObj (rt_text rt s))
    | PString s => ret (PyObj (rt_text rt s))
    | PCall f es =>
        g <== eval sc f ;;
        l <== (fix args (l : list (option string * pexpr)) : M W (list (option string * pyval)) :=
                 match l with
                 | [] => ret []
                 | (k, e) :: l' => v <== eval sc e ;; vs <== args l' ;; ret ((k, v) :: vs)
                 end) es ;;
        apply sc g l
    | PList es =>
        l <== (fix items (l : list pexpr) : M W (list pyval) :=
                 match l with
                 | [] => ret []
                 | e :: l' => v <== eval sc e ;; vs <== items l' ;; ret (v :: vs)
                 end) es ;;
        vs <== values l ;; ret (PyObj (rt_list rt vs))
    | PUnary o e =>
        v <== eval sc e ;;
        match unary_operator o with
        | Some u => x <== value v ;; r <== rt_un rt u x ;; ret (PyObj r)
        | None => raise Unmodelled
        end
    | PBinary o l r => a <== eval sc l ;; b <== eval sc r ;; operation (binary_operator o) a b
    | PCompare e rest =>                     (* a < b < c is a < b and b < c [6.10] *)
        a <== eval sc e ;;
        (fix chain (a : pyval) (rest : list (string * pexpr)) : M W pyval :=
           match rest with
           | [] => ret a
           | (o, e) :: rest' =>
               b <== eval sc e ;;
               r <== operation (comparison_operator o) a b ;;
               match rest' with
               | [] => ret r
               | _ => o <== value r ;; t <== rt_truth rt o ;; if t : bool then chain b rest' else ret r
               end
           end) a rest
    | PDict => ret (PyDict true [])
    | PIndex e (PString k) => v <== eval sc e ;; entry v k
    | PAttr e a =>
        v <== eval sc e ;;
        match v with
        | PyDict _ d => if String.eqb a "copy" then ret (PyCopy d) else raise Unmodelled
        | _ => raise Unmodelled
        end
    | PIndex _ _ => raise Unmodelled
    end.

  Definition eval_value (sc : scope) (e : pexpr) : M W V := v <== eval sc e ;; value v.

  (** ** Statements *)

  (** How a statement ends. *)
  Inductive flow : Type := Next (sc : scope) | Return (v : V).

  (** The marked type of a parameter [8.6]: its annotation is evaluated when the
      function is defined. *)
  Fixpoint eval_kinds (sc : scope) (ps : list (string * option pexpr)) : M W (list (option kind)) :=
    match ps with
    | [] => ret []
    | (_, a) :: ps' =>
        k <== match a with
              | None => ret None
              | Some e => v <== eval sc e ;;
                          match v with PyLib (GKind k) => ret (Some k) | _ => raise Unmodelled end
              end ;;
        ks <== eval_kinds sc ps' ;; ret (k :: ks)
    end.

  (** A second name for a dictionary. *)
  Definition shared (e : pexpr) (v : pyval) : bool :=
    match v, e with PyDict _ _, PName _ => true | _, _ => false end.

  (** [x[k] = o], for a dictionary made where the statement runs [7.2]. *)
  Definition set_entry (x k : string) (o : V) (sc : scope) : M W scope :=
    match sc with
    | InModule own | InFunction _ _ own =>
        match assoc x own with
        | Some (PyDict true d) => ret (bind_name x (PyDict true ((k, o) :: d)) sc)
        | _ => raise Unmodelled
        end
    end.

  Fixpoint exec (s : pstmt) (sc : scope) : M W flow :=
    let block := fix block (l : list pstmt) (sc : scope) : M W flow :=
      match l with
      | [] => ret (Next sc)
      | s :: l' =>
          r <== exec s sc ;;
          match r with Next sc' => block l' sc' | Return v => ret (Return v) end
      end in
    match s with
    | PExpr e => v <== eval sc e ;; ret (Next sc)
    | PAssign (PName x) e =>
        v <== eval sc e ;; if shared e v then raise Unmodelled else ret (Next (bind_name x v sc))
    | PAssign (PIndex (PName x) (PString k)) e =>
        o <== eval_value sc e ;; sc' <== set_entry x k o sc ;; ret (Next sc')
    | PAssign _ _ => raise Unmodelled
    | PReturn e => v <== eval_value sc e ;; ret (Return v)
    | PPass => ret (Next sc)
    | PFor x e body =>
        v <== eval_value sc e ;;
        l <== rt_iter rt v ;;
        (fix loop (l : list V) (sc : scope) : M W flow :=
           match l with
           | [] => ret (Next sc)
           | o :: l' =>
               r <== block body (bind_name x (PyObj o) sc) ;;
               match r with Next sc' => loop l' sc' | Return v => ret (Return v) end
           end) l sc
    | PIf c body els =>
        v <== eval_value sc c ;;
        t <== rt_truth rt v ;;
        if t : bool then block body sc
        else match els with Some b => block b sc | None => ret (Next sc) end
    | PDef d f ps body =>
        match sc with
        | InFunction _ _ _ => raise Unmodelled
        | InModule _ =>
            dec <== eval sc d ;;
            ks <== eval_kinds sc ps ;;
            match dec with
            | PyDecorator =>
                ret (Next (bind_name f (PyFun (mkPyFun ks (map fst ps)
                             (map fst ps ++ flat_map bound_names body) body)) sc))
            | _ => raise Unmodelled
            end
        end
    end.
  Fixpoint exec_block (l : list pstmt) (sc : scope) : M W flow :=
    match l with
    | [] => ret (Next sc)
    | s :: l' =>
        r <== exec s sc ;;
        match r with Next sc' => exec_block l' sc' | Return v => ret (Return v) end
    end.

  (** The body of a function: its parameters get the arguments, the last one perhaps a
      dictionary, and it returns None unless something else is returned [7.6]. *)
  Fixpoint bind_params (ps : list string) (l : list V) (d : option (list (string * V))) : option env :=
    match ps, l with
    | p :: ps', v :: l' => option_map (cons (p, PyObj v)) (bind_params ps' l' d)
    | _, [] =>
        match d, ps with
        | None, [] => Some []
        | Some d, [p] => Some [(p, PyDict false d)]
        | _, _ => None
        end
    | _, _ => None
    end.
  Definition run_body (g : env) (f : pyfun) (d : option (list (string * V))) (l : list V) : M W V :=
    match bind_params (pf_params f) l d with
    | None => raise TypeErr
    | Some own =>
        r <== exec_block (pf_body f) (InFunction g (pf_locals f) own) ;;
        ret (match r with Return v => v | Next _ => rt_none rt end)
    end.
End semantics.
Arguments PyObj {V} v.
Arguments PyLib {V} g.
Arguments PyFun {V} f.
Arguments PyDecorator {V}.
Arguments PyDict {V} mine d.
Arguments PyCopy {V} d.
Arguments InModule {V} globals.
Arguments InFunction {V} globals names own.
Arguments Next {V} sc.
Arguments Return {V} v.

(** A call of a decorated function; at most [fuel] calls are inside each other.  The
    decorator hands on a dictionary that is the argument of a last parameter without
    type (decorators.py 48-53). *)
Fixpoint call_fun {V W : Type} (rt : runtime V W) (fuel : nat) (g : env) (f : pyfun) (l : list V)
    (d : option (list (string * V))) : M W V :=
  match fuel with
  | O => fun _ => None
  | S n =>
      match d, last (pf_kinds f) None, Nat.eqb (S (List.length l)) (List.length (pf_kinds f)) with
      | None, _, _ => rt_call rt (pf_kinds f) (run_body rt (call_fun rt n) g f None) l
      | Some _, None, true => rt_call rt (removelast (pf_kinds f)) (run_body rt (call_fun rt n) g f d) l
      | Some _, _, _ => raise Unmodelled
      end
  end.

(** A program, run in a module with the given names; there is no [return] outside
    functions. *)
Definition run_module {V W : Type} (rt : runtime V W) (fuel : nat) (g : env) (p : list pstmt) : M W unit :=
  r <== exec_block rt (call_fun rt fuel) p (InModule g) ;; ret Datatypes.tt.
