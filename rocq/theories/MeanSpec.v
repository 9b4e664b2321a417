(** What a dice program means: a semantics on the abstract syntax of SynSpec.v,
    over any runtime.  Written from the description of the language, not from the
    generated Python.

    - A variable has the value it was last given.  In a function, variables that
      are given values are its own; others are those of the program.
    - A function is known by its shape, from where it is defined; one of the
      program comes before one of the library.
    - A call without result: has the value None, which the decorator turns into a
      blank. *)
From Coq Require Import String Ascii List ZArith Bool.
From Verif Require Import PyBase LexModel ParseModel SynSpec NameSpec Runtime.
Import ListNotations.
Open Scope string_scope.
Open Scope list_scope.
Open Scope run_scope.

(** ** Functions *)

Record fdef : Set := mkDef { d_params : list (string * option ptype); d_body : list stmt }.
Inductive callee : Set := Defined (f : fdef) | Library (l : libfn).
Definition functions : Set := list (shape * callee).

Definition word_eqb (a b : option string) : bool :=
  match a, b with
  | Some s, Some t => String.eqb s t
  | None, None => true
  | _, _ => false
  end.
Fixpoint shape_eqb (s t : shape) : bool :=
  match s, t with
  | [], [] => true
  | a :: s', b :: t' => word_eqb a b && shape_eqb s' t'
  | _, _ => false
  end.

Fixpoint find_function (s : shape) (fs : functions) : res callee :=
  match fs with
  | [] => Err NameErr
  | (t, f) :: fs' => if shape_eqb s t then Ok f else find_function s fs'
  end.

(** The library, by the shapes under which it is called. *)
Definition library_functions : functions :=
  [ ([Some "absolute"; None], Library LAbsolute);
    ([None; Some "contains"; None], Library LContains);
    ([Some "count"; None; Some "in"; None], Library LCount);
    ([Some "explode"; None], Library LExplode);
    ([Some "highest"; None; Some "of"; None], Library LHighest);
    ([Some "lowest"; None; Some "of"; None], Library LLowest);
    ([Some "middle"; None; Some "of"; None], Library LMiddle);
    ([Some "highest"; Some "of"; None; Some "and"; None], Library LHighestOf);
    ([Some "lowest"; Some "of"; None; Some "and"; None], Library LLowestOf);
    ([Some "maximum"; Some "of"; None], Library LMaximum);
    ([Some "reverse"; None], Library LReverse);
    ([Some "sort"; None], Library LSort);
    ([Some "true"; Some "div"; None; None], Library LDiv) ].

(** The types of parameters. *)
Definition kind_of (ty : ptype) : res kind :=
  match ty with
  | PD | PName "d" => Ok KD
  | PName "s" => Ok KS
  | PName "n" => Ok KN
  | _ => Err NameErr
  end.
Definition kinds_of (ps : list (string * option ptype)) : res (list (option kind)) :=
  mapM (fun p => match snd p with None => Ok None | Some ty => rmap Some (kind_of ty) end) ps.

Section meaning.
  Context {V W : Type} (rt : runtime V W).
  (** Whether @ & | ! and # are the functions of utils.py, which treat numbers specially. *)
  Variable oplib : bool.

  Definition variables : Type := list (string * V).
  Fixpoint variable_in (x : string) (vs : variables) : option V :=
    match vs with
    | [] => None
    | (y, v) :: vs' => if String.eqb x y then Some v else variable_in x vs'
    end.

  (** Where a statement runs: the variables of the program, the functions, and in a
      function its own variables. *)
  Record place : Type := mkPlace { pl_globals : variables; pl_functions : functions; pl_own : option variables }.

  Definition find_variable (x : string) (pl : place) : res V :=
    let known o := match o with Some v => Ok v | None => Err NameErr end in
    match pl_own pl with
    | None => known (variable_in x (pl_globals pl))
    | Some own =>
        match variable_in x own with
        | Some v => Ok v
        | None => known (variable_in x (pl_globals pl))
        end
    end.
  Definition give (x : string) (v : V) (pl : place) : place :=
    match pl_own pl with
    | None => mkPlace ((x, v) :: pl_globals pl) (pl_functions pl) None
    | Some own => mkPlace (pl_globals pl) (pl_functions pl) (Some ((x, v) :: own))
    end.
  Definition define (s : shape) (f : fdef) (pl : place) : place :=
    mkPlace (pl_globals pl) ((s, Defined f) :: pl_functions pl) (pl_own pl).

  (** How functions of the program are called: see [call_defined]. *)
  Variable callf : variables -> functions -> fdef -> list V -> M W V.

  Definition binary (o : binop) (a b : V) : M W V :=
    match oplib, o with
    | true, OAt => rt_my rt MyAt [a; b]
    | true, OAnd => rt_my rt MyAnd [a; b]
    | true, OOr => rt_my rt MyOr [a; b]
    | _, _ => rt_op rt o a b
    end.
  Definition unary (u : unop) (a : V) : M W V :=
    match oplib, u with true, UNot => rt_my rt MyNot [a] | _, _ => rt_un rt u a end.
  Definition count (a : V) : M W V := if oplib then rt_my rt MyLen [a] else rt_len rt a.

  (** A string: its texts, and the texts of the variables in it. *)
  Fixpoint text (pl : place) (ps : list part) : M W string :=
    match ps with
    | [] => ret ""
    | (PAny s | PNonvar s) :: ps' => t <== text pl ps' ;; ret (s ++ t)%string
    | PVar x :: ps' =>
        v <== lift (find_variable x pl) ;; s <== rt_str rt v ;; t <== text pl ps' ;; ret (s ++ t)%string
    end.

  Fixpoint mean_e (pl : place) (e : expr) : M W V :=
    match e with
    | EBin o l r => a <== mean_e pl l ;; b <== mean_e pl r ;; binary o a b
    | EDice n d => a <== mean_t pl n ;; b <== mean_t pl d ;; rt_roll rt a (Some b)
    | EDie d => a <== mean_t pl d ;; rt_roll rt a None
    | ETerm t => mean_t pl t
    end
  with mean_t (pl : place) (t : term) : M W V :=
    match t with
    | TNum s => ret (rt_int rt (decimal_value s))
    | TDec a b => lift (rt_float rt (decimal_value (a ++ b)) (String.length b))
    | TVar x => lift (find_variable x pl)
    | TStr p ps => s <== text pl (p :: ps) ;; ret (rt_text rt s)
    | TSeq es =>
        l <== (fix elements (es : list element) : M W (list V) :=
                 match es with
                 | [] => ret []
                 | x :: es' => v <== mean_l pl x ;; vs <== elements es' ;; ret (v :: vs)
                 end) es ;;
        rt_seq rt (rt_list rt l)
    | TGroup e => mean_e pl e
    | TCall cs =>
        f <== lift (find_function (call_shape cs) (pl_functions pl)) ;;
        l <== (fix arguments (cs : list citem) : M W (list V) :=
                 match cs with
                 | [] => ret []
                 | c :: cs' => v <== mean_c pl c ;; vs <== arguments cs' ;; ret (v ++ vs)
                 end) cs ;;
        match f with
        | Defined d => callf (pl_globals pl) (pl_functions pl) d l
        | Library g => rt_lib rt g l
        end
    | TUn u t => a <== mean_t pl t ;; unary u a
    | THash t => a <== mean_t pl t ;; count a
    end
  with mean_l (pl : place) (x : element) : M W V :=
    match x with
    | LOne e => mean_e pl e
    | LRange a b => x <== mean_e pl a ;; y <== mean_e pl b ;; rt_range rt x y
    end
  (** A word is no argument. *)
  with mean_c (pl : place) (c : citem) : M W (list V) :=
    match c with CWord _ => ret [] | CArg e => v <== mean_e pl e ;; ret [v] end.

  (** ** Statements *)

  (** A statement ends where the next one goes on, or with a result. *)
  Inductive ending : Type := Onward (pl : place) | Result (v : V).

  Fixpoint mean_s (s : stmt) (pl : place) : M W ending :=
    let block := fix block (l : list stmt) (pl : place) : M W ending :=
      match l with
      | [] => ret (Onward pl)
      | s :: l' =>
          r <== mean_s s pl ;;
          match r with Onward pl' => block l' pl' | Result v => ret (Result v) end
      end in
    match s with
    | SOutput e => v <== mean_e pl e ;; r <== rt_output rt v None ;; ret (Onward pl)
    | SNamed e p ps =>
        v <== mean_e pl e ;; t <== text pl (p :: ps) ;;
        r <== rt_output rt v (Some (rt_text rt t)) ;; ret (Onward pl)
    | SFunction h hs body =>
        ks <== lift (kinds_of (params (h :: hs))) ;;
        ret (Onward (define (header_shape (h :: hs)) (mkDef (params (h :: hs)) body) pl))
    | SLoop x e body =>
        v <== mean_e pl e ;;
        l <== rt_iter rt v ;;
        (fix loop (l : list V) (pl : place) : M W ending :=
           match l with
           | [] => ret (Onward pl)
           | v :: l' =>
               r <== block body (give x v pl) ;;
               match r with Onward pl' => loop l' pl' | Result v => ret (Result v) end
           end) l pl
    | SResult e => v <== mean_e pl e ;; ret (Result v)
    | SSet p ps e =>
        t <== text pl (p :: ps) ;; v <== mean_e pl e ;;
        r <== rt_set rt (rt_text rt t) v ;; ret (Onward pl)
    | SAssign x e => v <== mean_e pl e ;; ret (Onward (give x v pl))
    | SIf b bs els =>
        let otherwise := fix otherwise (bs : list branch) (pl : place) : M W ending :=
          match bs with
          | [] => match els with Some body => block body pl | None => ret (Onward pl) end
          | b :: bs' =>
              r <== mean_b b pl ;;
              match r with Some end_ => ret end_ | None => otherwise bs' pl end
          end in
        r <== mean_b b pl ;;
        match r with Some end_ => ret end_ | None => otherwise bs pl end
    end
  (** A branch ends somewhere, or its condition does not hold. *)
  with mean_b (b : branch) (pl : place) : M W (option ending) :=
    match b with
    | Branch c body =>
        v <== mean_e pl c ;;
        t <== rt_truth rt v ;;
        if t : bool then
          (r <== (fix block (l : list stmt) (pl : place) : M W ending :=
                    match l with
                    | [] => ret (Onward pl)
                    | s :: l' =>
                        r <== mean_s s pl ;;
                        match r with Onward pl' => block l' pl' | Result v => ret (Result v) end
                    end) body pl ;;
           ret (Some r))
        else ret None
    end.
  Fixpoint mean_block (l : list stmt) (pl : place) : M W ending :=
    match l with
    | [] => ret (Onward pl)
    | s :: l' =>
        r <== mean_s s pl ;;
        match r with Onward pl' => mean_block l' pl' | Result v => ret (Result v) end
    end.

  (** ** Calls *)

  Fixpoint give_all (ps : list (string * option ptype)) (l : list V) : option variables :=
    match ps, l with
    | [], [] => Some []
    | p :: ps', v :: l' => option_map (cons (fst p, v)) (give_all ps' l')
    | _, _ => None
    end.
  Definition mean_body (gs : variables) (fs : functions) (f : fdef) (l : list V) : M W V :=
    match give_all (d_params f) l with
    | None => raise TypeErr
    | Some own =>
        r <== mean_block (d_body f) (mkPlace gs fs (Some own)) ;;
        ret (match r with Result v => v | Onward _ => rt_none rt end)
    end.
End meaning.
Arguments mkPlace {V} _ _ _.
Arguments pl_globals {V} _.
Arguments pl_functions {V} _.
Arguments pl_own {V} _.
Arguments Onward {V} pl.
Arguments Result {V} v.

(** A call of a function of the program: its types tell the decorator what to do with the
    arguments.  At most [fuel] calls are inside each other. *)
Fixpoint call_defined {V W : Type} (rt : runtime V W) (oplib : bool) (fuel : nat)
    (gs : variables) (fs : functions) (f : fdef) (l : list V) : M W V :=
  match fuel with
  | O => fun _ => None
  | S n =>
      ks <== lift (kinds_of (d_params f)) ;;
      rt_call rt ks (mean_body rt oplib (call_defined rt oplib n) gs fs f) l
  end.

(** A program, with or without the library. *)
Definition mean_program {V W : Type} (rt : runtime V W) (oplib lib : bool) (fuel : nat) (p : program) : M W unit :=
  r <== mean_block rt oplib (call_defined rt oplib fuel) p
          (mkPlace [] (if lib then library_functions else []) None) ;;
  ret Datatypes.tt.
