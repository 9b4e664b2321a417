(** C93: how texts are cut into tokens by the patterns written in the code. *)
From Coq Require Import String List Arith.
From Verif Require Import PyBase LexModel LexSpec ReSem ReportModel PlyLexModel PlySpec PlyLexFacts PrintSpec ReNumber.
Import ListNotations.
Open Scope string_scope.

(** The definitions of the module pass the checks, and a lexer is built. *)
Theorem C93_built : exists T, build_lexer = Some T.
Proof. exists the_tables. exact built. Qed.
Print Assumptions C93_built.

(** It hands out the tokens of the text (those that C65, C66 and C84 speak about), with
    line and position, and records what C92 says. *)
Theorem C93_first : forall T src ps e, build_lexer = Some T -> lex src = (ps, e) ->
  read_tokens T src new_lexer =
  Ok (map ply_token (tokens_at 0 1 ps), mkLexer src (String.length src) (state_name e) (1 + all_counted ps) (lex_report src)).
Proof.
  intros T src ps e B E. rewrite built in B. injection B as <-. pose proof (first_reading src) as H. rewrite E in H. exact H.
Qed.
Print Assumptions C93_first.

(** The parser reads an accepted text again, with the lexer as it was left, and gets the
    tokens at the same positions. *)
Theorem C93_again : forall T src ts l, build_lexer = Some T -> lex_ok src = true ->
  read_tokens T src new_lexer = Ok (ts, l) ->
  exists l', read_tokens T src l = Ok (map ply_token (placed_tokens src), l') /\
    lx_illegal l' = [] /\ lx_state l' = "INITIAL".
Proof.
  intros T src ts l B OK R. rewrite built in B. injection B as <-. pose proof (first_reading src) as H. unfold lex_ok in OK.
  destruct (lex src) as [ps e] eqn:E. destruct (illegals_of ps) eqn:N; [|discriminate OK]. destruct e; [|discriminate OK].
  assert (NR : lex_report src = []).
  { apply reports_nothing with (1 := E); exact N. }
  rewrite H, NR in R. injection R as <- <-. eexists. split; [exact (second_reading src ps E N _ eq_refl)|]. now split.
Qed.
Print Assumptions C93_again.

(** Whatever is handed out stands in the text, at its position, and is a token of the kind
    that its name says. *)
Theorem C93_stands : forall T src ts l, build_lexer = Some T -> read_tokens T src new_lexer = Ok (ts, l) ->
  Forall (fun t => exists k, type_name k = t_type t /\ token_text k (t_value t) /\
                             take (String.length (t_value t)) (drop (t_lexpos t) src) = t_value t) ts.
Proof. intros T src ts l B. rewrite built in B. injection B as <-. exact (all_stand src ts l). Qed.
Print Assumptions C93_stands.

(** Names of kinds are not shared. *)
Theorem C93_names : forall a b, type_name a = type_name b -> a = b.
Proof. intros [] []; (reflexivity || discriminate). Qed.
Print Assumptions C93_names.

Example C93_example : exists T l, build_lexer = Some T /\
  read_tokens T ("if X {" ++ String cNL "A: ""[X] ~") new_lexer =
  Ok ([mkTok "IF" "if" 1 0; mkTok "UPPERNAME" "X" 1 3; mkTok "LBRACE" "{" 1 5; mkTok "UPPERNAME" "A" 2 7; mkTok "COLON" ":" 2 8;
       mkTok "INSTRING_VAR" "[X]" 2 11; mkTok "INSTRING_ANY" " ~" 2 14], l) /\
  lx_illegal l = [mkEntry "Non-closed string" 16 2 10].
Proof. eexists. eexists. split; [exact built|]. split; [vm_compute; reflexivity|reflexivity]. Qed.

(** C88: the pattern for labels that read as numbers. *)
Theorem C88_pattern : exists r, re_compile false "^-?\d+(\.\d+)?$" = Some (r, []) /\
  forall s, (exists m, re_match r s 0 = Some m) <-> number_text s.
Proof. exists number_re. split; [exact number_compiled|exact number_found]. Qed.
Print Assumptions C88_pattern.
