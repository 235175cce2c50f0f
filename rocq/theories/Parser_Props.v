(** C34-C36, C67: the parser. *)
From Coq Require Import Ascii String List Bool Arith ZArith.
Import ListNotations.
From Verif Require Import Base Lexer_Model Lexer_Spec Op_Model Number_Model Number_Spec Parser_Model Parser_Spec Parser_Proofs Parser_Print.

(** ** C34: precedence and associativity *)
(** Full statement: every writable expression, printed with only the parentheses the table of docs/ast.md
    requires and with any white space or comments between the tokens, is read back as the same expression.
    Missing: expressions in which a conditional is the target of an assignment, see below. *)
Theorem C34_print_parse_partial : forall num_text idx_text is_dtype e ls,
  writable num_text idx_text is_dtype e -> no_cond_target e = true ->
  map fst ls = show num_text idx_text 1 e -> spaced ls ->
  exists a, parse_expression_ast is_dtype (written_text ls) = Ret a /\ denote a = e.
Proof. exact print_parse. Qed.
Print Assumptions C34_print_parse_partial.

(** The remaining case fails always: the table puts the conditional above assignment, so [c ? a : b = r]
    should assign to the conditional, but is read as a conditional whose last branch is an assignment. *)
Theorem C34_conditional_target_refuted : forall num_text idx_text is_dtype op c a b r ls,
  In op [OP_ASSIGN; OP_PLUS_ASSIGN; OP_MINUS_ASSIGN; OP_MULTIPLY_ASSIGN; OP_DIVIDE_ASSIGN; OP_MOD_ASSIGN] ->
  Forall (writable num_text idx_text is_dtype) [c; a; b; r] -> forallb no_cond_target [c; a; b; r] = true -> 3 <= level b ->
  map fst ls = show num_text idx_text 1 (EBin op (ECond c a b) r) -> spaced ls ->
  exists x, parse_expression_ast is_dtype (written_text ls) = Ret x /\
    denote x = ECond c a (EBin op b r) /\ denote x <> EBin op (ECond c a b) r.
Proof.
  intros nt it d op c a b r ls Hop Hw Hn Hl Hls Hsp. inversion Hw as [|? ? Wc Hw1]; subst. inversion Hw1 as [|? ? Wa Hw2]; subst.
  inversion Hw2 as [|? ? Wb Hw3]; subst. inversion Hw3 as [|? ? Wr _]; subst. cbn [forallb] in Hn. rewrite !andb_true_iff in Hn. destruct Hn as (Nc & Na & Nb & Nr & _).
  destruct (cond_target nt it d op c a b r ls Hop Wc Wa Wb Wr Nc Na Nb Nr Hl Hls Hsp) as (x & Hx & E). exists x. rewrite E. split; [exact Hx|]. split; [reflexivity|discriminate].
Qed.
Print Assumptions C34_conditional_target_refuted.

(** An accepted source begins with a derivation of the grammar for the tree that is returned. *)
Theorem C34_accepts_only_grammar : forall is_dtype src a, parse_expression_ast is_dtype src = Ret a ->
  exists c rest, lex_all src = Ret (c ++ rest) /\ rest <> [] /\ G is_dtype 1 c (denote a).
Proof. exact expression_sound. Qed.
Print Assumptions C34_accepts_only_grammar.

(** Every derivation that the next token does not go on is found. *)
Theorem C34_accepts_grammar : forall is_dtype src c rest e,
  lex_all src = Ret (c ++ rest) -> rest <> [] -> Forall (fun t => tk t <> T_ERROR) c -> G is_dtype 1 c e ->
  goes_on (tk (cur rest)) = 0 -> exists a, parse_expression_ast is_dtype src = Ret a /\ denote a = e.
Proof. exact expression_complete. Qed.
Print Assumptions C34_accepts_grammar.

(** The grammar gives a token list at most one meaning. *)
Theorem C34_grammar_unambiguous : forall is_dtype c e e', Forall (fun t => lexeme (tk t) (tx t)) c ->
  G is_dtype 1 c e -> G is_dtype 1 c e' -> e = e'.
Proof. exact grammar_unambiguous. Qed.
Print Assumptions C34_grammar_unambiguous.

(** The parser always ends, with a tree or an error. *)
Theorem C34_parser_total : forall is_dtype src,
  parse_expression_ast is_dtype src = Err \/ exists a, parse_expression_ast is_dtype src = Ret a.
Proof. exact expression_total. Qed.
Print Assumptions C34_parser_total.

(** ** C35: trailing text *)
(** Full statement: a source is accepted only if all of it is one expression, one function, or a sequence
    of functions. It holds for sequences of functions, provided every break and continue has its semicolon
    (C36): all tokens up to the end of input belong to the functions returned. *)
Theorem C35_functions_partial : forall D is_dtype (find_dtype : text -> option D) src fs,
  parse_functions_ast is_dtype find_dtype src = Ret fs ->
  exists c e, lex_all src = Ret (c ++ [e]) /\ tk e = T_EOF /\ NoDup (map f_name fs) /\
    (terminated (c ++ [e]) -> Program is_dtype find_dtype c (map denote_func fs)).
Proof. exact @functions_sound. Qed.
Print Assumptions C35_functions_partial.

(** It fails for expressions: whatever follows, as long as it does not go on the expression, is ignored. *)
Theorem C35_expression_refuted : forall is_dtype src c t rest e,
  lex_all src = Ret (c ++ t :: rest) -> Forall (fun t => tk t <> T_ERROR) c -> G is_dtype 1 c e -> goes_on (tk t) = 0 ->
  exists a, parse_expression_ast is_dtype src = Ret a /\ denote a = e.
Proof. intros d src c t rest e H. apply (expression_complete d src c (t :: rest) e H). discriminate. Qed.
Print Assumptions C35_expression_refuted.

(** It fails for single functions: whatever follows the function is ignored. *)
Theorem C35_function_refuted : forall D is_dtype (find_dtype : text -> option D) src c rest g,
  (forall n, find_dtype (lit ")" ++ n) = None) ->
  lex_all src = Ret (c ++ rest) -> rest <> [] -> Forall (fun t => tk t <> T_ERROR) c -> FuncG is_dtype find_dtype c g ->
  exists f, parse_function_ast is_dtype find_dtype src = Ret f /\ denote_func f = g.
Proof. intros D d fd src c rest g H. exact (function_complete d fd H src c rest g). Qed.
Print Assumptions C35_function_refuted.

(** ** C36: statements *)
(** Full statement: every accepted statement list derives in the grammar. Missing: lists in which a break or
    continue is not followed by a semicolon. *)
Theorem C36_statements_partial : forall D is_dtype (find_dtype : text -> option D) src f,
  parse_function_ast is_dtype find_dtype src = Ret f ->
  exists c rest, lex_all src = Ret (c ++ rest) /\ rest <> [] /\
    (terminated (c ++ rest) -> FuncG is_dtype find_dtype c (denote_func f)).
Proof. exact @function_sound. Qed.
Print Assumptions C36_statements_partial.

(** Conversely every derivation is accepted, with the program it derives. *)
Theorem C36_grammar_accepted : forall D is_dtype (find_dtype : text -> option D) src c e gs,
  (forall n, find_dtype (lit ")" ++ n) = None) ->
  lex_all src = Ret (c ++ [e]) -> Forall (fun t => tk t <> T_ERROR) c -> Program is_dtype find_dtype c gs ->
  NoDup (map fn_name gs) -> exists fs, parse_functions_ast is_dtype find_dtype src = Ret fs /\ map denote_func fs = gs.
Proof. intros D d fd src c e gs H. exact (functions_complete d fd H src c e gs). Qed.
Print Assumptions C36_grammar_accepted.

Theorem C36_parser_total : forall D is_dtype (find_dtype : text -> option D) src,
  (parse_function_ast is_dtype find_dtype src = Err \/ exists f, parse_function_ast is_dtype find_dtype src = Ret f) /\
  (parse_functions_ast is_dtype find_dtype src = Err \/ exists fs, parse_functions_ast is_dtype find_dtype src = Ret fs).
Proof. intros D d fd src. split. exact (function_total d fd src). exact (functions_total d fd src). Qed.
Print Assumptions C36_parser_total.

(** The missing case: a break or continue without its semicolon is not an error. The statement is dropped
    together with the token after it, and the list ends there. *)
Theorem C36_missing_semicolon_refuted : forall is_dtype fuel b t rest,
  is_kw "break" b \/ is_kw "continue" b -> ~ is_sym ";" t -> rest <> [] ->
  parse_statements is_dtype (S fuel) (b :: t :: rest) = Ret ([], rest).
Proof. exact jump_dropped. Qed.
Print Assumptions C36_missing_semicolon_refuted.

(** ** C67: index literals *)
(** Full statement: the literal in [v[lit]] denotes its value or is rejected. It denotes its value if it is
    an integer below 2^32. *)
Theorem C67_index_literal_partial : forall t n, t <> [] -> denotes_int t n -> (n < 2 ^ 32)%Z -> index_literal t = n.
Proof. exact index_value. Qed.
Print Assumptions C67_index_literal_partial.

(** Every larger literal is taken to be 0, and everything from the first character that is not a digit is ignored. *)
Theorem C67_index_literal_refuted :
  (forall t n, denotes_int t n -> (2 ^ 32 <= n)%Z -> index_literal t = 0%Z) /\
  (forall t n c r, t <> [] -> denotes_int t n -> (n < 2 ^ 32)%Z -> is_digit c = false -> index_literal (t ++ c :: r) = n).
Proof. split. exact index_large. exact index_fraction. Qed.
Print Assumptions C67_index_literal_refuted.

(** *** The hypotheses can be met *)
Definition no_type (_ : text) : bool := false.
Definition int_type (t : text) : option nat := if text_eqb t (lit "int") then Some 32 else None.
Definition is_int (t : text) : bool := text_eqb t (lit "int").
Definition dbl_text (_ : dbl) (_ : option numty) : text := lit "1.5".
Definition idx1 (_ : Z) : text := lit "7".

(** x = (a - b) - c ^ d ^ -y[7] * f(a, b) *)
Definition ex_expr : expr :=
  EBin OP_ASSIGN (EVar (lit "x"))
    (EBin OP_MINUS (EBin OP_MINUS (EVar (lit "a")) (EVar (lit "b")))
       (EBin OP_MULTIPLY (EBin OP_POW (EVar (lit "c")) (EBin OP_POW (EVar (lit "d")) (EUn OP_NEGATIVE (EMember (lit "y") [MIndex 7]))))
          (ECall (lit "f") [EVar (lit "a"); EVar (lit "b")]))).
Definition ex_written : written := map (fun x => (x, lit " ")) (show dbl_text idx1 1 ex_expr).
Example C34_ex_text : written_text ex_written = lit "x = a - b - c ^ d ^ - y [ 7 ] * f ( a , b ) ".
Proof. reflexivity. Qed.
Example C34_ex_parse : exists a, parse_expression_ast no_type (written_text ex_written) = Ret a /\ denote a = ex_expr.
Proof. eexists. split. vm_compute. reflexivity. reflexivity. Qed.
Example C34_ex_hyps : writable dbl_text idx1 no_type ex_expr /\ no_cond_target ex_expr = true /\
  map fst ex_written = show dbl_text idx1 1 ex_expr /\ spaced ex_written.
Proof.
  assert (forall c, In c (lit "xabcdyf") -> name_ok [c]) as N.
  { intros c Hc. apply lex_word.
    - constructor; [|constructor]. unfold letter. cbn in Hc |- *. tauto.
    - intros s k Hk E. simpl in Hk. repeat (destruct Hk as [Hk|Hk]; [injection Hk as <- <-; discriminate E|]). contradiction. }
  assert (forall c, In c (lit "xabcdyf") -> writable dbl_text idx1 no_type (EVar [c])) as V. { intros c Hc. apply w_var; auto. }
  split; [|split; [reflexivity|split; [reflexivity|]]].
  - apply w_bin. cbn; tauto. apply V; cbn; tauto. apply w_bin. cbn; tauto. apply w_bin. cbn; tauto. apply V; cbn; tauto. apply V; cbn; tauto.
    apply w_bin. cbn; tauto. apply w_bin. cbn; tauto. apply V; cbn; tauto. apply w_bin. cbn; tauto. apply V; cbn; tauto. apply w_un. cbn; tauto.
    apply w_member. apply N; cbn; tauto. reflexivity. discriminate. constructor; [|constructor]. apply w_index. 2: reflexivity.
    apply number_plain. apply numeral_int. discriminate. constructor; [|constructor]. unfold digit. cbn. tauto.
    apply w_call. apply N; cbn; tauto. reflexivity. constructor. apply V; cbn; tauto. constructor. apply V; cbn; tauto. constructor.
  - unfold spaced, ex_written. rewrite Forall_map. apply Forall_forall. intros x _. cbn [snd]. split.
    apply (gap_space " "%char []). now left. constructor. exists " "%char, []. split. reflexivity. now left.
Qed.

(** x ? a : b = r *)
Example C34_ex_target : exists a, parse_expression_ast no_type (lit "x ? a : b = r") = Ret a /\
  denote a = ECond (EVar (lit "x")) (EVar (lit "a")) (EBin OP_ASSIGN (EVar (lit "b")) (EVar (lit "r"))) /\
  map fst (map (fun x => (x, lit " ")) (show dbl_text idx1 1 (EBin OP_ASSIGN (ECond (EVar (lit "x")) (EVar (lit "a")) (EVar (lit "b"))) (EVar (lit "r"))))) =
    [(T_IDENTIFIER, lit "x"); (T_QUESTION, lit "?"); (T_IDENTIFIER, lit "a"); (T_COLON, lit ":"); (T_IDENTIFIER, lit "b"); (T_ASSIGN, lit "="); (T_IDENTIFIER, lit "r")].
Proof. eexists. split. vm_compute. reflexivity. split; reflexivity. Qed.

(** Text after the expression, and after the function, is ignored. *)
Example C35_ex : (exists a, parse_expression_ast no_type (lit "x + 1 ] } what is this") = Ret a /\ parse_expression_ast no_type (lit "x + 1") = Ret a) /\
  (exists f, parse_function_ast is_int int_type (lit "int f() { return x; } )) garbage") = Ret f) /\
  parse_functions_ast is_int int_type (lit "int f() { return x; } )) garbage") = Err.
Proof. split; [|split]. eexists. split; vm_compute; reflexivity. eexists. vm_compute. reflexivity. vm_compute. reflexivity. Qed.

(** The loop is left without its break. *)
Example C36_ex : exists f a b, parse_functions_ast is_int int_type (lit "int f(int x) { while (x > 0) { x -= 1; break 5 } return x; }") = Ret [f] /\
  map denote_stmt (f_body f) =
    [StWhile (EBin OP_GREATER (EVar (lit "x")) a) [StExpr (EBin OP_MINUS_ASSIGN (EVar (lit "x")) b)];
     StReturn (Some (EVar (lit "x")))].
Proof. do 3 eexists. split. vm_compute. reflexivity. reflexivity. Qed.

(** A program that meets the grammar, so the hypotheses of C36_grammar_accepted. *)
Example C36_ex_ok : exists fs, parse_functions_ast is_int int_type
    (lit "int f(int x, int y) { if (x > y) { return x; } elif (x == y) { x = 1; } else { while (true) { break; } } return y; } int g() { return f(1, 2); }") = Ret fs /\ length fs = 2.
Proof. eexists. split. vm_compute. reflexivity. reflexivity. Qed.
Example C36_ex_types : forall n, int_type (lit ")" ++ n) = None.
Proof. reflexivity. Qed.

Example C67_ex : index_literal (lit "41") = 41%Z /\ index_literal (lit "4294967296") = 0%Z /\ index_literal (lit "1.5") = 1%Z /\ index_literal (lit ".5") = 0%Z.
Proof. repeat split; vm_compute; reflexivity. Qed.
