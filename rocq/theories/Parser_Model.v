(** Model of rapidudf/ast/grammar.cc, the recursive-descent parser, and of the syntax trees of
    rapidudf/ast/{expression,statement,block,function}.h.
    The parser only uses the lexer through Next, Peek, PeekIs, Expect and ConsumeIf, which answer as a
    cursor over the token list does (theorem C33_lookahead_transparent), so the state of the lexer is
    here the list of the tokens still to come, ending in the end-of-input token.
    [Err] stands for every error status; the wording of messages is left out.
    Fields that only Validate sets (rpn, rpns, resolved names, dtypes) are left out. *)
From Coq Require Import Ascii String List Bool Arith ZArith.
Import ListNotations.
From Verif Require Import Base Lexer_Model Lexer_Spec Op_Model Number_Model.

Definition toks := list token.
(** lexer.h: Peek, PeekIs, Next, Expect and ConsumeIf on a token list *)
Definition peek_is (k : tkind) (ts : toks) : bool := tis (cur ts) k.
Definition expect (k : tkind) (ts : toks) : outcome (token * toks) :=
  if peek_is k ts then Ret (cur ts, advance ts) else Err.

(** expression.h:34-186. Operand is the variant type; BinaryExpr, UnaryExpr and SelectExpr are reached
    through pointers, here nested. *)
Inductive operand : Type :=
| O_bool (b : bool)
| O_num (v : dbl) (ty : option numty)
| O_str (t : text)
| O_var (name : text) (access : option (list member)) (call : option (option (list operand))) (pos : nat)
| O_select (cond : operand) (branches : operand * operand)
| O_bin (lhs : operand) (rhs : list (optok * operand)) (pos : nat)
| O_un (op : option optok) (x : operand) (pos : nat)
| O_def (name : text) (pos : nat)
| O_array (elements : list operand) (pos : nat)
with member : Type :=
| M_field (name : text) (call : option (option (list operand))) (pos : nat)
| M_str (t : text)
| M_idx (n : Z)
| M_var (name : text) (pos : nat).

(** grammar.cc:58-68 *)
Definition assign_op (k : tkind) : option optok :=
  match k with
  | T_ASSIGN => Some OP_ASSIGN | T_PLUS_ASSIGN => Some OP_PLUS_ASSIGN | T_MINUS_ASSIGN => Some OP_MINUS_ASSIGN
  | T_STAR_ASSIGN => Some OP_MULTIPLY_ASSIGN | T_SLASH_ASSIGN => Some OP_DIVIDE_ASSIGN
  | T_PERCENT_ASSIGN => Some OP_MOD_ASSIGN
  | _ => None
  end.
(** grammar.cc:70-76 *)
Definition logic_op (k : tkind) : option optok :=
  match k with T_OR => Some OP_LOGIC_OR | T_AND => Some OP_LOGIC_AND | _ => None end.
(** grammar.cc:78-88 *)
Definition cmp_op (k : tkind) : option optok :=
  match k with
  | T_EQ => Some OP_EQUAL | T_NE => Some OP_NOT_EQUAL | T_GE => Some OP_GREATER_EQUAL
  | T_LE => Some OP_LESS_EQUAL | T_GT => Some OP_GREATER | T_LT => Some OP_LESS
  | _ => None
  end.
(** grammar.cc:90-96 *)
Definition additive_op (k : tkind) : option optok :=
  match k with T_PLUS => Some OP_PLUS | T_MINUS => Some OP_MINUS | _ => None end.
(** grammar.cc:98-105 *)
Definition multiplicative_op (k : tkind) : option optok :=
  match k with T_STAR => Some OP_MULTIPLY | T_SLASH => Some OP_DIVIDE | T_PERCENT => Some OP_MOD | _ => None end.
(** grammar.cc:107-113 *)
Definition unary_op (k : tkind) : option optok :=
  match k with T_MINUS => Some OP_NEGATIVE | T_NOT => Some OP_NOT | _ => None end.

(** grammar.cc:40-44 *)
Definition reserved_keywords : list text :=
  [lit "return"; lit "if"; lit "elif"; lit "else"; lit "while"; lit "auto"; lit "break"; lit "continue"].

(** substr(1, size - 2) *)
Definition strip_quotes (t : text) : text := firstn (length t - 2) (skipn 1 t).

(** std::from_chars for uint32_t with the result ignored (grammar.cc:335-338): the leading digits are
    read; if there are none or the value is out of range [idx] keeps its initial value 0. *)
Fixpoint leading_digits (t : text) : text :=
  match t with [] => [] | c :: t' => if is_digit c then c :: leading_digits t' else [] end.
Definition index_literal (t : text) : Z :=
  let ds := leading_digits t in
  match ds with [] => 0%Z | _ => if (decimal 0 ds <? 2 ^ 32)%Z then decimal 0 ds else 0%Z end.

Section Parser.
(** Symbols::IsDTypeExist, the registry of type names at the time of the parse *)
Variable is_dtype : text -> bool.

(** grammar.cc:46-54 *)
Definition valid_identifier (name : text) : bool :=
  negb (is_dtype name) && negb (existsb (text_eqb name) reserved_keywords).

Section Expr.
(** parse_expression, for nested expressions *)
Variable rec : toks -> outcome (operand * toks).

(** grammar.cc:244-248 and 368-372: { ',' expression } *)
Fixpoint more_exprs (fuel : nat) (acc : list operand) (ts : toks) : outcome (list operand * toks) :=
  match fuel with
  | O => Hang
  | S fuel =>
      if peek_is T_COMMA ts then
        do! (e, ts1) <- rec (advance ts);
        more_exprs fuel (acc ++ [e]) ts1
      else Ret (acc, ts)
  end.

(** grammar.cc:234-256, parse_array *)
Definition parse_array (ts : toks) : outcome (operand * toks) :=
  let ts0 := advance ts in
  let pos := tp (cur ts0) in
  do! (es, ts1) <- (if peek_is T_RBRACKET ts0 then Ret ([], ts0)
                    else do! (e, ts1) <- rec ts0; more_exprs (S (length ts1)) [e] ts1);
  do! (_, ts2) <- expect T_RBRACKET ts1;
  Ret (O_array es pos, ts2).

(** grammar.cc:358-381, parse_func_invoke_args *)
Definition parse_func_invoke_args (ts : toks) : outcome (option (list operand) * toks) :=
  let ts0 := advance ts in
  do! (args, ts1) <- (if peek_is T_RPAREN ts0 then Ret (None, ts0)
                      else do! (e, ts1) <- rec ts0;
                           do! (es, ts2) <- more_exprs (S (length ts1)) [e] ts1;
                           Ret (Some es, ts2));
  do! (_, ts2) <- expect T_RPAREN ts1;
  Ret (args, ts2).

(** grammar.cc:305-321, parse_field_access *)
Definition parse_field_access (ts : toks) : outcome (member * toks) :=
  do! (name, ts1) <- expect T_IDENTIFIER (advance ts);
  if peek_is T_LPAREN ts1 then
    do! (args, ts2) <- parse_func_invoke_args ts1;
    Ret (M_field (tx name) (Some args) (tp name), ts2)
  else Ret (M_field (tx name) None (tp name), ts1).

(** grammar.cc:324-355, parse_dynamic_param_access *)
Definition parse_dynamic_param_access (ts : toks) : outcome (member * toks) :=
  let ts0 := advance ts in
  let tok := cur ts0 in
  do! m <- (if tis tok T_STRING then Ret (M_str (strip_quotes (tx tok)))
            else if tis tok T_NUMBER then Ret (M_idx (index_literal (tx tok)))
            else if tis tok T_IDENTIFIER then Ret (M_var (tx tok) (tp tok))
            else Err);
  do! (_, ts2) <- expect T_RBRACKET (advance ts0);
  Ret (m, ts2).

(** grammar.cc:287-302, parse_member_access *)
Fixpoint parse_member_access (fuel : nat) (acc : list member) (ts : toks) : outcome (list member * toks) :=
  match fuel with
  | O => Hang
  | S fuel =>
      if peek_is T_DOT ts then
        do! (m, ts1) <- parse_field_access ts;
        parse_member_access fuel (acc ++ [m]) ts1
      else if peek_is T_LBRACKET ts then
        do! (m, ts1) <- parse_dynamic_param_access ts;
        parse_member_access fuel (acc ++ [m]) ts1
      else Ret (acc, ts)
  end.

(** grammar.cc:259-284, parse_var_accessor *)
Definition parse_var_accessor (ts : toks) : outcome (operand * toks) :=
  let name := cur ts in
  let ts1 := advance ts in
  if valid_identifier (tx name) then
    if peek_is T_DOT ts1 || peek_is T_LBRACKET ts1 then
      do! (ms, ts2) <- parse_member_access (S (length ts1)) [] ts1;
      Ret (O_var (tx name) (Some ms) None (tp name), ts2)
    else if peek_is T_LPAREN ts1 then
      do! (args, ts2) <- parse_func_invoke_args ts1;
      Ret (O_var (tx name) None (Some args) (tp name), ts2)
    else Ret (O_var (tx name) None None (tp name), ts1)
  else Err.

(** grammar.cc:158-231, parse_operand *)
Definition parse_operand (ts : toks) : outcome (operand * toks) :=
  let tok := cur ts in
  if tis tok T_BOOL then Ret (O_bool (text_eqb (tx tok) (lit "true")), advance ts)
  else if tis tok T_STRING then Ret (O_str (strip_quotes (tx tok)), advance ts)
  else if tis tok T_NUMBER then
    match parse_number (tx tok) with
    | Some (v, ty) => Ret (O_num v ty, advance ts)
    | None => Err
    end
  else if tis tok T_AUTO then
    do! (name, ts1) <- expect T_IDENTIFIER (advance ts);
    if valid_identifier (tx name) then Ret (O_def (tx name) (tp name), ts1) else Err
  else if tis tok T_LPAREN then
    do! (e, ts1) <- rec (advance ts);
    do! (_, ts2) <- expect T_RPAREN ts1;
    Ret (e, ts2)
  else if tis tok T_LBRACKET then parse_array ts
  else if tis tok T_IDENTIFIER then parse_var_accessor ts
  else Err.

(** grammar.cc:384-401, parse_unary_expr *)
Definition parse_unary_expr (ts : toks) : outcome (operand * toks) :=
  let peek := cur ts in
  if tis peek T_MINUS || tis peek T_NOT then
    do! (x, ts1) <- parse_operand (advance ts);
    Ret (O_un (unary_op (tk peek)) x (tp peek), ts1)
  else
    do! (x, ts1) <- parse_operand ts;
    Ret (O_un None x 0, ts1).

(** grammar.cc:408-425, parse_power_expr *)
Fixpoint parse_power_expr (fuel : nat) (ts : toks) : outcome (operand * toks) :=
  match fuel with
  | O => Hang
  | S fuel =>
      do! (lhs, ts1) <- parse_unary_expr ts;
      if peek_is T_CARET ts1 then
        do! (rhs, ts2) <- parse_power_expr fuel (advance ts1);
        Ret (O_bin lhs [(OP_POW, rhs)] (tp (cur ts1)), ts2)
      else Ret (O_bin lhs [] 0, ts1)
  end.

(** grammar.cc:435-447, the loop of parse_binary_left *)
Fixpoint binary_loop (next : toks -> outcome (operand * toks)) (op_match : tkind -> option optok)
    (fuel : nat) (lhs : operand) (ts : toks) : outcome (operand * toks) :=
  match fuel with
  | O => Hang
  | S fuel =>
      match op_match (tk (cur ts)) with
      | None => Ret (lhs, ts)
      | Some op =>
          do! (rhs, ts1) <- next (advance ts);
          binary_loop next op_match fuel (O_bin lhs [(op, rhs)] (tp (cur ts))) ts1
      end
  end.
(** grammar.cc:430-449, parse_binary_left *)
Definition parse_binary_left (next : toks -> outcome (operand * toks)) (op_match : tkind -> option optok)
    (ts : toks) : outcome (operand * toks) :=
  do! (lhs, ts1) <- next ts;
  binary_loop next op_match (S (length ts1)) lhs ts1.

(** grammar.cc:452-456 *)
Definition parse_multiplicative_expr : toks -> outcome (operand * toks) :=
  parse_binary_left (fun ts => parse_power_expr (S (length ts)) ts) multiplicative_op.
(** grammar.cc:459-463 *)
Definition parse_additive_expr : toks -> outcome (operand * toks) :=
  parse_binary_left parse_multiplicative_expr additive_op.
(** grammar.cc:466-470 *)
Definition parse_cmp_expr : toks -> outcome (operand * toks) :=
  parse_binary_left parse_additive_expr cmp_op.
(** grammar.cc:473-477 *)
Definition parse_logic_expr : toks -> outcome (operand * toks) :=
  parse_binary_left parse_cmp_expr logic_op.

(** grammar.cc:480-533, parse_assign *)
Definition parse_assign (ts : toks) : outcome (operand * toks) :=
  do! (lhs, ts1) <- parse_logic_expr ts;
  if peek_is T_QUESTION ts1 then
    do! (te, ts2) <- rec (advance ts1);
    do! (_, ts3) <- expect T_COLON ts2;
    do! (fe, ts4) <- rec ts3;
    let se := O_select lhs (te, fe) in
    match assign_op (tk (cur ts4)) with
    | Some op => do! (rhs, ts5) <- rec (advance ts4); Ret (O_bin se [(op, rhs)] 0, ts5)
    | None => Ret (O_bin se [] 0, ts4)
    end
  else
    match assign_op (tk (cur ts1)) with
    | Some op => do! (rhs, ts2) <- rec (advance ts1); Ret (O_bin lhs [(op, rhs)] (tp (cur ts1)), ts2)
    | None => Ret (lhs, ts1)
    end.
End Expr.

(** grammar.cc:536-538, parse_expression. The fuel bounds the nesting of calls. *)
Fixpoint parse_expression (fuel : nat) (ts : toks) : outcome (operand * toks) :=
  match fuel with
  | O => Hang
  | S fuel => parse_assign (parse_expression fuel) ts
  end.
Definition parse_expr (ts : toks) : outcome (operand * toks) := parse_expression (length ts) ts.

(** *** Statements: statement.h *)
Inductive stmt : Type :=
| S_return (e : option operand)
| S_expr (e : operand)
| S_while (cond : operand) (body : list stmt)
| S_ifelse (cond : operand) (body : list stmt) (elifs : list (operand * list stmt)) (els : option (list stmt))
| S_continue (pos : nat)
| S_break (pos : nat).

(** grammar.cc:543-558 *)
Definition parse_return_statement (ts : toks) : outcome (stmt * toks) :=
  let ts0 := advance ts in
  do! (e, ts1) <- (if peek_is T_SEMICOLON ts0 then Ret (None, ts0)
                   else do! (e, ts1) <- parse_expr ts0; Ret (Some e, ts1));
  do! (_, ts2) <- expect T_SEMICOLON ts1;
  Ret (S_return e, ts2).
(** grammar.cc:561-573 *)
Definition parse_expr_statement (ts : toks) : outcome (stmt * toks) :=
  do! (e, ts1) <- parse_expr ts;
  do! (_, ts2) <- expect T_SEMICOLON ts1;
  Ret (S_expr e, ts2).

(** grammar.cc:697-699 *)
Definition starts_expr (k : tkind) : bool :=
  match k with
  | T_IDENTIFIER | T_NUMBER | T_STRING | T_BOOL | T_AUTO | T_LPAREN | T_LBRACKET | T_MINUS | T_NOT => true
  | _ => false
  end.

Section Stmt.
(** parse_statements, for nested blocks *)
Variable rec : toks -> outcome (list stmt * toks).

(** '{' statements '}' as in grammar.cc:590-601, 642-653 and 711-728 *)
Definition parse_block (ts : toks) : outcome (list stmt * toks) :=
  do! (_, ts1) <- expect T_LBRACE ts;
  do! (ss, ts2) <- rec ts1;
  do! (_, ts3) <- expect T_RBRACE ts2;
  Ret (ss, ts3).

(** grammar.cc:576-607 *)
Definition parse_choice_statement (ts : toks) : outcome ((operand * list stmt) * toks) :=
  do! (_, ts1) <- expect T_LPAREN ts;
  do! (e, ts2) <- parse_expr ts1;
  do! (_, ts3) <- expect T_RPAREN ts2;
  do! (ss, ts4) <- parse_block ts3;
  Ret ((e, ss), ts4).

(** grammar.cc:610-619 *)
Definition parse_while_statement (ts : toks) : outcome (stmt * toks) :=
  do! (c, ts1) <- parse_choice_statement (advance ts);
  Ret (S_while (fst c) (snd c), ts1).

(** grammar.cc:632-637 *)
Fixpoint parse_elifs (fuel : nat) (acc : list (operand * list stmt)) (ts : toks) :
    outcome (list (operand * list stmt) * toks) :=
  match fuel with
  | O => Hang
  | S fuel =>
      if peek_is T_ELIF ts then
        do! (c, ts1) <- parse_choice_statement (advance ts);
        parse_elifs fuel (acc ++ [c]) ts1
      else Ret (acc, ts)
  end.

(** grammar.cc:622-658 *)
Definition parse_ifelse_statement (ts : toks) : outcome (stmt * toks) :=
  do! (c, ts1) <- parse_choice_statement (advance ts);
  do! (es, ts2) <- parse_elifs (S (length ts1)) [] ts1;
  if peek_is T_ELSE ts2 then
    do! (ss, ts3) <- parse_block (advance ts2);
    Ret (S_ifelse (fst c) (snd c) es (Some ss), ts3)
  else Ret (S_ifelse (fst c) (snd c) es None, ts2).

(** One turn of the loop of grammar.cc:664-706: a statement, or the end of the list ([None]).
    A missing ';' after break or continue ends the list, and the token found instead is consumed. *)
Definition parse_statement (ts : toks) : outcome (option stmt * toks) :=
  let peek := cur ts in
  if tis peek T_CONTINUE then
    let ts1 := advance ts in
    Ret (if peek_is T_SEMICOLON ts1 then Some (S_continue (tp peek)) else None, advance ts1)
  else if tis peek T_BREAK then
    let ts1 := advance ts in
    Ret (if peek_is T_SEMICOLON ts1 then Some (S_break (tp peek)) else None, advance ts1)
  else if tis peek T_RETURN then do! (s, ts1) <- parse_return_statement ts; Ret (Some s, ts1)
  else if tis peek T_WHILE then do! (s, ts1) <- parse_while_statement ts; Ret (Some s, ts1)
  else if tis peek T_IF then do! (s, ts1) <- parse_ifelse_statement ts; Ret (Some s, ts1)
  else if starts_expr (tk peek) then do! (s, ts1) <- parse_expr_statement ts; Ret (Some s, ts1)
  else Ret (None, ts).
End Stmt.

(** grammar.cc:661-708, parse_statements. The fuel bounds loop turns and nesting together. *)
Fixpoint parse_statements (fuel : nat) (ts : toks) : outcome (list stmt * toks) :=
  match fuel with
  | O => Hang
  | S fuel =>
      do! (s, ts1) <- parse_statement (parse_statements fuel) ts;
      match s with
      | None => Ret ([], ts1)
      | Some s => do! (ss, ts2) <- parse_statements fuel ts1; Ret (s :: ss, ts2)
      end
  end.

(** *** Functions: function.h *)
Section Func.
Context {D : Type}.
(** Symbols::FindDType *)
Variable find_dtype : text -> option D.

Record func_arg : Type := Arg { a_type : D; a_name : text }.
Record func : Type := Func { f_ret : D; f_name : text; f_args : option (list func_arg); f_body : list stmt; f_pos : nat }.

(** grammar.cc:739-749, the loop over the template arguments *)
Fixpoint type_args (fuel : nat) (name : text) (ts : toks) : outcome (text * toks) :=
  match fuel with
  | O => Hang
  | S fuel =>
      if negb (peek_is T_GT ts) && negb (peek_is T_EOF ts) then
        if peek_is T_ERROR ts then Err
        else
          let name1 := name ++ tx (cur ts) in
          let ts1 := advance ts in
          if peek_is T_COMMA ts1 then type_args fuel (name1 ++ lit ",") (advance ts1)
          else type_args fuel name1 ts1
      else Ret (name, ts)
  end.
(** grammar.cc:731-759, read_type_name *)
Definition read_type_name (ts : toks) : outcome (text * toks) :=
  let name := tx (cur ts) in
  let ts1 := advance ts in
  if peek_is T_LT ts1 then
    do! (name2, ts2) <- type_args (S (length ts1)) (name ++ lit "<") (advance ts1);
    if peek_is T_GT ts2 then Ret (name2 ++ lit ">", advance ts2) else Err
  else Ret (name, ts1).

(** dtype identifier: grammar.cc:763-779 and 791-807 *)
Definition parse_typed_name (ts : toks) : outcome ((D * text) * toks) :=
  do! (tn, ts1) <- read_type_name ts;
  match find_dtype tn with
  | None => Err
  | Some d =>
      do! (name, ts2) <- expect T_IDENTIFIER ts1;
      if valid_identifier (tx name) then Ret ((d, tx name), ts2) else Err
  end.
(** grammar.cc:762-786, parse_func_arg *)
Definition parse_func_arg (ts : toks) : outcome (func_arg * toks) :=
  do! (x, ts1) <- parse_typed_name ts; Ret (Arg (fst x) (snd x), ts1).
(** grammar.cc:821-825 *)
Fixpoint more_args (fuel : nat) (acc : list func_arg) (ts : toks) : outcome (list func_arg * toks) :=
  match fuel with
  | O => Hang
  | S fuel =>
      if peek_is T_COMMA ts then
        do! (a, ts1) <- parse_func_arg (advance ts);
        more_args fuel (acc ++ [a]) ts1
      else Ret (acc, ts)
  end.

(** grammar.cc:789-844, parse_func; [pos] is lex.Position() at the start *)
Definition parse_func (pos : nat) (ts : toks) : outcome (func * toks) :=
  do! (x, ts1) <- parse_typed_name ts;
  do! (_, ts2) <- expect T_LPAREN ts1;
  do! (args, ts3) <- (if peek_is T_RPAREN ts2 then Ret (None, ts2)
                      else do! (a, ts3) <- parse_func_arg ts2;
                           do! (l, ts4) <- more_args (S (length ts3)) [a] ts3;
                           Ret (Some l, ts4));
  do! (_, ts4) <- expect T_RPAREN ts3;
  do! (body, ts5) <- parse_block (fun ts => parse_statements (S (length ts)) ts) ts4;
  Ret (Func (fst x) (snd x) args body pos, ts5).

(** grammar.cc:891-907, the loop of parse_functions_ast. IsEOF (lexer.cc:89) holds only when no
    token is left, so the test on the peeked token decides. When a function starts its first token
    has been peeked, so Position() is the end of that token. *)
Fixpoint parse_funcs (fuel : nat) (ts : toks) : outcome (list func) :=
  match fuel with
  | O => Hang
  | S fuel =>
      if peek_is T_EOF ts then Ret []
      else
        do! (f, ts1) <- parse_func (tp (cur ts) + length (tx (cur ts))) ts;
        do! fs <- parse_funcs fuel ts1;
        Ret (f :: fs)
  end.

(** *** Entry points, without the Validate calls *)
(** grammar.cc:932-954, parse_expression_ast *)
Definition parse_expression_ast (source : text) : outcome operand :=
  do! ts <- lex_all source;
  do! (e, _) <- parse_expr ts;
  Ret e.
(** grammar.cc:849-871, parse_function_ast *)
Definition parse_function_ast (source : text) : outcome func :=
  do! ts <- lex_all source;
  do! (f, _) <- parse_func 0 ts;
  Ret f.

Fixpoint no_duplicates (seen : list text) (fs : list func) : bool :=
  match fs with
  | [] => true
  | f :: fs' => negb (existsb (text_eqb (f_name f)) seen) && no_duplicates (f_name f :: seen) fs'
  end.
(** grammar.cc:884-930, parse_functions_ast *)
Definition parse_functions_ast (source : text) : outcome (list func) :=
  do! ts <- lex_all source;
  do! fs <- parse_funcs (S (length ts)) ts;
  if no_duplicates [] fs then Ret fs else Err.
End Func.
End Parser.
