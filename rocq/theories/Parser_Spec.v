(** The language of docs/ast.md, written without reference to the parser: expression trees, the operator
    table, the grammar as derivation rules, and printing with the fewest parentheses. *)
From Coq Require Import Ascii String List Bool Arith ZArith.
Import ListNotations.
From Verif Require Import Base Lexer_Model Lexer_Spec Op_Model Number_Model Parser_Model.

(** *** Expression trees, without positions and parentheses *)
Inductive expr : Type :=
| EBool (b : bool)
| ENum (v : dbl) (ty : option numty)
| EStr (t : text)
| EVar (name : text)
| ECall (name : text) (args : list expr)
| EMember (name : text) (ms : list mem)
| EDef (name : text)
| EArray (es : list expr)
| EUn (op : optok) (e : expr)
| EBin (op : optok) (a b : expr)
| ECond (c a b : expr)
with mem : Type :=
| MField (name : text) (call : option (list expr))
| MKey (t : text)
| MIndex (n : Z)
| MVar (name : text).

(** The tree a syntax tree stands for. *)
Fixpoint denote (o : operand) : expr :=
  match o with
  | O_bool b => EBool b
  | O_num v ty => ENum v ty
  | O_str t => EStr t
  | O_var n None None _ => EVar n
  | O_var n (Some ms) _ _ => EMember n (map denote_member ms)
  | O_var n None (Some None) _ => ECall n []
  | O_var n None (Some (Some es)) _ => ECall n (map denote es)
  | O_select c (a, b) => ECond (denote c) (denote a) (denote b)
  | O_bin l r _ => fold_left (fun e x => EBin (fst x) e (snd x)) (map (fun x => match x with (op, y) => (op, denote y) end) r) (denote l)
  | O_un None x _ => denote x
  | O_un (Some op) x _ => EUn op (denote x)
  | O_def n _ => EDef n
  | O_array es _ => EArray (map denote es)
  end
with denote_member (m : member) : mem :=
  match m with
  | M_field n None _ => MField n None
  | M_field n (Some None) _ => MField n (Some [])
  | M_field n (Some (Some es)) _ => MField n (Some (map denote es))
  | M_str t => MKey t
  | M_idx n => MIndex n
  | M_var n _ => MVar n
  end.

(** *** The operator table of docs/ast.md: binary operators with their level *)
Definition operator_table : list (optok * string * nat) :=
  [(OP_ASSIGN, "=", 1); (OP_PLUS_ASSIGN, "+=", 1); (OP_MINUS_ASSIGN, "-=", 1); (OP_MULTIPLY_ASSIGN, "*=", 1);
   (OP_DIVIDE_ASSIGN, "/=", 1); (OP_MOD_ASSIGN, "%=", 1);
   (OP_LOGIC_OR, "||", 3); (OP_LOGIC_AND, "&&", 3);
   (OP_EQUAL, "==", 4); (OP_NOT_EQUAL, "!=", 4); (OP_LESS, "<", 4); (OP_LESS_EQUAL, "<=", 4);
   (OP_GREATER, ">", 4); (OP_GREATER_EQUAL, ">=", 4);
   (OP_PLUS, "+", 5); (OP_MINUS, "-", 5);
   (OP_MULTIPLY, "*", 6); (OP_DIVIDE, "/", 6); (OP_MOD, "%", 6);
   (OP_POW, "^", 7)]%string.
Definition unary_table : list (optok * string) := [(OP_NEGATIVE, "-"); (OP_NOT, "!")]%string.

Definition is_sym (s : string) (t : token) : Prop := In (s, tk t) symbol_table.
Definition is_kw (s : string) (t : token) : Prop := In (s, tk t) keyword_table.
Definition binop (n : nat) (op : optok) (t : token) : Prop := exists s, In (op, s, n) operator_table /\ is_sym s t.
Definition unop (op : optok) (t : token) : Prop := exists s, In (op, s) unary_table /\ is_sym s t.

Section Grammar.
Variable is_dtype : text -> bool.

(** *** Derivations.  [G n ts e]: the tokens [ts] are the expression [e] at level [n] of the table
    (1 expression, 3-6 left-associative operators, 7 power, 8 unary, 9 operand). *)
Inductive G : nat -> list token -> expr -> Prop :=
(* assign = logic_expr [ '?' expression ':' expression | assign_op expression ] *)
| g_expr ts e : G 3 ts e -> G 1 ts e
| g_cond c q a col b ec ea eb :
    G 3 c ec -> is_sym "?" q -> G 1 a ea -> is_sym ":" col -> G 1 b eb ->
    G 1 (c ++ q :: a ++ col :: b) (ECond ec ea eb)
| g_assign l o r op el er : G 3 l el -> binop 1 op o -> G 1 r er -> G 1 (l ++ o :: r) (EBin op el er)
(* n = (n+1) { op (n+1) }, grouping to the left *)
| g_left n ts1 ts2 e1 e : 3 <= n <= 6 -> G (S n) ts1 e1 -> Rest n e1 ts2 e -> G n (ts1 ++ ts2) e
(* power_expr = unary_expr [ '^' power_expr ] *)
| g_pow1 ts e : G 8 ts e -> G 7 ts e
| g_pow l o r op el er : G 8 l el -> binop 7 op o -> G 7 r er -> G 7 (l ++ o :: r) (EBin op el er)
(* unary_expr = [ unary_op ] operand *)
| g_un1 ts e : G 9 ts e -> G 8 ts e
| g_un o ts op e : unop op o -> G 9 ts e -> G 8 (o :: ts) (EUn op e)
(* operands *)
| g_true t : tk t = T_BOOL -> tx t = lit "true" -> G 9 [t] (EBool true)
| g_false t : tk t = T_BOOL -> tx t = lit "false" -> G 9 [t] (EBool false)
| g_num t v ty : tk t = T_NUMBER -> parse_number (tx t) = Some (v, ty) -> G 9 [t] (ENum v ty)
| g_str t s : tk t = T_STRING -> tx t = quote_char :: s ++ [quote_char] -> G 9 [t] (EStr s)
| g_def a t : is_kw "auto" a -> tk t = T_IDENTIFIER -> is_dtype (tx t) = false -> G 9 [a; t] (EDef (tx t))
| g_paren l ts r e : is_sym "(" l -> G 1 ts e -> is_sym ")" r -> G 9 (l :: ts ++ [r]) e
| g_array0 l r : is_sym "[" l -> is_sym "]" r -> G 9 [l; r] (EArray [])
| g_array l ts r es : is_sym "[" l -> List1 ts es -> is_sym "]" r -> G 9 (l :: ts ++ [r]) (EArray es)
| g_var t : tk t = T_IDENTIFIER -> is_dtype (tx t) = false -> G 9 [t] (EVar (tx t))
| g_call t ts es : tk t = T_IDENTIFIER -> is_dtype (tx t) = false -> Args ts es -> G 9 (t :: ts) (ECall (tx t) es)
| g_member t ts ms : tk t = T_IDENTIFIER -> is_dtype (tx t) = false -> Members ts ms -> G 9 (t :: ts) (EMember (tx t) ms)
with Rest : nat -> expr -> list token -> expr -> Prop :=
| r_nil n e : Rest n e [] e
| r_cons n e o r ts op e2 e' :
    binop n op o -> G (S n) r e2 -> Rest n (EBin op e e2) ts e' -> Rest n e (o :: r ++ ts) e'
(* expression { ',' expression } *)
with List1 : list token -> list expr -> Prop :=
| l_one ts e : G 1 ts e -> List1 ts [e]
| l_cons ts c ts' e es : G 1 ts e -> is_sym "," c -> List1 ts' es -> List1 (ts ++ c :: ts') (e :: es)
(* '(' [ expression { ',' expression } ] ')' *)
with Args : list token -> list expr -> Prop :=
| a_nil l r : is_sym "(" l -> is_sym ")" r -> Args [l; r] []
| a_some l ts r es : is_sym "(" l -> List1 ts es -> is_sym ")" r -> Args (l :: ts ++ [r]) es
(* ( field_access | dynamic_param_access )+ *)
with Members : list token -> list mem -> Prop :=
| m_one ts m : Member ts m -> Members ts [m]
| m_cons ts ts' m ms : Member ts m -> Members ts' ms -> Members (ts ++ ts') (m :: ms)
with Member : list token -> mem -> Prop :=
| m_field d t : is_sym "." d -> tk t = T_IDENTIFIER -> Member [d; t] (MField (tx t) None)
| m_call d t ts es : is_sym "." d -> tk t = T_IDENTIFIER -> Args ts es -> Member (d :: t :: ts) (MField (tx t) (Some es))
| m_key l t r s : is_sym "[" l -> tk t = T_STRING -> tx t = quote_char :: s ++ [quote_char] -> is_sym "]" r -> Member [l; t; r] (MKey s)
| m_index l t r : is_sym "[" l -> tk t = T_NUMBER -> is_sym "]" r -> Member [l; t; r] (MIndex (index_literal (tx t)))
| m_ref l t r : is_sym "[" l -> tk t = T_IDENTIFIER -> is_sym "]" r -> Member [l; t; r] (MVar (tx t)).

(** *** Statements *)
Inductive st : Type :=
| StReturn (e : option expr)
| StExpr (e : expr)
| StWhile (c : expr) (body : list st)
| StIf (c : expr) (body : list st) (elifs : list (expr * list st)) (els : option (list st))
| StContinue
| StBreak.

Fixpoint denote_stmt (s : stmt) : st :=
  match s with
  | S_return e => StReturn (match e with Some e => Some (denote e) | None => None end)
  | S_expr e => StExpr (denote e)
  | S_while c b => StWhile (denote c) (map denote_stmt b)
  | S_ifelse c b es el =>
      StIf (denote c) (map denote_stmt b) (map (fun x => match x with (c, b) => (denote c, map denote_stmt b) end) es)
        (match el with Some b => Some (map denote_stmt b) | None => None end)
  | S_continue _ => StContinue
  | S_break _ => StBreak
  end.

Inductive Stmt : list token -> st -> Prop :=
| s_continue k t : is_kw "continue" k -> is_sym ";" t -> Stmt [k; t] StContinue
| s_break k t : is_kw "break" k -> is_sym ";" t -> Stmt [k; t] StBreak
| s_return0 k t : is_kw "return" k -> is_sym ";" t -> Stmt [k; t] (StReturn None)
| s_return k ts t e : is_kw "return" k -> G 1 ts e -> is_sym ";" t -> Stmt (k :: ts ++ [t]) (StReturn (Some e))
| s_expr ts t e : G 1 ts e -> is_sym ";" t -> Stmt (ts ++ [t]) (StExpr e)
| s_while k ts c b : is_kw "while" k -> Choice ts c b -> Stmt (k :: ts) (StWhile c b)
| s_if k ts1 ts2 ts3 c b es el :
    is_kw "if" k -> Choice ts1 c b -> Elifs ts2 es -> Else ts3 el -> Stmt (k :: ts1 ++ ts2 ++ ts3) (StIf c b es el)
with Choice : list token -> expr -> list st -> Prop :=
| c_intro l ts r ts' e b : is_sym "(" l -> G 1 ts e -> is_sym ")" r -> Block ts' b -> Choice (l :: ts ++ r :: ts') e b
with Elifs : list token -> list (expr * list st) -> Prop :=
| e_nil : Elifs [] []
| e_cons k ts c b ts' es : is_kw "elif" k -> Choice ts c b -> Elifs ts' es -> Elifs (k :: ts ++ ts') ((c, b) :: es)
with Else : list token -> option (list st) -> Prop :=
| el_none : Else [] None
| el_some k ts b : is_kw "else" k -> Block ts b -> Else (k :: ts) (Some b)
with Block : list token -> list st -> Prop :=
| b_intro l ts r ss : is_sym "{" l -> Stmts ts ss -> is_sym "}" r -> Block (l :: ts ++ [r]) ss
with Stmts : list token -> list st -> Prop :=
| ss_nil : Stmts [] []
| ss_cons ts s ts' ss : Stmt ts s -> Stmts ts' ss -> Stmts (ts ++ ts') (s :: ss).

(** Every break and continue token is followed by a semicolon. *)
Definition terminated (ts : list token) : Prop :=
  forall p t s, ts = p ++ t :: s -> is_kw "break" t \/ is_kw "continue" t -> exists u s', s = u :: s' /\ is_sym ";" u.

(** *** Functions *)
Section Functions.
Context {D : Type}.
Variable find_dtype : text -> option D.

Record fn : Type := Fn { fn_ret : D; fn_name : text; fn_args : list (D * text); fn_body : list st }.
Definition denote_func (f : @func D) : fn :=
  Fn (f_ret f) (f_name f)
     (match f_args f with None => [] | Some l => map (fun a => (a_type a, a_name a)) l end)
     (map denote_stmt (f_body f)).

(** type_name = token [ '<' { any token except '>' } '>' ]; the name is the text of the tokens together *)
Inductive TypeName : list token -> text -> Prop :=
| tn_plain t : TypeName [t] (tx t)
| tn_args t l ts r : is_sym "<" l -> Forall (fun x => ~ is_sym ">" x /\ tk x <> T_EOF /\ tk x <> T_ERROR) ts -> is_sym ">" r ->
    TypeName (t :: l :: ts ++ [r]) (tx t ++ lit "<" ++ concat (map tx ts) ++ lit ">").
Inductive TypedName : list token -> D -> text -> Prop :=
| td_intro ts n d t : TypeName ts n -> find_dtype n = Some d -> tk t = T_IDENTIFIER -> is_dtype (tx t) = false ->
    TypedName (ts ++ [t]) d (tx t).
Inductive FuncArgs : list token -> list (D * text) -> Prop :=
| fa_one ts d n : TypedName ts d n -> FuncArgs ts [(d, n)]
| fa_cons ts d n c ts' l : TypedName ts d n -> is_sym "," c -> FuncArgs ts' l -> FuncArgs (ts ++ c :: ts') ((d, n) :: l).
Inductive FuncG : list token -> fn -> Prop :=
| f_noargs ts d n l r ts' b :
    TypedName ts d n -> is_sym "(" l -> is_sym ")" r -> Block ts' b -> FuncG (ts ++ l :: r :: ts') (Fn d n [] b)
| f_args ts d n l ta args r ts' b :
    TypedName ts d n -> is_sym "(" l -> FuncArgs ta args -> is_sym ")" r -> Block ts' b ->
    FuncG (ts ++ l :: ta ++ r :: ts') (Fn d n args b).
Inductive Program : list token -> list fn -> Prop :=
| p_nil : Program [] []
| p_cons ts f ts' fs : FuncG ts f -> Program ts' fs -> Program (ts ++ ts') (f :: fs).
End Functions.
End Grammar.

(** *** Tokens that can go on an expression, with the level of the table at which they do *)
Definition goes_on (k : tkind) : nat :=
  match k with
  | T_ASSIGN | T_PLUS_ASSIGN | T_MINUS_ASSIGN | T_STAR_ASSIGN | T_SLASH_ASSIGN | T_PERCENT_ASSIGN => 1
  | T_QUESTION => 2
  | T_OR | T_AND => 3
  | T_EQ | T_NE | T_LT | T_LE | T_GT | T_GE => 4
  | T_PLUS | T_MINUS => 5
  | T_STAR | T_SLASH | T_PERCENT => 6
  | T_CARET => 7
  | T_DOT | T_LBRACKET | T_LPAREN => 9
  | _ => 0
  end.

(** *** Printing with only the parentheses the table requires *)
Definition level (e : expr) : nat :=
  match e with
  | EBin op _ _ =>
      match find (fun x => optok_eqb (fst (fst x)) op) operator_table with Some x => snd x | None => 0 end
  | ECond _ _ _ => 2
  | EUn _ _ => 8
  | _ => 9
  end.
Definition op_lexeme (s : string) : tkind * text :=
  match find (fun x => String.eqb (fst x) s) (symbol_table ++ keyword_table) with
  | Some x => (snd x, lit s) | None => (T_ERROR, lit s) end.
Definition bin_lexeme (op : optok) : tkind * text :=
  match find (fun x => optok_eqb (fst (fst x)) op) operator_table with
  | Some x => op_lexeme (snd (fst x)) | None => (T_ERROR, []) end.
Definition un_lexeme (op : optok) : tkind * text :=
  match find (fun x => optok_eqb (fst x) op) unary_table with Some x => op_lexeme (snd x) | None => (T_ERROR, []) end.
Definition quoted (s : text) : text := quote_char :: s ++ [quote_char].

Section Print.
(** How numbers and index literals are written. *)
Variable num_text : dbl -> option numty -> text.
Variable idx_text : Z -> text.

Definition commas (ls : list (list (tkind * text))) : list (tkind * text) :=
  match ls with [] => [] | l :: ls' => l ++ concat (map (fun x => op_lexeme "," :: x) ls') end.

(** [show n e]: the lexemes of [e] where level [n] or higher is expected. Operators that group to the
    left expect their own level on the left and the next level on the right; the others the other way round. *)
Fixpoint show (n : nat) (e : expr) : list (tkind * text) :=
  let body :=
    match e with
    | EBool b => [(T_BOOL, lit (if b then "true" else "false"))]
    | ENum v ty => [(T_NUMBER, num_text v ty)]
    | EStr t => [(T_STRING, quoted t)]
    | EVar x => [(T_IDENTIFIER, x)]
    | ECall x es => (T_IDENTIFIER, x) :: op_lexeme "(" :: commas (map (show 1) es) ++ [op_lexeme ")"]
    | EMember x ms => (T_IDENTIFIER, x) :: concat (map show_mem ms)
    | EDef x => [op_lexeme "auto"; (T_IDENTIFIER, x)]
    | EArray es => op_lexeme "[" :: commas (map (show 1) es) ++ [op_lexeme "]"]
    | EUn op a => un_lexeme op :: show 9 a
    | EBin op a b =>
        let l := level e in
        if (l =? 1) || (l =? 7) then show (S l) a ++ bin_lexeme op :: show l b
        else show l a ++ bin_lexeme op :: show (S l) b
    | ECond c a b => show 3 c ++ op_lexeme "?" :: show 1 a ++ op_lexeme ":" :: show 2 b
    end in
  if level e <? n then op_lexeme "(" :: body ++ [op_lexeme ")"] else body
with show_mem (m : mem) : list (tkind * text) :=
  match m with
  | MField x None => [op_lexeme "."; (T_IDENTIFIER, x)]
  | MField x (Some es) => op_lexeme "." :: (T_IDENTIFIER, x) :: op_lexeme "(" :: commas (map (show 1) es) ++ [op_lexeme ")"]
  | MKey t => [op_lexeme "["; (T_STRING, quoted t); op_lexeme "]"]
  | MIndex n => [op_lexeme "["; (T_NUMBER, idx_text n); op_lexeme "]"]
  | MVar x => [op_lexeme "["; (T_IDENTIFIER, x); op_lexeme "]"]
  end.

(** Trees that can be written: names are words and no type names, operators are in the table, the texts
    for numbers denote them.  [plain] also excludes an assignment whose target is a conditional. *)
Variable is_dtype : text -> bool.
Definition name_ok (x : text) : Prop := lexeme T_IDENTIFIER x.
Inductive writable : expr -> Prop :=
| w_bool b : writable (EBool b)
| w_num v ty : number (num_text v ty) -> parse_number (num_text v ty) = Some (v, ty) -> writable (ENum v ty)
| w_str t : str_chars t -> writable (EStr t)
| w_var x : name_ok x -> is_dtype x = false -> writable (EVar x)
| w_call x es : name_ok x -> is_dtype x = false -> Forall writable es -> writable (ECall x es)
| w_member x ms : name_ok x -> is_dtype x = false -> ms <> [] -> Forall writable_mem ms -> writable (EMember x ms)
| w_def x : name_ok x -> is_dtype x = false -> writable (EDef x)
| w_array es : Forall writable es -> writable (EArray es)
| w_un op a : In op (map fst unary_table) -> writable a -> writable (EUn op a)
| w_bin op a b : In op (map (fun x => fst (fst x)) operator_table) -> writable a -> writable b -> writable (EBin op a b)
| w_cond c a b : writable c -> writable a -> writable b -> writable (ECond c a b)
with writable_mem : mem -> Prop :=
| w_field x : name_ok x -> writable_mem (MField x None)
| w_fcall x es : name_ok x -> Forall writable es -> writable_mem (MField x (Some es))
| w_key t : str_chars t -> writable_mem (MKey t)
| w_index n : number (idx_text n) -> index_literal (idx_text n) = n -> writable_mem (MIndex n)
| w_ref x : name_ok x -> writable_mem (MVar x).
End Print.

(** Each lexeme is followed by a gap that begins with white space. *)
Definition spaced (ls : written) : Prop := Forall (fun x => gap (snd x) /\ exists c g', snd x = c :: g' /\ space c) ls.

(** No assignment has a conditional as its target. *)
Fixpoint no_cond_target (e : expr) : bool :=
  match e with
  | ECall _ es | EArray es => forallb no_cond_target es
  | EMember _ ms => forallb no_cond_target_mem ms
  | EUn _ a => no_cond_target a
  | EBin op a b =>
      no_cond_target a && no_cond_target b &&
      negb ((level e =? 1) && match a with ECond _ _ _ => true | _ => false end)
  | ECond c a b => no_cond_target c && no_cond_target a && no_cond_target b
  | _ => true
  end
with no_cond_target_mem (m : mem) : bool :=
  match m with MField _ (Some es) => forallb no_cond_target es | _ => true end.
