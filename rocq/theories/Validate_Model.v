(** Model of the checks made before code is generated: rapidudf/ast/{expression,statement,function,context}.cc
    and block.h, for scalar functions, and of the two steps of a compilation.
    Modelled: the same operands and statements as in Codegen_Model, all with scalar types. Not modelled ([Err]):
    string literals, arrays, member and element access, vector functions, functions with a context argument, and
    the operators written like functions that Codegen_Model leaves out. An error status is [Err]; its text is not
    modelled. *)
From Coq Require Import Ascii String List Bool Arith ZArith.
Import ListNotations.
From Verif Require Import Base Lexer_Model Op_Model Number_Model Parser_Model Ir_Model Codegen_Model.

(** context.h:113, LocalVarMap: the variables of a function with their types. One map for the whole function. *)
Definition vars : Type := list (text * vty).
(** context.h:114-115, func_calls and implicit_func_calls: the library functions to declare, here only those of
    operators (an operator and the type of its operands). *)
Definition calls : Type := list (optok * vty).
(** FunctionParseContext (context.h:120-127) *)
Definition fctx : Type := vars * calls.
(** context.h:37-46, VarTag: a type, and the name of the variable it belongs to (none: the empty name). *)
Definition tag : Type := vty * option text.

(** dtype_enums.h:37-56: the code of a scalar type *)
Definition vty_code (t : vty) : Z := match t with TVoid => 1 | TBit => 3 | TNum n => num_code n end%Z.
(** dtype.h:100, IsNumber *)
Definition number (t : vty) : bool := match t with TNum _ => true | _ => false end.
(** dtype.cc:119-133, IsSigned *)
Definition is_signed (t : vty) : bool :=
  match t with TNum (I8 | I16 | I32 | I64 | F32 | F64) => true | _ => false end.
(** context.cc:143-163, CanCastTo; between scalar types no function is needed. *)
Definition cast_ok (a b : vty) : bool := can_cast a (Some b).

(** context.cc:132-141, AddLocalVar: emplace, and a variable without a type gets one. *)
Fixpoint retype (x : text) (t : vty) (Γ : vars) : vars :=
  match Γ with
  | [] => []
  | (y, u) :: Γ' => if text_eqb y x then (y, t) :: Γ' else (y, u) :: retype x t Γ'
  end.
Definition add_local (x : text) (t : vty) (Γ : vars) : vars :=
  match find_text Γ x with
  | None => (x, t) :: Γ
  | Some TVoid => retype x t Γ
  | Some _ => Γ
  end.
(** context.cc:73-90, IsVarExist(name, false) *)
Definition var_tag (x : text) (Γ : vars) : outcome tag :=
  match find_text Γ x with
  | Some t => Ret (t, Some x)
  | None => if text_eqb x (lit "pi") || text_eqb x (lit "e") then Ret (TNum F64, None) else Err
  end.
(** context.cc:73-90, IsVarExist(name, true) *)
Definition fresh (x : text) (Γ : vars) : bool := match find_text Γ x with Some _ => false | None => true end.

(** expression.cc:112-126: the type of a number *)
Definition number_type (v : dbl) (ty : option numty) : outcome numty :=
  match ty with
  | Some t => Ret t
  | None =>
      do! iv <- to_i64 v;
      Ret (if dbl_eqb (of_i64 iv) v then if (iv <=? 2 ^ 31 - 1)%Z then I32 else I64 else F64)
  end.

(** expression.cc:286-329, UnaryExpr::Validate after the operand; the tag stays. *)
Definition check_unary (op : optok) (x : tag) : outcome tag :=
  match op with
  | OP_NOT => if vty_eqb (fst x) TBit then Ret x else Err
  | OP_NEGATIVE => if number (fst x) && is_signed (fst x) then Ret x else Err
  | _ => Ret x
  end.

(** expression.cc:374-419: the operand types are made equal; the types of both sides afterwards *)
Definition unify (op : optok) (l : tag) (r : vty) : outcome (vty * vty) :=
  if vty_eqb (fst l) r then Ret (fst l, r)
  else if vty_eqb (fst l) TVoid && match snd l with Some _ => true | None => false end && optok_eqb op OP_ASSIGN then Ret (fst l, r)
  else if negb (cast_ok (fst l) r) && negb (cast_ok r (fst l)) then Err
  else if number (fst l) && number r then Ret (if (vty_code (fst l) <? vty_code r)%Z then r else fst l, r)
  else if cast_ok (fst l) r then Ret (r, r) else Ret (fst l, fst l).
(** expression.cc:369-559, one step of the loop of BinaryExpr::Validate *)
Definition check_binary (op : optok) (l r : tag) (Γ : fctx) : outcome (tag * fctx) :=
  do! (a, b) <- unify op l (fst r);
  match op with
  | OP_PLUS | OP_MINUS | OP_MULTIPLY | OP_DIVIDE | OP_MOD | OP_PLUS_ASSIGN | OP_MINUS_ASSIGN | OP_MULTIPLY_ASSIGN
  | OP_DIVIDE_ASSIGN | OP_MOD_ASSIGN | OP_POW =>
      if number a && number b then Ret ((a, snd l), Γ) else Err
  | OP_ASSIGN =>
      Ret ((b, snd r), match snd l with Some x => (add_local x b (fst Γ), snd Γ) | None => Γ end)
  | OP_EQUAL | OP_NOT_EQUAL | OP_LESS | OP_LESS_EQUAL | OP_GREATER | OP_GREATER_EQUAL =>
      if number a && number b then Ret ((TBit, None), Γ) else Err
  | OP_LOGIC_AND | OP_LOGIC_OR =>
      if vty_eqb a TBit && vty_eqb b TBit then Ret ((TBit, None), Γ) else Err
  | _ => Err
  end.
(** expression.cc:565-657, SelectExpr::Validate: the type of c ? a : b *)
Definition check_select (c a b : vty) : outcome vty :=
  if vty_eqb c TBit then
    if cast_ok a b then Ret b else if cast_ok b a then Ret a else Err
  else Err.
(** expression.cc:774-792: the largest type of the arguments; [None] is the invalid type. *)
Fixpoint compute_type (acc : option vty) (l : list vty) : option vty :=
  match l with
  | [] => acc
  | t :: l' => compute_type (match acc with Some u => if (vty_code u <? vty_code t)%Z then Some t else acc | None => Some t end) l'
  end.
(** function.cc:141-171, ValidateArgs of a function that is not a vector function *)
Fixpoint check_args (ts ps : list vty) : bool :=
  match ts, ps with
  | [], [] => true
  | t :: ts', p :: ps' => cast_ok t p && check_args ts' ps'
  | _, _ => false
  end.

Section Validate.
(** FunctionFactory: the library function for an operator at a type, by its result type. *)
Variable op_fun : optok -> vty -> option vty.
(** The functions that can be called (context.cc:165-193, CheckFuncExist). *)
Variable fsig : text -> option (list vty * vty).

Section List.
Variable validate : operand -> fctx -> outcome (tag * fctx).
(** expression.cc:187-215, FuncInvokeArgs::Validate: the types of the arguments *)
Fixpoint validate_args (l : list operand) (Γ : fctx) : outcome (list vty * fctx) :=
  match l with
  | [] => Ret ([], Γ)
  | o :: l' => do! (x, Γ) <- validate o Γ; do! (ts, Γ) <- validate_args l' Γ; Ret (fst x :: ts, Γ)
  end.
(** expression.cc:361-559, the loop of BinaryExpr::Validate *)
Fixpoint validate_rest (left : tag) (r : list (optok * operand)) (Γ : fctx) : outcome (tag * fctx) :=
  match r with
  | [] => Ret (left, Γ)
  | (op, y) :: r' =>
      do! (y, Γ) <- validate y Γ;
      do! (left, Γ) <- check_binary op left y Γ;
      validate_rest left r' Γ
  end.
End List.

(** expression.cc:86-141 (validate_operand) and 659-881 (VarAccessor::Validate); expression.cc:170-186 (names).
    The condition, then both branches of ?: are checked before any error of the branches is returned; here the
    first error ends the check. *)
Fixpoint validate (o : operand) (Γ : fctx) {struct o} : outcome (tag * fctx) :=
  match o with
  | O_bool _ => Ret ((TBit, None), Γ)
  | O_num v ty => do! t <- number_type v ty; Ret ((TNum t, None), Γ)
  | O_str _ => Err
  | O_var n None None _ => do! x <- var_tag n (fst Γ); Ret (x, Γ)
  | O_var _ (Some _) _ _ => Err
  | O_var n None (Some args) _ =>
      match builtin_op n with
      | Some op =>
          do! (ts, Γ) <- match args with None => Ret ([], Γ) | Some l => validate_args validate l Γ end;
          match compute_type None ts with
          | Some t => match op_fun op t with Some _ => Ret ((t, None), (fst Γ, (op, t) :: snd Γ)) | None => Err end
          | None => Err
          end
      | None =>
          if other_name n then Err
          else
            match fsig n with
            | None => Err
            | Some (ps, rt) =>
                do! (ts, Γ) <- match args with None => Ret ([], Γ) | Some l => validate_args validate l Γ end;
                if check_args ts ps then Ret ((rt, None), Γ) else Err
            end
      end
  | O_select c (a, b) =>
      do! (c, Γ) <- validate c Γ;
      do! (a, Γ) <- validate a Γ;
      do! (b, Γ) <- validate b Γ;
      do! t <- check_select (fst c) (fst a) (fst b); Ret ((t, None), Γ)
  | O_bin l r _ => do! (l, Γ) <- validate l Γ; validate_rest validate l r Γ
  | O_un op x _ =>
      do! (x, Γ) <- validate x Γ;
      match op with Some op => do! x <- check_unary op x; Ret (x, Γ) | None => Ret (x, Γ) end
  | O_def n _ => if fresh n (fst Γ) then Ret ((TVoid, Some n), (add_local n TVoid (fst Γ), snd Γ)) else Err
  | O_array _ _ => Err
  end.

(** The type that return statements are checked against (context.h:76, GetFuncReturnDType) *)
Variable ret : vty.
(** statement.cc:23-31 (check_statements), block.h:22-31 *)
Definition validate_list (validate_stmt : bool -> stmt -> fctx -> outcome fctx) (loop : bool) : list stmt -> fctx -> outcome fctx :=
  fix validate_list (l : list stmt) (Γ : fctx) : outcome fctx :=
    match l with [] => Ret Γ | s :: l' => do! Γ <- validate_stmt loop s Γ; validate_list l' Γ end.
(** statement.cc:43-52, ChoiceStatement::Validate *)
Definition validate_choice (validate_stmts : list stmt -> fctx -> outcome fctx) (c : operand) (b : list stmt) (Γ : fctx) : outcome fctx :=
  do! (x, Γ) <- validate c Γ;
  if vty_eqb (fst x) TBit then validate_stmts b Γ else Err.
(** statement.cc:62-67 *)
Definition validate_elifs (validate_stmts : list stmt -> fctx -> outcome fctx) : list (operand * list stmt) -> fctx -> outcome fctx :=
  fix validate_elifs (l : list (operand * list stmt)) (Γ : fctx) : outcome fctx :=
    match l with
    | [] => Ret Γ
    | (c, b) :: l' => do! Γ <- validate_choice validate_stmts c b Γ; validate_elifs l' Γ
    end.
(** statement.cc:33-116. [loop]: IsInLoop, in_loop > 0 *)
Fixpoint validate_stmt (loop : bool) (s : stmt) (Γ : fctx) {struct s} : outcome fctx :=
  match s with
  | S_return None => Ret Γ
  | S_return (Some o) => do! (x, Γ) <- validate o Γ; if cast_ok (fst x) ret then Ret Γ else Err
  | S_expr o => do! (_, Γ) <- validate o Γ; Ret Γ
  | S_continue _ | S_break _ => if loop then Ret Γ else Err
  | S_while c b => validate_choice (validate_list validate_stmt true) c b Γ
  | S_ifelse c b es el =>
      do! Γ <- validate_choice (validate_list validate_stmt loop) c b Γ;
      do! Γ <- validate_elifs (validate_list validate_stmt loop) es Γ;
      match el with Some b => validate_list validate_stmt loop b Γ | None => Ret Γ end
  end.
Definition validate_stmts : bool -> list stmt -> fctx -> outcome fctx := validate_list validate_stmt.
(** function.cc:33-52, Function::Validate: the parameters, then the body *)
Fixpoint validate_params (ps : list (vty * text)) (Γ : fctx) : outcome fctx :=
  match ps with
  | [] => Ret Γ
  | (t, x) :: ps' => if fresh x (fst Γ) then validate_params ps' (add_local x t (fst Γ), snd Γ) else Err
  end.
Definition validate_function (ps : list (vty * text)) (body : list stmt) : outcome fctx :=
  do! Γ <- validate_params ps ([], []);
  validate_stmts false body Γ.
End Validate.

Section Compile.
Variable llvm19 : bool.
(** FunctionFactory: the library functions for operators *)
Variable op_fun : optok -> vty -> option vty.
(** codegen.cc:271-277 and 602-640 with compiler.cc:75-93: only the library functions that the checks declared
    can be called. *)
Definition declared_fun (D : calls) (op : optok) (t : vty) : option vty :=
  if existsb (fun c => optok_eqb (fst c) op && vty_eqb (snd c) t) D then op_fun op t else None.
(** compiler.cc:57-70 with grammar.cc:849-882: a source with one function is parsed (not modelled here), checked,
    and its code generated. [fsig]: the registered functions and the function itself. *)
Definition compile_function (fsig : text -> option (list vty * vty)) (ret : vty) (ps : list (vty * text)) (body : list stmt)
  : outcome cfg :=
  do! Γ <- validate_function op_fun fsig ret ps body;
  compile llvm19 (declared_fun (snd Γ)) fsig ret ps body.

(** A function of a source *)
Record udf : Type := Udf { u_name : text; u_ret : vty; u_params : list (vty * text); u_body : list stmt }.
(** context.cc:165-175: a function of the source up to the current one, the first of that name; else a
    registered one. (The code generator looks for a registered function first; the two agree if no function of
    the source has the name of a registered one.) *)
Definition local_sig (us : list udf) (reg : text -> option (list vty * vty)) (f : text) : option (list vty * vty) :=
  match find (fun u => text_eqb (u_name u) f) us with
  | Some u => Some (map fst (u_params u), u_ret u)
  | None => reg f
  end.
Variable reg : text -> option (list vty * vty).
(** grammar.cc:913-926: the functions are checked one after the other; a name may not occur twice.
    statement.cc:83: every return statement is checked against GetFuncReturnDType(), whose default argument 0 is
    the index of the first function (context.h:76). The result: the library functions to declare. *)
Fixpoint validate_functions (ret0 : vty) (done us : list udf) : outcome calls :=
  match us with
  | [] => Ret []
  | u :: us' =>
      do! Γ <- validate_function op_fun (local_sig (done ++ [u]) reg) ret0 (u_params u) (u_body u);
      if existsb (fun v => text_eqb (u_name v) (u_name u)) done then Err
      else do! D <- validate_functions ret0 (done ++ [u]) us'; Ret (snd Γ ++ D)
  end.
(** compiler.cc:73-113, CompileFunctions: the code of each function; a function can call those before it. *)
Fixpoint compile_all (D : calls) (done us : list udf) : outcome (list cfg) :=
  match us with
  | [] => Ret []
  | u :: us' =>
      do! F <- compile llvm19 (declared_fun D) (local_sig (done ++ [u]) reg) (u_ret u) (u_params u) (u_body u);
      do! Fs <- compile_all D (done ++ [u]) us';
      Ret (F :: Fs)
  end.
(** compiler.cc:36-55, CompileSource *)
Definition compile_source (us : list udf) : outcome (list cfg) :=
  do! D <- validate_functions (match us with u :: _ => u_ret u | [] => TVoid end) [] us;
  compile_all D [] us.
End Compile.
