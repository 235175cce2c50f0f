(** The meaning of scalar functions, written without reference to the code generator: typed evaluation of
    expression trees from left to right, execution of structured statements over an environment, and the
    classes of programs the theorems speak about. *)
From Coq Require Import Ascii String List Bool Arith ZArith.
Import ListNotations.
From Verif Require Import Base Lexer_Model Op_Model Number_Model Parser_Model Parser_Spec Ir_Model.

(** *** Operators *)
(** The functions of docs/ast.md that are operators, with their number of operands. *)
Definition function_operators : list (text * (optok * nat)) :=
  [(lit "sqrt", (OP_SQRT, 1)); (lit "cbrt", (OP_CBRT, 1)); (lit "floor", (OP_FLOOR, 1)); (lit "ceil", (OP_CEIL, 1));
   (lit "round", (OP_ROUND, 1)); (lit "rint", (OP_RINT, 1)); (lit "trunc", (OP_TRUNC, 1)); (lit "erf", (OP_ERF, 1));
   (lit "erfc", (OP_ERFC, 1)); (lit "abs", (OP_ABS, 1)); (lit "sin", (OP_SIN, 1)); (lit "cos", (OP_COS, 1));
   (lit "tan", (OP_TAN, 1)); (lit "asin", (OP_ASIN, 1)); (lit "acos", (OP_ACOS, 1)); (lit "atan", (OP_ATAN, 1));
   (lit "atanh", (OP_ATANH, 1)); (lit "sinh", (OP_SINH, 1)); (lit "cosh", (OP_COSH, 1)); (lit "tanh", (OP_TANH, 1));
   (lit "asinh", (OP_ASINH, 1)); (lit "acosh", (OP_ACOSH, 1)); (lit "exp", (OP_EXP, 1)); (lit "exp2", (OP_EXP2, 1));
   (lit "expm1", (OP_EXPM1, 1)); (lit "log", (OP_LOG, 1)); (lit "log2", (OP_LOG2, 1)); (lit "log10", (OP_LOG10, 1));
   (lit "log1p", (OP_LOG1P, 1)); (lit "approx_recip", (OP_APPROX_RECIP, 1));
   (lit "approx_recip_sqrt", (OP_APPROX_RECIP_SQRT, 1)); (lit "atan2", (OP_ATAN2, 2)); (lit "max", (OP_MAX, 2));
   (lit "min", (OP_MIN, 2)); (lit "pow", (OP_POW, 2)); (lit "hypot", (OP_HYPOT, 2)); (lit "abs_diff", (OP_ABS_DIFF, 2));
   (lit "clamp", (OP_CLAMP, 3)); (lit "fma", (OP_FMA, 3)); (lit "fms", (OP_FMS, 3)); (lit "fnma", (OP_FNMA, 3));
   (lit "fnms", (OP_FNMS, 3))].
Definition comparison (op : optok) : bool :=
  existsb (optok_eqb op) [OP_EQUAL; OP_NOT_EQUAL; OP_LESS; OP_LESS_EQUAL; OP_GREATER; OP_GREATER_EQUAL].
(** Compound assignments *)
Definition compound : list (optok * optok) :=
  [(OP_PLUS_ASSIGN, OP_PLUS); (OP_MINUS_ASSIGN, OP_MINUS); (OP_MULTIPLY_ASSIGN, OP_MULTIPLY);
   (OP_DIVIDE_ASSIGN, OP_DIVIDE); (OP_MOD_ASSIGN, OP_MOD)].
(** The operators between operands (docs/ast.md levels 3 to 7) and in front of one *)
Definition infix_ops : list optok :=
  [OP_LOGIC_OR; OP_LOGIC_AND; OP_EQUAL; OP_NOT_EQUAL; OP_LESS; OP_LESS_EQUAL; OP_GREATER; OP_GREATER_EQUAL;
   OP_PLUS; OP_MINUS; OP_MULTIPLY; OP_DIVIDE; OP_MOD; OP_POW].
Definition prefix_ops : list optok := [OP_NEGATIVE; OP_NOT].

(** The number types from narrow to wide: operands are converted to the widest of their types. *)
Definition widening : list numty := [U8; I8; U16; I16; U32; I32; U64; I64; F32; F64; F80].
Definition numty_eq_dec (a b : numty) : {a = b} + {a <> b}.
Proof. decide equality. Defined.
Fixpoint rank_in (l : list numty) (n : numty) : nat :=
  match l with [] => 0 | m :: l' => if numty_eq_dec m n then 0 else S (rank_in l' n) end.
Definition rank : numty -> nat := rank_in widening.
Definition wider (a b : numty) : numty := if rank a <? rank b then b else a.
Definition integral (n : numty) : bool := rank n <? rank F32.

(** The operators that are available at a type without a library function *)
Definition core (llvm19 : bool) (op : optok) (t : vty) : bool :=
  let is l := existsb (optok_eqb op) l in
  let number := match t with TNum _ => true | _ => false end in
  let float := match t with TNum n => negb (integral n) | _ => false end in
  is [OP_PLUS; OP_MINUS; OP_MULTIPLY; OP_DIVIDE; OP_MOD; OP_NEGATIVE; OP_NOT; OP_ABS; OP_CONDITIONAL]
  || is [OP_LOGIC_OR; OP_LOGIC_AND; OP_LOGIC_XOR] && vty_eqb t TBit
  || (comparison op || is [OP_POW; OP_MAX; OP_MIN]) && number
  || (is [OP_SIN; OP_COS; OP_FLOOR; OP_SQRT; OP_CEIL; OP_ROUND; OP_EXP; OP_EXP2; OP_LOG; OP_LOG2; OP_LOG10; OP_RINT;
          OP_TRUNC; OP_FMA]
      || llvm19 && is [OP_TAN; OP_ASIN; OP_ACOS; OP_ATAN; OP_SINH; OP_COSH; OP_TANH]) && float.

(** *** Evaluation *)
Section Semantics.
Context {V W : Type}.
Variable oper : optok -> vty -> list V -> option V.  (* an operator at a type; None: undefined *)
Variable conv : vty -> vty -> V -> option V.         (* conversion between number types *)
Variable ext : text -> W -> list V -> outcome (W * V).  (* a function called with converted arguments *)
Variable konst_val : konst -> V.
Variable truth : V -> bool.
Variable llvm19 : bool.
Variable op_fun : optok -> vty -> option vty.         (* operators with a library function: the type of the result *)
Variable fsig : text -> option (list vty * vty).     (* functions: parameter types and result type *)

(** What the operations of the intermediate code compute: conversions, and operators, whether they are
    instructions or library functions. *)
Definition ir_prim (p : prim) (vs : list V) : option V :=
  match p with
  | PCast a b => match vs with [v] => conv a b v | _ => None end
  | POp op t | PFun op t => oper op t vs
  end.

Definition env : Type := text -> option (vty * V).
Definition set_var (ρ : env) (x : text) (t : vty) (v : V) : env := fun y => if text_eqb y x then Some (t, v) else ρ y.
Definition defined {A} (x : option A) : outcome A := match x with Some a => Ret a | None => UB end.
Definition typed {A} (x : option A) : outcome A := match x with Some a => Ret a | None => Err end.

(** Conversion to a type: only between number types. *)
Definition convert (x : vty * V) (t : vty) : outcome V :=
  let (s, v) := x in
  if vty_eqb s t then Ret v
  else match s, t with TNum _, TNum _ => defined (conv s t v) | _, _ => Err end.
Fixpoint convert_all (xs : list (vty * V)) (t : vty) : outcome (list V) :=
  match xs with [] => Ret [] | x :: xs' => do! v <- convert x t; do! vs <- convert_all xs' t; Ret (v :: vs) end.
(** The widest of the types, all number types *)
Fixpoint widest (ts : list vty) : option numty :=
  match ts with
  | [] => None
  | TNum n :: ts' =>
      match ts' with [] => Some n | _ => match widest ts' with Some m => Some (wider n m) | None => None end end
  | _ => None
  end.
(** The type at which an operator works: one operand has its own type; equal types stay; otherwise the
    widest. The operators fma, clamp, ... with three operands work on numbers. *)
Definition common (ts : list vty) : option vty :=
  match ts with
  | [t] => Some t
  | [t1; t2] => if vty_eqb t1 t2 then Some t1 else option_map TNum (widest ts)
  | _ => option_map TNum (widest ts)
  end.
Definition result_type (op : optok) (t : vty) : option vty :=
  if vty_eqb t TVoid then None
  else if core llvm19 op t then Some (if comparison op then TBit else t) else op_fun op t.
Definition apply_op (op : optok) (xs : list (vty * V)) : outcome (vty * V) :=
  do! t <- typed (common (map fst xs));
  do! rt <- typed (result_type op t);
  do! vs <- convert_all xs t;
  do! v <- defined (oper op t vs);
  Ret (rt, v).
(** c ? a : b *)
Definition apply_cond (c a b : vty * V) : outcome (vty * V) :=
  if negb (vty_eqb (fst c) TBit) then Err
  else
    do! t <- typed (common [fst a; fst b]);
    do! rt <- typed (result_type OP_CONDITIONAL t);
    do! vs <- convert_all [a; b] t;
    do! v <- defined (oper OP_CONDITIONAL t (snd c :: vs));
    Ret (rt, v).
Fixpoint convert_each (xs : list (vty * V)) (ts : list vty) : outcome (list V) :=
  match xs, ts with
  | [], [] => Ret []
  | x :: xs', t :: ts' => do! v <- convert x t; do! vs <- convert_each xs' ts'; Ret (v :: vs)
  | _, _ => Err
  end.

(** An expression without assignments, strings, arrays and members: the new state of the world, and the
    value with its type. All operands are evaluated, from left to right. [Err]: no meaning (types). *)
Fixpoint eval (ρ : env) (w : W) (e : expr) : outcome (W * (vty * V)) :=
  let evals := fix evals w (es : list expr) : outcome (W * list (vty * V)) :=
    match es with
    | [] => Ret (w, [])
    | e :: es' => do! (w, x) <- eval ρ w e; do! (w, xs) <- evals w es'; Ret (w, x :: xs)
    end in
  match e with
  | EBool b => Ret (w, (TBit, konst_val (KBool b)))
  | ENum v ty =>
      do! c <- build_const (v, ty);
      Ret (w, (TNum (match c with CInt t _ => t | CFloat t _ => t end), konst_val (KNum c)))
  | EVar x =>
      match ρ x with
      | Some (t, v) => Ret (w, (t, v))
      | None => if text_eqb x (lit "pi") then Ret (w, (TNum F64, konst_val KPi))
                else if text_eqb x (lit "e") then Ret (w, (TNum F64, konst_val KE)) else UB
      end
  | EUn op a => do! (w, x) <- eval ρ w a; do! r <- apply_op op [x]; Ret (w, r)
  | EBin op a b =>
      do! (w, x) <- eval ρ w a; do! (w, y) <- eval ρ w b; do! r <- apply_op op [x; y]; Ret (w, r)
  | ECond c a b =>
      do! (w, z) <- eval ρ w c; do! (w, x) <- eval ρ w a; do! (w, y) <- eval ρ w b;
      do! r <- apply_cond z x y; Ret (w, r)
  | ECall f es =>
      do! (w, xs) <- evals w es;
      match find_text function_operators f with
      | Some (op, _) => do! r <- apply_op op xs; Ret (w, r)
      | None =>
          do! (ts, rt) <- typed (fsig f);
          do! vs <- convert_each xs ts;
          do! (w, v) <- ext f w vs; Ret (w, (rt, v))
      end
  | _ => Err
  end.

(** *** Execution *)
Inductive signal : Type := Next | Broke | Continued | Returned (v : option V).
(** An expression statement. Assignment needs the type of the variable; a declaration takes the type of the
    initialiser. *)
Definition exec_expr (ρ : env) (w : W) (e : expr) : outcome (env * W) :=
  match e with
  | EBin OP_ASSIGN (EDef x) a =>
      do! (w, (t, v)) <- eval ρ w a; if vty_eqb t TVoid then Err else Ret (set_var ρ x t v, w)
  | EBin OP_ASSIGN (EVar x) a =>
      do! (w, (t, v)) <- eval ρ w a;
      do! (tx, _) <- defined (ρ x);
      if vty_eqb tx t then Ret (set_var ρ x t v, w) else Err
  | EBin op a b =>
      match find (fun p => optok_eqb (fst p) op) compound, a with
      | Some (_, op), EVar x =>
          do! (w, y) <- eval ρ w b;
          do! (tx, vx) <- defined (ρ x);
          do! (t, v) <- apply_op op [(tx, vx); y];
          if vty_eqb tx t then Ret (set_var ρ x t v, w) else Err
      | _, _ => do! (w, _) <- eval ρ w e; Ret (ρ, w)
      end
  | _ => do! (w, _) <- eval ρ w e; Ret (ρ, w)
  end.
Definition eval_cond (ρ : env) (w : W) (c : expr) : outcome (W * bool) :=
  do! (w, (t, v)) <- eval ρ w c; if vty_eqb t TBit then Ret (w, truth v) else Err.

Variable ret_type : vty.
(** [n] bounds the number of iterations of each loop; [Hang] when a loop goes beyond. *)
Variable n : nat.
Fixpoint exec (ρ : env) (w : W) (s : st) {struct s} : outcome (signal * env * W) :=
  let execs := fix execs ρ w (l : list st) : outcome (signal * env * W) :=
    match l with
    | [] => Ret (Next, ρ, w)
    | s :: l' =>
        do! (g, ρ, w) <- exec ρ w s;
        match g with Next => execs ρ w l' | _ => Ret (g, ρ, w) end
    end in
  match s with
  | StReturn None => Ret (Returned None, ρ, w)
  | StReturn (Some e) =>
      do! (w, x) <- eval ρ w e;
      do! v <- convert x ret_type;
      Ret (Returned (if vty_eqb ret_type TVoid then None else Some v), ρ, w)
  | StExpr e => do! (ρ, w) <- exec_expr ρ w e; Ret (Next, ρ, w)
  | StBreak => Ret (Broke, ρ, w)
  | StContinue => Ret (Continued, ρ, w)
  | StWhile c b =>
      (fix loop (k : nat) (ρ : env) (w : W) : outcome (signal * env * W) :=
         match k with
         | O => Hang
         | S k =>
             do! (w, t) <- eval_cond ρ w c;
             if negb t then Ret (Next, ρ, w)
             else do! (g, ρ, w) <- execs ρ w b;
                  match g with
                  | Next | Continued => loop k ρ w
                  | Broke => Ret (Next, ρ, w)
                  | Returned v => Ret (Returned v, ρ, w)
                  end
         end) n ρ w
  | StIf c b es el =>
      do! (w, t) <- eval_cond ρ w c;
      if t then execs ρ w b
      else
        (fix elifs ρ w (es : list (expr * list st)) : outcome (signal * env * W) :=
           match es with
           | [] => match el with Some b => execs ρ w b | None => Ret (Next, ρ, w) end
           | (c, b) :: es' => do! (w, t) <- eval_cond ρ w c; if t then execs ρ w b else elifs ρ w es'
           end) ρ w es
  end.
Definition execs : env -> W -> list st -> outcome (signal * env * W) :=
  fix execs ρ w (l : list st) : outcome (signal * env * W) :=
    match l with
    | [] => Ret (Next, ρ, w)
    | s :: l' =>
        do! (g, ρ, w) <- exec ρ w s;
        match g with Next => execs ρ w l' | _ => Ret (g, ρ, w) end
    end.
(** A call of a function: the value it returns. A function with a result type must return a value. *)
Fixpoint bind_args (ps : list (vty * text)) (vs : list V) (ρ : env) : env :=
  match ps, vs with
  | (t, x) :: ps', v :: vs' => bind_args ps' vs' (set_var ρ x t v)
  | _, _ => ρ
  end.
Definition run_body (params : list (vty * text)) (args : list V) (w : W) (body : list st) : outcome (option V * W) :=
  do! (g, ρ, w) <- execs (bind_args params args (fun _ => None)) w body;
  match g with
  | Returned (Some v) => Ret (Some v, w)
  | Returned None | Next => if vty_eqb ret_type TVoid then Ret (None, w) else UB
  | Broke | Continued => Err
  end.
End Semantics.
Arguments signal : clear implicits.

(** *** Classes of programs *)
(** Expressions without assignments, declarations, strings, arrays and members, in which operators have
    their number of operands. *)
Fixpoint pure (e : expr) : bool :=
  match e with
  | EBool _ | ENum _ _ | EVar _ => true
  | EUn op a => existsb (optok_eqb op) prefix_ops && pure a
  | EBin op a b => existsb (optok_eqb op) infix_ops && pure a && pure b
  | ECond c a b => pure c && pure a && pure b
  | ECall f es =>
      forallb pure es &&
      match find_text function_operators f with Some (_, k) => length es =? k | None => true end
  | _ => false
  end.
(** The names an expression reads *)
Fixpoint reads (e : expr) : list text :=
  match e with
  | EVar x => [x]
  | EUn _ a => reads a
  | EBin _ a b => reads a ++ reads b
  | ECond c a b => reads c ++ reads a ++ reads b
  | ECall _ es => flat_map reads es
  | _ => []
  end.
Definition is_var (e : expr) : bool := match e with EVar _ => true | _ => false end.
(** auto x = a with a computed value, x = a, x op= a, or a computed expression *)
Definition simple_expr (e : expr) : bool :=
  match e with
  | EBin OP_ASSIGN (EDef x) a => pure a && negb (is_var a) && negb (existsb (text_eqb x) (reads a))
  | EBin op (EVar x) a =>
      if optok_eqb op OP_ASSIGN || existsb (optok_eqb op) (map fst compound) then pure a else pure e
  | _ => pure e && negb (is_var e)
  end.
Fixpoint simple (s : st) : bool :=
  match s with
  | StReturn None | StBreak | StContinue => true
  | StReturn (Some e) => pure e
  | StExpr e => simple_expr e
  | StWhile c b => pure c && forallb simple b
  | StIf c b es el =>
      pure c && forallb simple b && forallb (fun x => match x with (c, b) => pure c && forallb simple b end) es &&
      match el with Some b => forallb simple b | None => true end
  end.
(** The names a statement declares *)
Fixpoint declares (s : st) : list text :=
  match s with
  | StExpr (EBin OP_ASSIGN (EDef x) _) => [x]
  | StWhile _ b => flat_map declares b
  | StIf _ b es el =>
      flat_map declares b ++ flat_map (fun x => match x with (_, b) => flat_map declares b end) es ++
      match el with Some b => flat_map declares b | None => [] end
  | _ => []
  end.
(** Every name is declared once, and no name is that of a constant. *)
Definition names_ok (params : list (vty * text)) (body : list st) : Prop :=
  NoDup (map snd params ++ flat_map declares body) /\
  ~ In (lit "pi") (map snd params ++ flat_map declares body) /\ ~ In (lit "e") (map snd params ++ flat_map declares body).

(** A statement after which control never goes on to the next one *)
Fixpoint leaves (s : st) : bool :=
  let last_leaves := fix last_leaves (l : list st) : bool :=
    match l with [] => false | [s] => leaves s | _ :: l' => last_leaves l' end in
  match s with
  | StReturn _ | StBreak | StContinue => true
  | StIf _ b es (Some el) => last_leaves b && forallb (fun x => match x with (_, b) => last_leaves b end) es && last_leaves el
  | _ => false
  end.
Definition last_leaves : list st -> bool :=
  fix last_leaves (l : list st) : bool := match l with [] => false | [s] => leaves s | _ :: l' => last_leaves l' end.
Definition flat (s : st) : bool := match s with StWhile _ _ | StIf _ _ _ _ => false | _ => true end.
(** Nothing follows a statement that leaves, and the bodies of elif and else leave or contain no nested
    if or while. *)
Fixpoint shaped (s : st) : bool :=
  let shaped_list := fix shaped_list (l : list st) : bool :=
    match l with [] => true | [s] => shaped s | s :: l' => shaped s && negb (leaves s) && shaped_list l' end in
  match s with
  | StWhile _ b => shaped_list b
  | StIf _ b es el =>
      shaped_list b && forallb (fun x => match x with (_, b) => shaped_list b && (last_leaves b || forallb flat b) end) es &&
      match el with Some b => shaped_list b && (last_leaves b || forallb flat b) | None => true end
  | _ => true
  end.
Definition shaped_list : list st -> bool :=
  fix shaped_list (l : list st) : bool :=
    match l with [] => true | [s] => shaped s | s :: l' => shaped s && negb (leaves s) && shaped_list l' end.
