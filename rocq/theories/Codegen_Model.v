(** Model of the compilation of scalar functions: the postfix form of expressions (rapidudf/ast/expression.cc),
    rapidudf/compiler/{compiler,compiler_eval,compiler_expressions,compiler_constants,compiler_statements}.cc,
    codegen{,_binary,_unary,_ternary,_cast,_value}.cc and value.cc.
    Modelled: bool, number, variable, declaration, unary, binary, conditional and call nodes; all statements.
    Not modelled ([Err]): string literals, arrays, member and element access, vector functions, the context
    argument. Every value has a scalar type. *)
From Coq Require Import Ascii String List Bool Arith ZArith.
Import ListNotations.
From Verif Require Import Base Lexer_Model Op_Model Number_Model Parser_Model Ir_Model.

(** ** Types *)
(** FundamentalType codes (dtype_enums.h:37-56). *)
Definition num_code (n : numty) : Z :=
  match n with
  | U8 => 4 | I8 => 5 | U16 => 6 | I16 => 7 | U32 => 8 | I32 => 9 | U64 => 10 | I64 => 11
  | F32 => 13 | F64 => 14 | F80 => 15
  end%Z.
(** dtype.cc:292-316, DType::CanCastTo between scalar types; [None] is the invalid type. *)
Definition can_cast (a : vty) (b : option vty) : bool :=
  match a, b with
  | TVoid, _ => true
  | TNum _, Some (TNum _) => true
  | _, Some b => vty_eqb a b
  | _, None => false
  end.
(** codegen.cc:194-213, NormalizeDType: the number type with the largest code; on scalar types
    DType::operator> compares codes. *)
Fixpoint max_num (acc : option numty) (l : list vty) : option numty :=
  match l with
  | [] => acc
  | TNum n :: l' =>
      max_num (match acc with Some m => if (num_code m <? num_code n)%Z then Some n else Some m | None => Some n end) l'
  | _ :: l' => max_num acc l'
  end.
Definition normalize (l : list vty) : outcome vty :=
  let t := match max_num None l with Some n => Some (TNum n) | None => None end in
  if forallb (fun d => can_cast d t) l then match t with Some t => Ret t | None => UB end else Err.

(** ** Postfix form *)
(** meta/operand.h:226-247 and optype.h:25-118: operators by arity. *)
Definition is_compare_op (op : optok) : bool := ((op_code OP_EQUAL <=? op_code op) && (op_code op <=? op_code OP_GREATER_EQUAL))%Z.
Definition is_unary_op (op : optok) : bool := ((op_code OP_POSITIVE <=? op_code op) && (op_code op <=? op_code OP_APPROX_RECIP_SQRT))%Z.
Definition is_binary_op (op : optok) : bool := ((op_code OP_PLUS <=? op_code op) && (op_code op <=? op_code OP_ABS_DIFF))%Z.
Definition is_ternary_op (op : optok) : bool := ((op_code OP_CONDITIONAL <=? op_code op) && (op_code op <=? op_code OP_FNMS))%Z.
(** operand.h:237-248, get_operand_count; [None] for -1 *)
Definition operand_count (op : optok) : option nat :=
  if is_unary_op op then Some 1 else if is_binary_op op then Some 2 else if is_ternary_op op then Some 3 else None.

(** functions.cc:37-63, get_buitin_func_op: the operator written like a function. Modelled for the scalar
    functions of docs/ast.md; the names of all other operators (dot, sort, add, assign, ...) are not. *)
Definition named_ops : list optok :=
  [OP_SQRT; OP_CBRT; OP_FLOOR; OP_CEIL; OP_ROUND; OP_RINT; OP_TRUNC; OP_ERF; OP_ERFC; OP_ABS; OP_SIN; OP_COS; OP_TAN;
   OP_ASIN; OP_ACOS; OP_ATAN; OP_ATANH; OP_SINH; OP_COSH; OP_TANH; OP_ASINH; OP_ACOSH; OP_EXP; OP_EXP2; OP_EXPM1;
   OP_LOG; OP_LOG2; OP_LOG10; OP_LOG1P; OP_APPROX_RECIP; OP_APPROX_RECIP_SQRT; OP_ATAN2; OP_MAX; OP_MIN; OP_POW;
   OP_HYPOT; OP_ABS_DIFF; OP_CLAMP; OP_FMA; OP_FMS; OP_FNMA; OP_FNMS].
Definition builtin_op (name : text) : option optok := find (fun op => text_eqb (op_str op) name) named_ops.
Definition other_ops : list optok :=
  [OP_POSITIVE; OP_NEGATIVE; OP_NOT; OP_PLUS; OP_MINUS; OP_MULTIPLY; OP_DIVIDE; OP_MOD; OP_ASSIGN; OP_PLUS_ASSIGN;
   OP_MINUS_ASSIGN; OP_MULTIPLY_ASSIGN; OP_DIVIDE_ASSIGN; OP_MOD_ASSIGN; OP_EQUAL; OP_NOT_EQUAL; OP_LESS; OP_LESS_EQUAL;
   OP_GREATER; OP_GREATER_EQUAL; OP_LOGIC_AND; OP_LOGIC_OR; OP_LOGIC_XOR; OP_CONDITIONAL; OP_DOT; OP_COS_DISTANCE;
   OP_L2_DISTANCE; OP_IOTA; OP_SORT; OP_SELECT; OP_TOPK; OP_SORT_KV; OP_SELECT_KV; OP_TOPK_KV; OP_ARG_SORT;
   OP_ARG_SELECT; OP_SUM; OP_AVG; OP_CLONE; OP_FILTER; OP_GATHER].
Definition other_name (name : text) : bool := existsb (fun op => text_eqb (op_str op) name) other_ops.

(** expression.h:44-66, RPN nodes; a call carries the postfix forms of its arguments. *)
Inductive node : Type :=
| N_bool (b : bool)
| N_num (v : dbl) (ty : option numty)
| N_var (name : text)
| N_def (name : text)
| N_call (f : text) (args : list (list node))
| N_op (op : optok)
| N_other.

(** The nodes Validate appends for an operand: expression.cc:86-141 (operands), 187-215 (arguments),
    286-294 (unary), 361-372 (binary), 572-591 (conditional), 659-881 (variables and calls). The order of
    nodes does not depend on the types for scalar expressions. *)
Fixpoint emit (o : operand) : list node :=
  match o with
  | O_bool b => [N_bool b]
  | O_num v ty => [N_num v ty]
  | O_str _ => [N_other]
  | O_var n None None _ => [N_var n]
  | O_var _ (Some _) _ _ => [N_other]
  | O_var n None (Some args) _ =>
      match builtin_op n with
      | Some op => (match args with None => [] | Some l => flat_map emit l end) ++ [N_op op]
      | None => if other_name n then [N_other] else [N_call n (match args with None => [] | Some l => map emit l end)]
      end
  | O_select c (a, b) => emit c ++ emit a ++ emit b ++ [N_op OP_CONDITIONAL]
  | O_bin l r _ => emit l ++ flat_map (fun x => match x with (op, y) => emit y ++ [N_op op] end) r
  | O_un op x _ => emit x ++ match op with Some op => [N_op op] | None => [] end
  | O_def n _ => [N_def n]
  | O_array _ _ => [N_other]
  end.

(** ** Values and the state of the generator *)
(** value.h: dtype_, and val_ with ptr_element_type_: nothing yet, a stack slot, or a computed value. *)
Inductive loc : Type := LNone | LSlot (s : nat) | LVal (o : opnd).
Record value : Type := Val { v_ty : vty; v_loc : loc }.

(** codegen.h: the builder with its insertion block, and the current FunctionValue. Values are shared
    pointers, here indices into [objs]. *)
Record cg : Type := Cg {
  blks : cfg; cur : nat; nreg : nat; nslot : nat; objs : list value; named : list (text * nat);
  loops : list (nat * nat); exit_b : nat; ret_ty : vty; ret_slot : option nat }.
Definition set_blks x σ := Cg x (cur σ) (nreg σ) (nslot σ) (objs σ) (named σ) (loops σ) (exit_b σ) (ret_ty σ) (ret_slot σ).
Definition set_cur x σ := Cg (blks σ) x (nreg σ) (nslot σ) (objs σ) (named σ) (loops σ) (exit_b σ) (ret_ty σ) (ret_slot σ).
Definition set_nreg x σ := Cg (blks σ) (cur σ) x (nslot σ) (objs σ) (named σ) (loops σ) (exit_b σ) (ret_ty σ) (ret_slot σ).
Definition set_nslot x σ := Cg (blks σ) (cur σ) (nreg σ) x (objs σ) (named σ) (loops σ) (exit_b σ) (ret_ty σ) (ret_slot σ).
Definition set_objs x σ := Cg (blks σ) (cur σ) (nreg σ) (nslot σ) x (named σ) (loops σ) (exit_b σ) (ret_ty σ) (ret_slot σ).
Definition set_named x σ := Cg (blks σ) (cur σ) (nreg σ) (nslot σ) (objs σ) x (loops σ) (exit_b σ) (ret_ty σ) (ret_slot σ).
Definition set_loops x σ := Cg (blks σ) (cur σ) (nreg σ) (nslot σ) (objs σ) (named σ) x (exit_b σ) (ret_ty σ) (ret_slot σ).

Definition set_nth {A} (k : nat) (a : A) (l : list A) : list A := firstn k l ++ a :: skipn (S k) l.
(** IRBuilder: append an entry to the insertion block *)
Definition put (i : item) (σ : cg) : cg :=
  match nth_error (blks σ) (cur σ) with
  | Some b => set_blks (set_nth (cur σ) (Blk (b_in b) (b_items b ++ [i])) (blks σ)) σ
  | None => σ
  end.
(** BasicBlock::Create with ([true]) or without a parent function *)
Definition new_block (inserted : bool) (σ : cg) : nat * cg := (length (blks σ), set_blks (blks σ ++ [Blk inserted []]) σ).
(** insertInto and removeFromParent *)
Definition set_inserted (v : bool) (b : nat) (σ : cg) : cg :=
  match nth_error (blks σ) b with
  | Some x => set_blks (set_nth b (Blk v (b_items x)) (blks σ)) σ
  | None => σ
  end.
(** GetInsertBlock()->getTerminator() != nullptr, and the same for a given block *)
Definition block_term (b : nat) (σ : cg) : bool := has_term (items_of (blks σ) b).
Definition cur_term (σ : cg) : bool := block_term (cur σ) σ.
(** hasNPredecessorsOrMore(1): some terminator refers to the block *)
Definition has_pred (b : nat) (σ : cg) : bool :=
  existsb (fun x => existsb (fun i => existsb (Nat.eqb b) (targets i)) (b_items x)) (blks σ).

(** NewValue *)
Definition new_value (t : vty) (l : loc) (σ : cg) : nat * cg := (length (objs σ), set_objs (objs σ ++ [Val t l]) σ).
Definition new_reg (σ : cg) : nat * cg := (nreg σ, set_nreg (S (nreg σ)) σ).
Definition new_slot (σ : cg) : nat * cg := (nslot σ, set_nslot (S (nslot σ)) σ).
Definition obj (id : nat) (σ : cg) : outcome value := match nth_error (objs σ) id with Some v => Ret v | None => UB end.

(** value.cc:34-39, LoadValue. A null value is only ever dereferenced by the callers: undefined. *)
Definition load_value (id : nat) (σ : cg) : outcome (opnd * cg) :=
  do! v <- obj id σ;
  match v_loc v with
  | LNone => UB
  | LVal o => Ret (o, σ)
  | LSlot s => let (r, σ) := new_reg σ in Ret (OReg r, put (Ins (ILoad r s)) σ)
  end.

(** value.cc:50-77, CopyFrom. *)
Definition copy_from (id other : nat) (σ : cg) : outcome cg :=
  do! v <- obj id σ;
  do! u <- obj other σ;
  if vty_eqb (v_ty v) TVoid then
    match v_loc u with
    | LSlot _ => Ret (set_objs (set_nth id u (objs σ)) σ)
    | LNone => UB
    | LVal o =>
        if vty_eqb (v_ty u) TVoid then UB
        else match v_loc v with
             | LNone =>
                 let (s, σ) := new_slot σ in
                 let σ := set_objs (set_nth id (Val (v_ty u) (LSlot s)) (objs σ)) σ in
                 Ret (put (Ins (IStore o s)) (put (Ins (IAlloca s)) σ))
             | _ => UB
             end
    end
  else if negb (vty_eqb (v_ty v) (v_ty u)) then Err
  else match v_loc v with
       | LSlot s => do! (o, σ) <- load_value other σ; Ret (put (Ins (IStore o s)) σ)
       | _ => Err
       end.

(** codegen_cast.cc:34-131, CastTo between scalar types. Converting a value of type void dereferences null
    or builds an ill-typed instruction: undefined. *)
Definition cast_to (id : nat) (t : vty) (σ : cg) : outcome (nat * cg) :=
  do! v <- obj id σ;
  if vty_eqb (v_ty v) t then Ret (id, σ)
  else if negb (can_cast (v_ty v) (Some t)) then Err
  else match t with
       | TNum _ =>
           if vty_eqb (v_ty v) TVoid then UB
           else do! (o, σ) <- load_value id σ;
                let (r, σ) := new_reg σ in
                Ret (new_value t (LVal (OReg r)) (put (Ins (IPrim r (PCast (v_ty v) t) [o])) σ))
       | _ => Err
       end.

Definition is_int (t : vty) : bool := match t with TNum n => ty_integer n | _ => false end.
Definition is_flt (t : vty) : bool := match t with TNum n => negb (ty_integer n) | _ => false end.
(** codegen_binary.cc:52-259: the operators with an instruction or intrinsic at a scalar type *)
Definition bin_builtin (op : optok) (t : vty) : bool :=
  match op with
  | OP_PLUS | OP_MINUS | OP_MULTIPLY | OP_DIVIDE | OP_MOD => true
  | OP_LOGIC_OR | OP_LOGIC_AND | OP_LOGIC_XOR => vty_eqb t TBit
  | OP_EQUAL | OP_NOT_EQUAL | OP_GREATER | OP_GREATER_EQUAL | OP_LESS | OP_LESS_EQUAL | OP_POW | OP_MAX | OP_MIN =>
      is_int t || is_flt t
  | _ => false
  end.
(** codegen_ternary.cc:47-85 *)
Definition tern_builtin (op : optok) (t : vty) : bool :=
  match op with OP_CONDITIONAL => true | OP_FMA => is_flt t | _ => false end.
(** codegen_binary.cc:267-299: compound assignments *)
Definition plain_op (op : optok) : optok * bool :=
  match op with
  | OP_ASSIGN => (OP_ASSIGN, true)
  | OP_PLUS_ASSIGN => (OP_PLUS, true) | OP_MINUS_ASSIGN => (OP_MINUS, true) | OP_MULTIPLY_ASSIGN => (OP_MULTIPLY, true)
  | OP_DIVIDE_ASSIGN => (OP_DIVIDE, true) | OP_MOD_ASSIGN => (OP_MOD, true)
  | op => (op, false)
  end.

Section Codegen.
(** LLVM_VERSION_MAJOR >= 19 (codegen_unary.cc:163) *)
Variable llvm19 : bool.
(** FunctionFactory: the library function for an operator at a type, by its result type. *)
Variable op_fun : optok -> vty -> option vty.
(** The functions that can be called: registered functions and the UDFs of the same source. *)
Variable fsig : text -> option (list vty * vty).

(** codegen_unary.cc:46-242 *)
Definition un_builtin (op : optok) (t : vty) : bool :=
  match op with
  | OP_NEGATIVE | OP_NOT | OP_ABS => true
  | OP_SIN | OP_COS | OP_FLOOR | OP_SQRT | OP_CEIL | OP_ROUND | OP_EXP | OP_EXP2 | OP_LOG | OP_LOG2 | OP_LOG10
  | OP_RINT | OP_TRUNC => is_flt t
  | OP_TAN | OP_ASIN | OP_ACOS | OP_ATAN | OP_SINH | OP_COSH | OP_TANH => llvm19 && is_flt t
  | _ => false
  end.

(** An operation on operands: an instruction, or the library function for the operator. *)
Definition put_op (builtin : bool) (op : optok) (t res : vty) (os : list opnd) (σ : cg) : outcome (nat * cg) :=
  let (r, σ) := new_reg σ in
  if builtin then Ret (new_value res (LVal (OReg r)) (put (Ins (IPrim r (POp op t) os)) σ))
  else match op_fun op t with
       | Some rt => Ret (new_value rt (LVal (OReg r)) (put (Ins (IPrim r (PFun op t) os)) σ))
       | None => Err
       end.

(** codegen_unary.cc:224-238, UnaryOp. *)
Definition unary_op_ir (op : optok) (id : nat) (σ : cg) : outcome (nat * cg) :=
  do! v <- obj id σ;
  if vty_eqb (v_ty v) TVoid then UB
  else do! (o, σ) <- load_value id σ; put_op (un_builtin op (v_ty v)) op (v_ty v) (v_ty v) [o] σ.

(** codegen_binary.cc:261-362, BinaryOp. The operands are reloaded for the call of a library function;
    a load twice is a load. *)
Definition binary_op_ir (op : optok) (l r : nat) (σ : cg) : outcome (nat * cg) :=
  let (op, need_assign) := plain_op op in
  if optok_eqb op OP_ASSIGN then
    do! σ <- copy_from l r σ; Ret (l, σ)
  else
    do! vl <- obj l σ;
    do! vr <- obj r σ;
    do! (t, l, r, σ) <-
      (if vty_eqb (v_ty vl) (v_ty vr) then Ret (v_ty vl, l, r, σ)
       else do! t <- normalize [v_ty vl; v_ty vr];
            do! (l, σ) <- cast_to l t σ;
            do! (r, σ) <- cast_to r t σ;
            Ret (t, l, r, σ));
    if vty_eqb t TVoid then UB
    else
      do! (lo, σ) <- load_value l σ;
      do! (ro, σ) <- load_value r σ;
      do! (res, σ) <- put_op (bin_builtin op t) op t (if is_compare_op op then TBit else t) [lo; ro] σ;
      if need_assign then do! σ <- copy_from l res σ; Ret (l, σ) else Ret (res, σ).

(** codegen_ternary.cc:86-153, TernaryOp *)
Definition ternary_op_ir (op : optok) (a b c : nat) (σ : cg) : outcome (nat * cg) :=
  do! va <- obj a σ;
  do! vb <- obj b σ;
  do! vc <- obj c σ;
  do! (t, a, b, c, σ) <-
    (if optok_eqb op OP_CONDITIONAL then
       if negb (vty_eqb (v_ty va) TBit) then Err
       else if vty_eqb (v_ty vb) (v_ty vc) then Ret (v_ty vb, a, b, c, σ)
       else do! t <- normalize [v_ty vb; v_ty vc];
            do! (b, σ) <- cast_to b t σ;
            do! (c, σ) <- cast_to c t σ;
            Ret (t, a, b, c, σ)
     else
       do! t <- normalize [v_ty va; v_ty vb; v_ty vc];
       do! (b, σ) <- cast_to b t σ;
       do! (c, σ) <- cast_to c t σ;
       do! (a, σ) <- cast_to a t σ;
       Ret (t, a, b, c, σ));
  if vty_eqb t TVoid then UB
  else
    do! (ao, σ) <- load_value a σ;
    do! (bo, σ) <- load_value b σ;
    do! (co, σ) <- load_value c σ;
    put_op (tern_builtin op t) op t t [ao; bo; co] σ.

(** codegen.cc:602-714, CallFunction: cast and load each argument, then call. Scalars are not passed by
    value through memory (PassArgByValue). *)
Fixpoint call_args (ids : list nat) (ts : list vty) (σ : cg) : outcome (list opnd * cg) :=
  match ids, ts with
  | [], [] => Ret ([], σ)
  | id :: ids', t :: ts' =>
      do! (id, σ) <- cast_to id t σ;
      do! (o, σ) <- load_value id σ;
      do! (os, σ) <- call_args ids' ts' σ;
      Ret (o :: os, σ)
  | _, _ => Err
  end.
Definition call_function (f : text) (ids : list nat) (σ : cg) : outcome (nat * cg) :=
  match fsig f with
  | None => Err
  | Some (ts, rt) =>
      do! (os, σ) <- call_args ids ts σ;
      let (r, σ) := new_reg σ in
      Ret (new_value rt (LVal (OReg r)) (put (Ins (ICall r f os)) σ))
  end.

(** codegen.cc:254-267, GetLocalVar, with kConstantNames (meta/constants.h). *)
Definition get_local_var (x : text) (σ : cg) : outcome (nat * cg) :=
  match find_text (named σ) x with
  | Some id => Ret (id, σ)
  | None =>
      if text_eqb x (lit "pi") then Ret (new_value (TNum F64) (LVal (OConst KPi)) σ)
      else if text_eqb x (lit "e") then Ret (new_value (TNum F64) (LVal (OConst KE)) σ)
      else Err
  end.
(** codegen_value.cc:153-157, NewVoid; named_values.emplace keeps an existing entry. *)
Definition new_void (x : text) (σ : cg) : nat * cg :=
  let (id, σ) := new_value TVoid LNone σ in
  (id, match find_text (named σ) x with Some _ => σ | None => set_named ((x, id) :: named σ) σ end).
(** The type of a constant, compiler_constants.cc:24-57. *)
Definition const_ty (c : const) : numty := match c with CInt t _ => t | CFloat t _ => t end.

(** ** Evaluation of the postfix form *)
(** compiler_eval.cc: RPNEvalNode *)
Inductive enode : Type := E_val (id : nat) | E_op (op : optok).

(** compiler_eval.cc:100-162, the operand stack; the head of the list is the top. *)
Definition eval_node (n : enode) (stack : list nat) (σ : cg) : outcome (list nat * cg) :=
  match n with
  | E_val id => Ret (id :: stack, σ)
  | E_op op =>
      match operand_count op, stack with
      | Some 1, x :: stack => do! (r, σ) <- unary_op_ir op x σ; Ret (r :: stack, σ)
      | Some 2, y :: x :: stack => do! (r, σ) <- binary_op_ir op x y σ; Ret (r :: stack, σ)
      | Some 3, z :: y :: x :: stack => do! (r, σ) <- ternary_op_ir op x y z σ; Ret (r :: stack, σ)
      | _, _ => Err
      end
  end.
Fixpoint eval_nodes (ns : list enode) (stack : list nat) (σ : cg) : outcome (list nat * cg) :=
  match ns with
  | [] => Ret (stack, σ)
  | n :: ns' => do! (stack, σ) <- eval_node n stack σ; eval_nodes ns' stack σ
  end.
Definition eval_stack (ns : list enode) (σ : cg) : outcome (nat * cg) :=
  do! (stack, σ) <- eval_nodes ns [] σ;
  match stack with [id] => Ret (id, σ) | _ => Err end.

Section BuildNodes.
(** BuildIR of one node *)
Variable build_node : node -> cg -> outcome (enode * cg).
(** compiler_eval.cc:47-92: the first loop, over all nodes of the postfix form *)
Fixpoint build_nodes (ns : list node) (σ : cg) : outcome (list enode * cg) :=
  match ns with
  | [] => Ret ([], σ)
  | n :: ns' => do! (e, σ) <- build_node n σ; do! (es, σ) <- build_nodes ns' σ; Ret (e :: es, σ)
  end.
(** compiler_eval.cc:42-98 *)
Definition build_rpn_with (ns : list node) (σ : cg) : outcome (nat * cg) :=
  do! (es, σ) <- build_nodes ns σ; eval_stack es σ.
(** compiler_expressions.cc:103-109: the arguments of a call *)
Fixpoint build_args (l : list (list node)) (σ : cg) : outcome (list nat * cg) :=
  match l with
  | [] => Ret ([], σ)
  | ns :: l' => do! (id, σ) <- build_rpn_with ns σ; do! (ids, σ) <- build_args l' σ; Ret (id :: ids, σ)
  end.
End BuildNodes.

(** compiler_eval.cc:52-80 and compiler_expressions.cc:39-46, 96-112, 147-150 *)
Fixpoint build_node (n : node) (σ : cg) {struct n} : outcome (enode * cg) :=
  match n with
  | N_bool b => let (id, σ) := new_value TBit (LVal (OConst (KBool b))) σ in Ret (E_val id, σ)
  | N_num v ty =>
      do! c <- build_const (v, ty);
      let (id, σ) := new_value (TNum (const_ty c)) (LVal (OConst (KNum c))) σ in Ret (E_val id, σ)
  | N_var x => do! (id, σ) <- get_local_var x σ; Ret (E_val id, σ)
  | N_def x => let (id, σ) := new_void x σ in Ret (E_val id, σ)
  | N_op op => Ret (E_op op, σ)
  | N_other => Err
  | N_call f args =>
      do! (ids, σ) <- build_args build_node args σ;
      do! (id, σ) <- call_function f ids σ;
      Ret (E_val id, σ)
  end.
Definition build_rpn (ns : list node) (σ : cg) : outcome (nat * cg) := build_rpn_with build_node ns σ.
Definition build_expr (o : operand) (σ : cg) : outcome (nat * cg) := build_rpn (emit o) σ.

(** ** Statements *)
(** codegen.cc:462-477, Return *)
Definition return_ir (val : option nat) (σ : cg) : outcome cg :=
  match val with
  | None => Ret (put (Br (exit_b σ)) σ)
  | Some id =>
      do! (id, σ) <- cast_to id (ret_ty σ) σ;
      match ret_slot σ with
      | Some s => do! (o, σ) <- load_value id σ; Ret (put (Br (exit_b σ)) (put (Ins (IStore o s)) σ))
      | None => Ret (put (Br (exit_b σ)) σ)
      end
  end.
(** codegen.cc:478-492 *)
Definition break_ir (σ : cg) : outcome cg := match loops σ with [] => Err | (_, e) :: _ => Ret (put (Br e) σ) end.
Definition continue_ir (σ : cg) : outcome cg := match loops σ with [] => Err | (c, _) :: _ => Ret (put (Br c) σ) end.
(** codegen.cc:494-511, NewLoop: (cond, body, end) *)
Definition new_loop (σ : cg) : nat * nat * nat * cg :=
  let (c, σ) := new_block true σ in
  let (e, σ) := new_block false σ in
  let (b, σ) := new_block false σ in
  let σ := set_loops ((c, e) :: loops σ) σ in
  let σ := if cur_term σ then σ else put (Br c) σ in
  (c, b, e, set_cur c σ).
(** codegen.cc:512-517, AddLoopCond *)
Definition add_loop_cond (b e : nat) (id : nat) (σ : cg) : outcome cg :=
  do! (o, σ) <- load_value id σ;
  Ret (set_cur b (set_inserted true b (put (CondBr o b e) σ))).
(** codegen.cc:518-525, FinishLoop *)
Definition finish_loop (c e : nat) (σ : cg) : cg :=
  let σ := if cur_term σ then σ else put (Br c) σ in
  let σ := set_cur e (set_inserted true e σ) in
  set_loops (tl (loops σ)) σ.

(** codegen.cc:527-550, NewCondition: if_body, the (cond, body) pairs of the elifs, else_body, end *)
Fixpoint new_elifs (n : nat) (σ : cg) : list (nat * nat) * cg :=
  match n with
  | O => ([], σ)
  | S n => let (c, σ) := new_block true σ in let (b, σ) := new_block true σ in
           let (l, σ) := new_elifs n σ in ((c, b) :: l, σ)
  end.
Definition new_condition (elifs : nat) (has_else : bool) (σ : cg) : nat * list (nat * nat) * option nat * nat * cg :=
  let (i, σ) := new_block true σ in
  let (es, σ) := new_elifs elifs σ in
  let (el, σ) := (if has_else then let (b, σ) := new_block true σ in (Some b, σ) else (None, σ)) in
  let (e, σ) := new_block true σ in
  (i, es, el, e, σ).
(** codegen.cc:553-558 and 574-579: the block to test next *)
Definition next_block (es : list (nat * nat)) (el : option nat) (e : nat) : nat :=
  match es with (c, _) :: _ => c | [] => match el with Some b => b | None => e end end.
(** codegen.cc:552-562 BeginIf and 573-582 EndElifCond *)
Definition branch_ir (id body next : nat) (σ : cg) : outcome cg :=
  do! (o, σ) <- load_value id σ; Ret (set_cur body (put (CondBr o body next) σ)).
(** codegen.cc:563-571, EndIf: the test is on the insertion block *)
Definition end_if (e : nat) (σ : cg) : cg := if cur_term σ then σ else put (Br e) σ.
(** codegen.cc:583-587 EndElif and 589-593 EndElse: the test is on the block the branch started with *)
Definition end_branch (first e : nat) (σ : cg) : cg := if block_term first σ then σ else put (Br e) σ.
(** codegen.cc:594-600, FinishCondition *)
Definition finish_condition (e : nat) (σ : cg) : cg :=
  if negb (has_pred e σ) then set_inserted false e σ else set_cur e σ.

(** statement.cc:43-52, ChoiceStatement::Validate: the condition of if, elif and while has type bit. (Checked
    before code is generated.) *)
Definition build_cond (o : operand) (σ : cg) : outcome (nat * cg) :=
  do! (id, σ) <- build_expr o σ;
  do! v <- obj id σ;
  if vty_eqb (v_ty v) TBit then Ret (id, σ) else Err.

(** compiler_statements.cc:23-31 *)
Definition build_list (build_stmt : stmt -> cg -> outcome cg) : list stmt -> cg -> outcome cg :=
  fix build_list (l : list stmt) (σ : cg) : outcome cg :=
    match l with [] => Ret σ | s :: l' => do! σ <- build_stmt s σ; build_list l' σ end.
(** compiler_statements.cc:57-70: the elif branches *)
Definition build_elifs (build_stmts : list stmt -> cg -> outcome cg) (el : option nat) (e : nat)
  : list (operand * list stmt) -> list (nat * nat) -> cg -> outcome cg :=
  fix build_elifs (l : list (operand * list stmt)) (es : list (nat * nat)) (σ : cg) : outcome cg :=
    match l, es with
    | [], _ => Ret σ
    | (c, ss) :: l', (cb, bb) :: es' =>
        do! (id, σ) <- build_cond c (set_cur cb σ);
        do! σ <- branch_ir id bb (next_block es' el e) σ;
        do! σ <- build_stmts ss σ;
        build_elifs l' es' (end_branch bb e σ)
    | _ :: _, [] => UB
    end.

(** compiler_statements.cc:32-112 *)
Fixpoint build_stmt (s : stmt) (σ : cg) {struct s} : outcome cg :=
  match s with
  | S_return None => return_ir None σ
  | S_return (Some o) => do! (id, σ) <- build_expr o σ; return_ir (Some id) σ
  | S_expr o => do! (_, σ) <- build_expr o σ; Ret σ
  | S_continue _ => continue_ir σ
  | S_break _ => break_ir σ
  | S_while c body =>
      let '(cb, bb, eb, σ) := new_loop σ in
      do! (id, σ) <- build_cond c σ;
      do! σ <- add_loop_cond bb eb id σ;
      do! σ <- build_list build_stmt body σ;
      Ret (finish_loop cb eb σ)
  | S_ifelse c body elifs els =>
      do! (id, σ) <- build_cond c σ;
      let '(ib, es, el, e, σ) := new_condition (length elifs) (match els with Some _ => true | None => false end) σ in
      do! σ <- branch_ir id ib (next_block es el e) σ;
      do! σ <- build_list build_stmt body σ;
      do! σ <- build_elifs (build_list build_stmt) el e elifs es (end_if e σ);
      do! σ <-
        match els, el with
        | Some ss, Some lb => do! σ <- build_list build_stmt ss (set_cur lb σ); Ret (end_branch lb e σ)
        | _, _ => Ret σ
        end;
      Ret (finish_condition e σ)
  end.
Definition build_stmts : list stmt -> cg -> outcome cg := build_list build_stmt.

(** ** Functions *)
(** codegen.cc:376-412: a stack slot for each argument *)
Fixpoint define_args (i : nat) (l : list (vty * text)) (σ : cg) : cg :=
  match l with
  | [] => σ
  | (t, x) :: l' =>
      let (s, σ) := new_slot σ in
      let σ := put (Ins (IStore (OArg i) s)) (put (Ins (IAlloca s)) σ) in
      let (id, σ) := new_value t (LSlot s) σ in
      define_args (S i) l' (set_named ((x, id) :: named σ) σ)
  end.
(** codegen.cc:359-419, DefineFunction: block 0 is the entry, block 1 the exit, not inserted yet. *)
Definition define_function (ret : vty) (args : list (vty * text)) : cg :=
  let σ := Cg [Blk true []; Blk false []] 0 0 0 [] [] [] 1 ret None in
  let σ := match ret with
           | TVoid => σ
           | _ => let (s, σ) := new_slot σ in
                  let σ := put (Ins (IAlloca s)) σ in
                  Cg (blks σ) (cur σ) (nreg σ) (nslot σ) (objs σ) (named σ) (loops σ) (exit_b σ) (ret_ty σ) (Some s)
           end in
  define_args 0 args σ.
(** codegen.cc:421-430, FinishFunction *)
Definition finish_function (σ : cg) : cg :=
  let σ := if cur_term σ then σ else put (Br (exit_b σ)) σ in
  let σ := set_cur (exit_b σ) (set_inserted true (exit_b σ) σ) in
  match ret_slot σ with
  | Some s => let (r, σ) := new_reg σ in put (RetVal (OReg r)) (put (Ins (ILoad r s)) σ)
  | None => put RetVoid σ
  end.
(** compiler.cc:178-197, BuildIR(Function) *)
Definition compile (ret : vty) (args : list (vty * text)) (body : list stmt) : outcome cfg :=
  do! σ <- build_stmts body (define_function ret args);
  Ret (blks (finish_function σ)).
End Codegen.
