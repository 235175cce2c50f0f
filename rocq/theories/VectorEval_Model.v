(** Model of vector expressions: their types (rapidudf/ast/expression.cc), compilation
    (rapidudf/compiler/compiler_eval.cc:164-509) and the loop that is compiled (codegen_vector.cc, with the documented meaning
    of LLVM's vector instructions: every instruction works lane by lane).
    Modelled: vectors of bits and numbers, scalar operands, !, -, binary operators, ?:, assignments.
    Not modelled: vectors of strings, vector functions, operators written as functions. Where an operator calls a function
    of functions/simd on whole units (functions::has_vector_buitin_func), its documented contract is the operator lane by lane. *)
From Coq Require Import List Bool Arith ZArith.
Import ListNotations.
From Verif Require Import Base Lexer_Model Op_Model Number_Model Ir_Model Codegen_Model Scalar_Model.
Local Open Scope Z_scope.

(** ** Expressions and their types *)
(** Vector variable number [j]; a scalar operand (constant or variable) with its value. *)
Inductive vexpr : Type :=
| EVec (j : nat)
| EScalar (v : val) (t : vty)
| EUn (op : optok) (e : vexpr)
| EBin (op : optok) (a b : vexpr)
| ESel (c a b : vexpr).
(** A type: vector or scalar, and the element type. *)
Definition vtype : Type := bool * vty.
Definition is_num (t : vty) : bool := match t with TNum _ => true | _ => false end.
Definition num_signed (t : vty) : bool := match t with TNum n => d_signed n | _ => false end.
Definition type_eqb (a b : vtype) : bool := Bool.eqb (fst a) (fst b) && vty_eqb (snd a) (snd b).
Definition is_arith (op : optok) : bool :=
  match op with OP_PLUS | OP_MINUS | OP_MULTIPLY | OP_DIVIDE | OP_MOD | OP_POW => true | _ => false end.
Definition code_leb (a b : vty) : bool :=
  match a, b with TNum m, TNum n => num_code m <=? num_code n | _, _ => false end.

(** expression.cc:286-337, UnaryExpr::Validate; the grammar has no other operators in front of an operand (grammar.cc:383). *)
Definition check_unary (op : optok) (t : vtype) : option vtype :=
  match op with
  | OP_NOT => if vty_eqb (snd t) TBit then Some t else None
  | OP_NEGATIVE => if num_signed (snd t) then Some t else None
  | _ => None
  end.
(** expression.cc:360-570, BinaryExpr::Validate, one operator. Scalars here have no other types than bit and numbers.
    Lines 378-416: the operand types fit; of two numbers of different type the left one becomes the larger. *)
Definition check_operands (l r : vtype) : option (vtype * vtype) :=
  if type_eqb l r then Some (l, r)
  else if fst l || fst r then
    if fst l && fst r then None
    else if is_num (snd l) && is_num (snd r) then Some (l, r) else None
  else if is_num (snd l) && is_num (snd r) then Some ((false, if code_leb (snd l) (snd r) then snd r else snd l), r)
  else None.
Definition check_binary (op : optok) (l r : vtype) : option vtype :=
  match check_operands l r with
  | None => None
  | Some (l, r) =>
      if is_arith op then
        if is_num (snd l) && is_num (snd r) then Some (if fst r then r else l) else None
      else if is_compare_op op then
        if is_num (snd l) && is_num (snd r) then Some (fst l || fst r, TBit) else None
      else if optok_eqb op OP_LOGIC_AND || optok_eqb op OP_LOGIC_OR then
        if (fst l && vty_eqb (snd l) TBit) || (fst r && vty_eqb (snd r) TBit) then Some (true, TBit)
        else if type_eqb l (false, TBit) && type_eqb r (false, TBit) then Some (false, TBit) else None
      else None
  end.
(** expression.cc:572-657, SelectExpr::Validate. (The type of a scalar condition's choice: CanCastTo holds between any two
    numbers, so it is that of the last operand.) *)
Definition check_select (c a b : vtype) : option vtype :=
  let can (x y : vtype) := type_eqb x y || (negb (fst x) && negb (fst y) && is_num (snd x) && is_num (snd y)) in
  if type_eqb c (false, TBit) then if can a b then Some b else if can b a then Some a else None
  else if type_eqb c (true, TBit) then
    match fst a, fst b with
    | true, true => if vty_eqb (snd a) (snd b) then Some a else None
    | true, false => if can_cast (snd b) (Some (snd a)) then Some a else None
    | false, true => if can_cast (snd a) (Some (snd b)) then Some b else None
    | false, false => if is_num (snd a) && is_num (snd b) then Some (true, if code_leb (snd b) (snd a) then snd a else snd b) else None
    end
  else None.

(** ** Vectors *)
(** A vector: the type of its elements, its size, and the elements in its memory (bits: there may be more than the size). *)
Record vec : Type := Vec { v_ty : vty; v_size : Z; v_mem : list val }.

Section Eval.
(** Intrinsics and library functions, see Scalar_Model *)
Variable lib : optok -> vty -> list val -> option val.
Variable vecs : nat -> vec.

Fixpoint validate (e : vexpr) : option vtype :=
  match e with
  | EVec j => Some (true, v_ty (vecs j))
  | EScalar _ t => Some (false, t)
  | EUn op e => match validate e with Some t => check_unary op t | None => None end
  | EBin op a b => match validate a, validate b with Some l, Some r => check_binary op l r | _, _ => None end
  | ESel c a b => match validate c, validate a, validate b with Some tc, Some ta, Some tb => check_select tc ta tb | _, _, _ => None end
  end.

(** ** Postfix form and compilation *)
Inductive vnode : Type := N_vec (j : nat) | N_scalar (v : val) (t : vty) | N_op (op : optok).
(** expression.cc: the order in which Validate appends nodes *)
Fixpoint vemit (e : vexpr) : list vnode :=
  match e with
  | EVec j => [N_vec j]
  | EScalar v t => [N_scalar v t]
  | EUn op e => vemit e ++ [N_op op]
  | EBin op a b => vemit a ++ vemit b ++ [N_op op]
  | ESel c a b => vemit c ++ vemit a ++ vemit b ++ [N_op OP_CONDITIONAL]
  end.
(** RPNEvalNode (compiler.h): a vector; a scalar, its type and those it is converted to, one after the other; an operator and
    its op_compute_dtype. *)
Inductive cnode : Type := C_vec (j : nat) | C_scalar (v : val) (t : vty) (casts : list vty) | C_op (op : optok) (t : vty).
(** compiler_eval.cc:320-322: an operand seen by BuildVectorIR: whether its type is a vector, the element type, its leaves. *)
Record voperand : Type := Operand { o_vec : bool; o_ty : vty; o_idxs : list nat }.

(** codegen_cast.cc:90-131 for the value of node [idx]. A vector cannot be converted (dtype.cc:292-316). *)
Definition cast_node (t : vty) (n : cnode) : outcome cnode :=
  match n with
  | C_scalar v s casts =>
      let src := last casts s in
      if vty_eqb src t then Ret n
      else if can_cast src (Some t) && is_num t then Ret (C_scalar v s (casts ++ [t])) else Err
  | C_vec j => Err
  | C_op _ _ => UB
  end.
Fixpoint cast_nodes (t : vty) (idxs : list nat) (ns : list cnode) : outcome (list cnode) :=
  match idxs with
  | [] => Ret ns
  | i :: idxs =>
      match nth_error ns i with
      | None => UB
      | Some n => do! n <- cast_node t n; cast_nodes t idxs (firstn i ns ++ n :: skipn (S i) ns)
      end
  end.
(** compiler_eval.cc:324-370, normalize_operand_dtype; [args]: the operands, first one first. *)
Definition compute_type (args : list voperand) : outcome (vty * bool) :=
  match find o_vec args with
  | Some o => Ret (o_ty o, true)
  | None => match args with o :: _ => Ret (o_ty o, false) | [] => UB end
  end.
Fixpoint cast_operands (t : vty) (args : list voperand) (ns : list cnode) : outcome (list cnode) :=
  match args with
  | [] => Ret ns
  | o :: args =>
      do! ns <- (if vty_eqb (o_ty o) t then Ret ns else cast_nodes t (o_idxs o) ns);
      cast_operands t args ns
  end.
(** compiler_eval.cc:372-434, one node. The stack's top is its head. *)
Definition compile_node (n : vnode) (st : list cnode * list voperand) : outcome (list cnode * list voperand) :=
  let (ns, stack) := st in
  match n with
  | N_vec j => Ret (ns ++ [C_vec j], Operand true (v_ty (vecs j)) [length ns] :: stack)
  | N_scalar v t => Ret (ns ++ [C_scalar v t []], Operand false t [length ns] :: stack)
  | N_op op =>
      match operand_count op with
      | None => UB
      | Some k =>
          let count := if optok_eqb op OP_CONDITIONAL then 2%nat else k in
          if Nat.ltb (length stack) k then UB
          else
            let args := rev (firstn count stack) in
            do! (t, vector) <- compute_type args;
            do! ns <- cast_operands t args ns;
            let idxs := flat_map o_idxs args in
            let result := if is_compare_op op then Operand false TBit idxs else Operand vector t idxs in
            Ret (ns ++ [C_op op t], result :: skipn k stack)
      end
  end.
Fixpoint compile_nodes (l : list vnode) (st : list cnode * list voperand) : outcome (list cnode * list voperand) :=
  match l with [] => Ret st | n :: l => do! st <- compile_node n st; compile_nodes l st end.
Definition compile_vector (l : list vnode) : outcome (list cnode) := do! (ns, _) <- compile_nodes l ([], []); Ret ns.

(** ** The compiled code *)
(** types/vector.h:32 *)
Definition unit_size : Z := 64.
Definition lanes : nat := 64.
Definition ty_width (t : vty) : Z := match t with TVoid => 0 | TBit => 1 | TNum n => ty_bits n end.
(** codegen_vector.cc:189-232: what fills the lanes after the last element; nothing for f80. *)
Definition fill (t : vty) : option val :=
  match t with
  | TNum F80 => None
  | TNum n => if ty_integer n then Some (VInt 1) else Some (VFlt (to_fmt n 1 0 false))
  | _ => None
  end.
Fixpoint all_some {A} (l : list (option A)) : option (list A) :=
  match l with
  | [] => Some []
  | x :: l => match x, all_some l with Some x, Some l => Some (x :: l) | _, _ => None end
  end.
Definition or_ub {A} (o : option A) : outcome A := match o with Some a => Ret a | None => UB end.
(** codegen_vector.cc:159-173 LoadVector; 175-246 LoadNVector with [n] elements left. Reading outside of the memory is undefined. *)
Definition load_vector (x : vec) (cursor : Z) : outcome (list val) :=
  or_ub (all_some (map (fun i => nth_error (v_mem x) (Z.to_nat cursor + i)) (seq 0 lanes))).
Definition load_n_vector (x : vec) (cursor n : Z) : outcome (list val) :=
  match v_ty x with
  | TBit => load_vector x cursor
  | t => or_ub (all_some (map (fun i => if Z.of_nat i <? n then nth_error (v_mem x) (Z.to_nat cursor + i) else fill t) (seq 0 lanes)))
  end.
(** codegen_cast.cc:34-84, before the loop *)
Fixpoint run_casts (v : val) (t : vty) (casts : list vty) : option (val * vty) :=
  match casts with
  | [] => Some (v, t)
  | t' :: casts => match cast t t' v with Some v => run_casts v t' casts | None => None end
  end.
(** codegen_binary.cc:52-259, codegen_unary.cc, codegen_ternary.cc on one lane: the operator at op_compute_dtype [t], operands of
    LLVM type [a]. + - * / % go by the LLVM type of the operands, except for the sign; other operators with [a] different
    from [t] are not modelled (undefined). *)
Definition lane_op (op : optok) (t a : vty) (vs : list val) : option val :=
  if vty_eqb t a then oper lib op t vs
  else
    match op, a, vs with
    | OP_PLUS, _, [_; _] | OP_MINUS, _, [_; _] | OP_MULTIPLY, _, [_; _] | OP_CONDITIONAL, _, _ => oper lib op a vs
    | OP_DIVIDE, TNum n, [VInt x; VInt y] | OP_MOD, TNum n, [VInt x; VInt y] =>
        int_binary lib op a (ty_bits n) (num_signed t) x y
    | OP_DIVIDE, _, [VFlt _; VFlt _] | OP_MOD, _, [VFlt _; VFlt _] => oper lib op a vs
    | _, _, _ => None
    end.
(** compiler_eval.cc:164-274, one node of BuildVectorEvalIR: a stack of LLVM vectors with their element types. Operands of an
    instruction must have one type. The result is stored in a variable of the compute type (line 216), which must have room. *)
Definition lstack : Type := list (vty * list val).
Definition results (op : optok) (t a : vty) (args : list (list val)) : outcome (list val) :=
  or_ub (all_some (map (fun i => match all_some (map (fun l => nth_error l i) args) with
                                 | Some vs => lane_op op t a vs
                                 | None => None
                                 end) (seq 0 lanes))).
Definition eval_vnode (cursor : Z) (left_n : option Z) (n : cnode) (stack : lstack) : outcome lstack :=
  match n with
  | C_vec j =>
      do! l <- match left_n with None => load_vector (vecs j) cursor | Some n => load_n_vector (vecs j) cursor n end;
      Ret ((v_ty (vecs j), l) :: stack)
  | C_scalar v t casts =>
      match run_casts v t casts with Some (v, t) => Ret ((t, repeat v lanes) :: stack) | None => UB end
  | C_op op t =>
      do! (a, args, rest) <-
        match operand_count op, stack with
        | Some 1%nat, (a, x) :: rest => Ret (a, [x], rest)
        | Some 2%nat, (b, y) :: (a, x) :: rest => if vty_eqb a b then Ret (a, [x; y], rest) else UB
        | Some 3%nat, (b, y) :: (a, x) :: (c, z) :: rest =>
            if vty_eqb a b && vty_eqb c (if optok_eqb op OP_CONDITIONAL then TBit else a) then Ret (a, [z; x; y], rest) else UB
        | _, _ => UB
        end;
      do! r <- results op t a args;
      let (res, slot) := if is_compare_op op then (TBit, TBit) else (a, t) in
      if ty_width slot <? ty_width res then UB else Ret ((res, r) :: rest)
  end.
Fixpoint eval_vnodes (cursor : Z) (left_n : option Z) (ns : list cnode) (stack : lstack) : outcome lstack :=
  match ns with [] => Ret stack | n :: ns => do! stack <- eval_vnode cursor left_n n stack; eval_vnodes cursor left_n ns stack end.
(** The first [k] values of [l] written at [i]; [None]: never written *)
Definition write_at (i k : nat) (l : list val) (mem : list (option val)) : outcome (list (option val)) :=
  if Nat.leb (i + k) (length mem) && Nat.leb k (length l)
  then Ret (firstn i mem ++ map Some (firstn k l) ++ skipn (i + k) mem) else UB.
(** codegen_vector.cc:248-291: StoreVector, StoreNVector to a vector of type [t]; for bits both write a whole unit. A value of
    another type would be written in the wrong size (undefined). *)
Definition store_vector (t : vty) (cursor : Z) (left_n : option Z) (x : vty * list val) (mem : list (option val)) : outcome (list (option val)) :=
  if vty_eqb (fst x) t then
    match left_n, t with
    | Some n, TNum _ => write_at (Z.to_nat cursor) (Z.to_nat n) (snd x) mem
    | _, _ => write_at (Z.to_nat cursor) lanes (snd x) mem
    end
  else UB.
Definition eval_block (t : vty) (ns : list cnode) (cursor : Z) (left_n : option Z) (mem : list (option val)) : outcome (list (option val)) :=
  do! stack <- eval_vnodes cursor left_n ns [];
  match rev stack with [] => UB | x :: _ => store_vector t cursor left_n x mem end.

(** context.h:85-102: the elements a new vector of [n] elements has room for; uint32_t byte size *)
Definition align_8 (z : Z) : Z := (z + 7) / 8 * 8.
Definition new_capacity (t : vty) (n : Z) : Z :=
  match t with
  | TBit => 8 * wrapu 32 (align_8 (wrapu 32 (n / 8 + (if n mod 8 =? 0 then 0 else 1))))
  | _ => wrapu 32 (align_8 (wrapu 32 (ty_width t / 8 * n))) / (ty_width t / 8)
  end.
(** compiler_eval.cc:471-503, the loop: int32_t arithmetic. [fuel]: as many rounds at most. *)
Fixpoint vector_loop (fuel : nat) (t : vty) (ns : list cnode) (limit cursor : Z) (mem : list (option val)) : outcome (Z * list (option val)) :=
  if cursor <=? limit then
    match fuel with
    | O => Hang
    | S fuel =>
        do! mem <- eval_block t ns cursor None mem;
        vector_loop fuel t ns limit (wraps 32 (cursor + unit_size)) mem
    end
  else Ret (cursor, mem).
(** compiler_eval.cc:393-425: the sizes of the vectors, in the order of the nodes; a different size throws. *)
Fixpoint same_sizes (ns : list cnode) (size : option Z) : outcome (option Z) :=
  match ns with
  | [] => Ret size
  | C_vec j :: ns =>
      match size with
      | None => same_sizes ns (Some (v_size (vecs j)))
      | Some n => if n =? v_size (vecs j) then same_sizes ns size else Err
      end
  | _ :: ns => same_sizes ns size
  end.
(** The elements written, from the first on *)
Fixpoint initialized (mem : list (option val)) : list val :=
  match mem with Some v :: mem => v :: initialized mem | _ => [] end.
(** The result vector. [Err]: an exception. *)
Definition run_vector (fuel : nat) (t : vty) (ns : list cnode) : outcome vec :=
  do! size <- same_sizes ns None;
  match size with
  | None => UB
  | Some n =>
      let mem := repeat None (Z.to_nat (new_capacity t n)) in
      do! (cursor, mem) <- vector_loop fuel t ns (wraps 32 (n - unit_size)) 0 mem;
      do! mem <- (if cursor <? n then eval_block t ns cursor (Some (wraps 32 (n - cursor))) mem else Ret mem);
      Ret (Vec t n (initialized mem))
  end.
(** compiler_eval.cc:276-317 and 504-509: the variable assigned to, the nodes that are evaluated. *)
Definition split_assign (l : list vnode) : option nat * list vnode :=
  match l, rev l with
  | N_vec j :: rest, N_op op :: _ =>
      match op with
      | OP_ASSIGN => (Some j, removelast rest)
      | OP_PLUS_ASSIGN => (Some j, removelast l ++ [N_op OP_PLUS])
      | OP_MINUS_ASSIGN => (Some j, removelast l ++ [N_op OP_MINUS])
      | OP_MULTIPLY_ASSIGN => (Some j, removelast l ++ [N_op OP_MULTIPLY])
      | OP_DIVIDE_ASSIGN => (Some j, removelast l ++ [N_op OP_DIVIDE])
      | OP_MOD_ASSIGN => (Some j, removelast l ++ [N_op OP_MOD])
      | _ => (None, l)
      end
  | _, _ => (None, l)
  end.
(** compiler_eval.cc:276-509 BuildVectorIR and its code: the result and the variables afterwards. [Err]: the expression does not
    compile, or an exception. A single vector is not copied. CopyFrom (value.cc) of another type is not modelled (undefined). *)
Definition run_statement (fuel : nat) (t : vty) (l : list vnode) : outcome (vec * (nat -> vec)) :=
  let (target, l) := split_assign l in
  do! r <- match l with
           | [N_vec k] => Ret (vecs k)
           | [] | [N_scalar _ _] => UB
           | _ => do! ns <- compile_vector l; run_vector fuel t ns
           end;
  match target with
  | None => Ret (r, vecs)
  | Some j => if vty_eqb (v_ty (vecs j)) (v_ty r) then Ret (r, fun k => if Nat.eqb k j then r else vecs k) else UB
  end.
End Eval.
