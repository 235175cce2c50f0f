(** Model of the built-in numeric functions, on scalars and on vectors: rapidudf/functions/math.cc, rapidudf/functions/simd/vector_unary.cc,
    vector_binary.cc, vector_ternary.cc, their registration (math.cc:403-448, simd_vector.cc:198-237), and the choice of an implementation
    (ast/expression.cc:762-866, compiler/compiler_eval.cc:164-213, codegen_unary.cc:46-222, codegen_binary.cc:52-259, codegen_ternary.cc:46-80).
    Modelled: floor, ceil, round, rint, trunc, sqrt, abs, abs_diff, max, min, clamp, fma, fms, fnma, fnms on float, double and integers.
    Not modelled: the other functions (sin, exp, pow, ...: no exact meaning is documented), f80, arguments of different types. *)
From Coq Require Import List Bool Arith ZArith.
Import ListNotations.
From Flocq Require Import Core BinarySingleNaN.
From Verif Require Import Base Lexer_Model Op_Model Number_Model.

(** ** The loops of the kernels *)
(** rapidudf/types/vector.h, kVectorUnitSize *)
Definition unit_size : nat := 64.
Section Kernel.
Context {A : Type}.
(** hn::LoadU and hn::StoreU of [n] lanes at [p + i] *)
Definition loadU (n : nat) (p : list A) (i : nat) : outcome (list A) :=
  if Nat.leb (i + n) (length p) then Ret (firstn n (skipn i p)) else UB.
Definition storeU (v : list A) (p : list A) (i : nat) : outcome (list A) :=
  if Nat.leb (i + length v) (length p) then Ret (firstn i p ++ v ++ skipn (i + length v) p) else UB.
(** The loop [for (idx = 0; idx < kVectorUnitSize; idx += N)] of do_unary_transform (vector_unary.cc:162-173), do_binary_transform
    (vector_binary.cc:75-86) and do_ternary_transform (vector_ternary.cc:57-69) *)
Fixpoint units (n : nat) (body : nat -> outcome (list A)) (fuel idx : nat) (out : list A) : outcome (list A) :=
  if Nat.ltb idx unit_size then
    match fuel with
    | O => Hang
    | S fuel =>
        do! v <- body idx;
        do! out <- storeU v out idx;
        units n body fuel (idx + n) out
    end
  else Ret out.
(** Highway's functions work lane by lane; [n] is the number of lanes of a register. *)
Definition unary_kernel (n : nat) (f : A -> A) (a out : list A) : outcome (list A) :=
  units n (fun idx => do! x <- loadU n a idx; Ret (map f x)) unit_size 0 out.
Definition binary_kernel (n : nat) (f : A -> A -> A) (a b out : list A) : outcome (list A) :=
  units n (fun idx => do! x <- loadU n a idx; do! y <- loadU n b idx; Ret (map (fun p => f (fst p) (snd p)) (combine x y))) unit_size 0 out.
Definition ternary_kernel (n : nat) (f : A -> A -> A -> A) (a b c out : list A) : outcome (list A) :=
  units n (fun idx => do! x <- loadU n a idx; do! y <- loadU n b idx; do! z <- loadU n c idx;
                      Ret (map (fun p => f (fst p) (fst (snd p)) (snd (snd p))) (combine x (combine y z)))) unit_size 0 out.
End Kernel.

(** ** Floating point *)
Section Floats.
Variables prec emax : Z.
Context (prec_gt_0_ : Prec_gt_0 prec) (prec_lt_emax_ : Prec_lt_emax prec emax).
Notation F := (binary_float prec emax).
Notation add := (Bplus mode_NE). Notation sub := (Bminus mode_NE). Notation mul := (Bmult mode_NE). Notation fma := (Bfma mode_NE).
(** hn::Max and hn::Min (contract: MathFn_Spec.v), and the order in which hn::Clamp passes the value and the lower bound to Max *)
Variables vmax vmin : F -> F -> F.
Variable value_first : bool.
(** Whether hn::MulAdd and the others are fused on the processor; whether the C++ compiler contracts [a * b - c] of math.cc *)
Variables fused contracted : bool.

(** One operand, scalar: the LLVM intrinsics of codegen_unary.cc:67-157 as the LLVM Language Reference describes them, in the default
    rounding mode: llvm.round is halfway cases away from zero, llvm.rint to nearest even. *)
Definition s_unary (op : optok) (x : F) : outcome F :=
  match op with
  | OP_FLOOR => Ret (Bnearbyint mode_DN x)
  | OP_CEIL => Ret (Bnearbyint mode_UP x)
  | OP_TRUNC => Ret (Bnearbyint mode_ZR x)
  | OP_ROUND => Ret (Bnearbyint mode_NA x)
  | OP_RINT => Ret (Bnearbyint mode_NE x)
  | OP_SQRT => Ret (Bsqrt mode_NE x)
  | OP_ABS => Ret (Babs x)
  | _ => Err
  end.
(** One operand, one lane of a vector: do_simd_unary_op, vector_unary.cc:45-160; hn::Round is to nearest even, SLEEF's rint too.
    abs of a vector is the instruction (no kernel is registered). *)
Definition v_unary (op : optok) (x : F) : outcome F :=
  match op with
  | OP_FLOOR => Ret (Bnearbyint mode_DN x)
  | OP_CEIL => Ret (Bnearbyint mode_UP x)
  | OP_TRUNC => Ret (Bnearbyint mode_ZR x)
  | OP_ROUND => Ret (Bnearbyint mode_NE x)
  | OP_RINT => Ret (Bnearbyint mode_NE x)
  | OP_SQRT => Ret (Bsqrt mode_NE x)
  | OP_ABS => Ret (Babs x)
  | _ => Err
  end.
(** math.cc:327-336, scalar_abs_diff; vector_binary.cc:48-49, hn::AbsDiff = Abs(Sub) *)
Definition s_abs_diff (a b : F) : outcome F := Ret (Babs (sub a b)).
Definition v_abs_diff (a b : F) : F := Babs (sub a b).
(** math.cc:314-317, std::clamp: undefined if [hi < lo] *)
Definition s_clamp (v lo hi : F) : outcome F :=
  if Bltb hi lo then UB else Ret (if Bltb v lo then lo else if Bltb hi v then hi else v).
(** vector_ternary.cc:41-42, hn::Clamp = Min(Max(lo, v), hi) *)
Definition v_clamp (v lo hi : F) : F := vmin (if value_first then vmax v lo else vmax lo v) hi.
(** codegen_ternary.cc:60-68, llvm.fma *)
Definition s_fma (a b c : F) : F := fma a b c.
(** math.cc:345-356 *)
Definition s_fms (a b c : F) : F := if contracted then fma a b (Bopp c) else sub (mul a b) c.
Definition s_fnma (a b c : F) : F := if contracted then fma (Bopp a) b c else add (mul (Bopp a) b) c.
Definition s_fnms (a b c : F) : F := if contracted then fma (Bopp a) b (Bopp c) else sub (mul (Bopp a) b) c.
(** vector_ternary.cc:43-51: MulAdd, MulSub, NegMulAdd, NegMulSub *)
Definition v_fma (a b c : F) : F := if fused then fma a b c else add (mul a b) c.
Definition v_fms (a b c : F) : F := if fused then fma a b (Bopp c) else sub (mul a b) c.
Definition v_fnma (a b c : F) : F := if fused then fma (Bopp a) b c else sub c (mul a b).
Definition v_fnms (a b c : F) : F := if fused then fma (Bopp a) b (Bopp c) else sub (Bopp (mul a b)) c.
(** Three operands, by operator *)
Definition s_ternary (op : optok) (a b c : F) : outcome F :=
  match op with
  | OP_CLAMP => s_clamp a b c
  | OP_FMA => Ret (s_fma a b c)
  | OP_FMS => Ret (s_fms a b c)
  | OP_FNMA => Ret (s_fnma a b c)
  | OP_FNMS => Ret (s_fnms a b c)
  | _ => Err
  end.
Definition v_ternary (op : optok) (a b c : F) : outcome F :=
  match op with
  | OP_CLAMP => Ret (v_clamp a b c)
  | OP_FMA => Ret (v_fma a b c)
  | OP_FMS => Ret (v_fms a b c)
  | OP_FNMA => Ret (v_fnma a b c)
  | OP_FNMS => Ret (v_fnms a b c)
  | _ => Err
  end.
End Floats.

(** ** Integers of [w] bits, as numbers *)
Local Open Scope Z_scope.
Definition in_type (w : Z) (signed : bool) (z : Z) : bool :=
  if signed then (- 2 ^ (w - 1) <=? z) && (z <? 2 ^ (w - 1)) else (0 <=? z) && (z <? 2 ^ w).
Definition wrap (w : Z) (signed : bool) (z : Z) : Z := if signed then wraps w z else wrapu w z.
(** math.cc:327-336: [a > b ? a - b : b - a]; overflow of a signed type is undefined *)
Definition s_abs_diff_int (w : Z) (signed : bool) (a b : Z) : outcome Z :=
  let d := if b <? a then a - b else b - a in
  if signed && negb (in_type w signed d) then UB else Ret (wrap w signed d).
(** hn::AbsDiff = Sub(Max, Min) *)
Definition v_abs_diff_int (w : Z) (signed : bool) (a b : Z) : Z := wrap w signed (Z.max a b - Z.min a b).
Definition s_clamp_int (v lo hi : Z) : outcome Z :=
  if hi <? lo then UB else Ret (if v <? lo then lo else if hi <? v then hi else v).
Definition v_clamp_int (v lo hi : Z) : Z := Z.min (Z.max lo v) hi.
(** Highway's MulAdd and the others on integers are Mul and Add or Sub. There are no scalar ones. *)
Definition v_fma_int (w : Z) (signed : bool) (op : optok) (a b c : Z) : outcome Z :=
  match op with
  | OP_FMA => Ret (wrap w signed (a * b + c))
  | OP_FMS => Ret (wrap w signed (a * b - c))
  | OP_FNMA => Ret (wrap w signed (c - a * b))
  | OP_FNMS => Ret (wrap w signed (- (a * b) - c))
  | _ => Err
  end.

(** ** Registration and choice *)
Definition is_flt (n : numty) : bool := match n with F32 | F64 => true | _ => false end.
(** math.cc:403-448, for the functions modelled: is there a scalar function of this name and type? *)
Definition scalar_registered (op : optok) (n : numty) : bool :=
  match op with
  | OP_FLOOR | OP_CEIL | OP_ROUND | OP_RINT | OP_TRUNC | OP_SQRT | OP_FMA | OP_FMS | OP_FNMA | OP_FNMS => is_flt n
  | OP_ABS | OP_ABS_DIFF => match n with F32 | F64 | I64 | I32 => true | _ => false end
  | OP_MAX | OP_MIN | OP_CLAMP => match n with F80 => false | _ => true end
  | _ => false
  end.
(** simd_vector.cc:198-237: is there a kernel? *)
Definition kernel_registered (op : optok) (n : numty) : bool :=
  match op with
  | OP_FLOOR | OP_CEIL | OP_ROUND | OP_RINT | OP_TRUNC | OP_SQRT => is_flt n
  | OP_ABS_DIFF => match n with F32 | F64 | I64 | I32 | I16 | I8 => true | _ => false end
  | OP_CLAMP | OP_FMA | OP_FMS | OP_FNMA | OP_FNMS => match n with F32 | F64 | U64 | I64 | U32 | I32 => true | _ => false end
  | _ => false
  end.
(** codegen_unary.cc, codegen_binary.cc, codegen_ternary.cc: is there an instruction or an intrinsic (for values and for vectors)? *)
Definition instruction (op : optok) (n : numty) : bool :=
  match op with
  | OP_FLOOR | OP_CEIL | OP_ROUND | OP_RINT | OP_TRUNC | OP_SQRT | OP_FMA => is_flt n
  | OP_ABS | OP_MAX | OP_MIN => match n with F80 => false | _ => true end
  | _ => false
  end.
Inductive choice : Type := Instruction | Function | Kernel | Refused.
(** A call with scalar arguments of one type: expression.cc:845-860 (CheckFuncExist), then UnaryOp, BinaryOp or TernaryOp, and
    CallFunction if they refuse (codegen_ternary.cc:143-151). *)
Definition scalar_choice (op : optok) (n : numty) : choice :=
  if negb (scalar_registered op n) then Refused else if instruction op n then Instruction else Function.

(** A call with a vector among the arguments; [first] tells whether the first one is a vector. *)
Record call : Type := Call { c_op : optok; c_type : numty; c_first : bool }.
Definition op_code (op : optok) : nat :=
  match op with OP_FLOOR => 1 | OP_CEIL => 2 | OP_ROUND => 3 | OP_RINT => 4 | OP_TRUNC => 5 | OP_SQRT => 6 | OP_ABS => 7 | OP_ABS_DIFF => 8
  | OP_MAX => 9 | OP_MIN => 10 | OP_CLAMP => 11 | OP_FMA => 12 | OP_FMS => 13 | OP_FNMA => 14 | OP_FNMS => 15 | _ => 0 end%nat.
Definition ty_code (n : numty) : nat :=
  match n with U8 => 1 | I8 => 2 | U16 => 3 | I16 => 4 | U32 => 5 | I32 => 6 | U64 => 7 | I64 => 8 | F32 => 9 | F64 => 10 | F80 => 11 end%nat.
(** The kernel of the same name and type *)
Definition same_kernel (a b : optok * numty) : bool :=
  Nat.eqb (op_code (fst a)) (op_code (fst b)) && Nat.eqb (ty_code (snd a)) (ty_code (snd b)).
(** expression.cc:823-860, while the call is checked: without a kernel the call is accepted; else the function named by the type of the first
    argument must be registered, and is declared. [None]: refused. *)
Definition check_call (c : call) : option (list (optok * numty)) :=
  if negb (kernel_registered (c_op c) (c_type c)) then Some []
  else if c_first c then Some [(c_op c, c_type c)]
  else if scalar_registered (c_op c) (c_type c) then Some []
  else None.
(** The kernels declared by the calls of a source *)
Fixpoint declared (cs : list call) : option (list (optok * numty)) :=
  match cs with
  | [] => Some []
  | c :: cs => match check_call c, declared cs with Some a, Some b => Some (a ++ b) | _, _ => None end
  end.
(** compiler_eval.cc:176-203 *)
Definition vector_choice (decl : list (optok * numty)) (c : call) : choice :=
  if kernel_registered (c_op c) (c_type c) && existsb (same_kernel (c_op c, c_type c)) decl then Kernel
  else if instruction (c_op c) (c_type c) then Instruction
  else Refused.
(** A source with these calls: how each is compiled; [None] if the source is refused. *)
Definition compile_calls (cs : list call) : option (list choice) :=
  match declared cs with
  | None => None
  | Some decl =>
      let ch := map (vector_choice decl) cs in
      if existsb (fun c => match c with Refused => true | _ => false end) ch then None else Some ch
  end.
