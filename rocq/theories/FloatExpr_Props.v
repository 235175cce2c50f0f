(** C79: floating-point and mixed expressions of compiled functions. *)
From Coq Require Import Ascii String List Bool Arith ZArith Reals Floats.SpecFloat Lia Lra.
Import ListNotations.
From Flocq Require Import Core BinarySingleNaN.
From Verif Require Import Base Lexer_Model Op_Model Number_Model Parser_Model Parser_Spec Ir_Model Codegen_Model Codegen_Spec Scalar_Model Scalar_Spec Json_Spec FloatExpr_Spec.
From Verif Require Constants_Proofs FloatExpr_Proofs Scalar_Props.
Local Open Scope Z_scope.

Section Statements.
Context {W : Type}.
Variable lib : optok -> vty -> list val -> option val.  (* operators that are not modelled *)
Variable ext : text -> W -> list val -> W * val.
Variable llvm19 : bool.
Variable op_fun : optok -> vty -> option vty.
Variable fsig : text -> option (list vty * vty).
Let call (args : list val) := @Ir_Model.call val W (ir_prim (Scalar_Model.oper lib) cast) (total ext) konst_val truth args.
Let compile := compile llvm19 op_fun fsig.

(** A function that returns an expression over numbers of all types and truth values returns its value, in
    which each conversion and each operation on floating numbers is rounded once, to nearest even, in the
    wider of the operand types, and each operation on integers is exact. *)
Theorem C79_each_operation_is_rounded_once : forall params args ret o F q r,
  passed params args -> means (find_text params) (denote o) q -> gives ret q r ->
  compile ret (typed_params params) [S_return (Some o)] = Ret F ->
  exists v, represents r v /\ forall w, exists k0, forall k, (k0 <= k)%nat -> call args k F w = Ret (Some v, w).
Proof. exact (FloatExpr_Proofs.float_return lib ext llvm19 op_fun fsig). Qed.
(** Two numbers of any types, compared *)
Theorem C79_comparison : forall m n a b x y v w op o F,
  a <> b -> ~ In (lit "pi") [a; b] -> ~ In (lit "e") [a; b] ->
  denote o = EBin op (EVar a) (EVar b) -> denotes m v x -> denotes n w y -> forall x' y' c,
  converts x (wider m n) x' -> converts y (wider m n) y' -> answer op (Rcompare x' y') = Some c ->
  compile TBit [(TNum m, a); (TNum n, b)] [S_return (Some o)] = Ret F ->
  forall s, exists k0, forall k, (k0 <= k)%nat -> call [v; w] k F s = Ret (Some (VInt (if c then 1 else 0)), s).
Proof. exact (FloatExpr_Proofs.two_numbers lib ext llvm19 op_fun fsig). Qed.
(** Full statement: an integer and a floating number compare as the numbers they are. The opposite: an
    integer equals the floating number it is rounded to, for every integer that the floating type does not
    have. *)
Theorem C79_integer_equals_its_rounding_refuted : forall m n a b z o F,
  a <> b -> ~ In (lit "pi") [a; b] -> ~ In (lit "e") [a; b] ->
  denote o = EBin OP_EQUAL (EVar a) (EVar b) -> holds m z = true -> in_range n (IZR z) ->
  compile TBit [(TNum m, a); (TNum n, b)] [S_return (Some o)] = Ret F ->
  exists v, denotes n v (rounded n (IZR z)) /\
    forall s, exists k0, forall k, (k0 <= k)%nat -> call [encode m z; v] k F s = Ret (Some (VInt 1), s).
Proof. exact (FloatExpr_Proofs.round_down_equal lib ext llvm19 op_fun fsig). Qed.

(** No floating value makes a floating expression undefined: for all arguments, NaN and infinities too,
    the function returns a value. *)
Theorem C79_always_a_value : forall params args t o F ret,
  any_floats params args -> floating (find_text params) (denote o) t ->
  (ret = t \/ exists m n, t = TNum m /\ ret = TNum n /\ ty_integer n = false) ->
  compile ret (float_params params) [S_return (Some o)] = Ret F ->
  exists v, some_value ret v /\ forall w, exists k0, forall k, (k0 <= k)%nat -> call args k F w = Ret (Some v, w).
Proof. exact (FloatExpr_Proofs.total_return lib ext llvm19 op_fun fsig). Qed.
(** A result too large for the type is the infinity of its sign. *)
Theorem C79_overflow : forall n a b v w x y op r o F,
  a <> b -> ~ In (lit "pi") [a; b] -> ~ In (lit "e") [a; b] -> ty_integer n = false ->
  denote o = EBin op (EVar a) (EVar b) -> denotes n v x -> denotes n w y -> real_op op x y r ->
  (bpow radix2 (fmt_emax n) <= Rabs (rounded n r))%R ->
  compile (TNum n) [(TNum n, a); (TNum n, b)] [S_return (Some o)] = Ret F ->
  forall s, exists k0, forall k, (k0 <= k)%nat -> call [v; w] k F s = Ret (Some (VFlt (S754_infinity (Rlt_bool r 0))), s).
Proof. exact (FloatExpr_Proofs.overflow_return lib ext llvm19 op_fun fsig). Qed.
(** Division by zero: an infinity, whose sign is that of the dividend and of the zero; NaN for zero. *)
Theorem C79_division_by_zero : forall n a b v x z o F,
  a <> b -> ~ In (lit "pi") [a; b] -> ~ In (lit "e") [a; b] -> ty_integer n = false ->
  denote o = EBin OP_DIVIDE (EVar a) (EVar b) -> denotes n v x ->
  compile (TNum n) [(TNum n, a); (TNum n, b)] [S_return (Some o)] = Ret F ->
  forall s, exists k0, forall k, (k0 <= k)%nat ->
    call [v; VFlt (S754_zero z)] k F s =
    Ret (Some (VFlt (if Req_bool x 0 then S754_nan else S754_infinity (xorb z (Rlt_bool x 0)))), s).
Proof. exact (FloatExpr_Proofs.division_return lib ext llvm19 op_fun fsig). Qed.
(** The remainder by a zero is NaN, for every dividend. *)
Theorem C79_remainder_by_zero : forall n a b f z o F,
  a <> b -> ~ In (lit "pi") [a; b] -> ~ In (lit "e") [a; b] -> ty_integer n = false ->
  denote o = EBin OP_MOD (EVar a) (EVar b) ->
  compile (TNum n) [(TNum n, a); (TNum n, b)] [S_return (Some o)] = Ret F ->
  forall s, exists k0, forall k, (k0 <= k)%nat -> call [VFlt f; VFlt (S754_zero z)] k F s = Ret (Some (VFlt S754_nan), s).
Proof. exact (FloatExpr_Proofs.remainder_return lib ext llvm19 op_fun fsig). Qed.
(** The remainder of a multiple of the divisor is a zero with the sign of the dividend. *)
Theorem C79_remainder_of_a_multiple : forall n a b f g x y q o F,
  a <> b -> ~ In (lit "pi") [a; b] -> ~ In (lit "e") [a; b] -> ty_integer n = false ->
  denote o = EBin OP_MOD (EVar a) (EVar b) -> denotes n (VFlt f) x -> denotes n (VFlt g) y -> y <> 0%R -> x = (IZR q * y)%R ->
  compile (TNum n) [(TNum n, a); (TNum n, b)] [S_return (Some o)] = Ret F ->
  forall s, exists k0, forall k, (k0 <= k)%nat -> call [VFlt f; VFlt g] k F s = Ret (Some (VFlt (S754_zero (sign_of f))), s).
Proof. exact (FloatExpr_Proofs.multiple_return lib ext llvm19 op_fun fsig). Qed.
(** Of two zeros, -0 is the smaller: the maximum is -0 only if both are, the minimum if one is. *)
Theorem C79_extremum_of_zeros : forall n a b s t o F,
  a <> b -> ~ In (lit "pi") [a; b] -> ~ In (lit "e") [a; b] -> ty_integer n = false -> forall fn z,
  In (fn, z) [(lit "max", s && t); (lit "min", s || t)] -> denote o = ECall fn [EVar a; EVar b] ->
  compile (TNum n) [(TNum n, a); (TNum n, b)] [S_return (Some o)] = Ret F ->
  forall w, exists k0, forall k, (k0 <= k)%nat -> call [VFlt (S754_zero s); VFlt (S754_zero t)] k F w = Ret (Some (VFlt (S754_zero z)), w).
Proof. exact (FloatExpr_Proofs.zeros_return lib ext llvm19 op_fun fsig). Qed.
(** floor, ceil, trunc, round and rint give the whole number, exactly, and keep the sign, also that of a zero. *)
Theorem C79_whole_numbers_keep_the_sign : forall n a f x fn g o F,
  a <> lit "pi" -> a <> lit "e" -> ty_integer n = false -> In (fn, g) whole_functions ->
  denote o = ECall fn [EVar a] -> denotes n (VFlt f) x ->
  compile (TNum n) [(TNum n, a)] [S_return (Some o)] = Ret F ->
  exists h, denotes n (VFlt h) (IZR (g x)) /\ sign_of h = sign_of f /\
    forall w, exists k0, forall k, (k0 <= k)%nat -> call [VFlt f] k F w = Ret (Some (VFlt h), w).
Proof. exact (FloatExpr_Proofs.whole_return lib ext llvm19 op_fun fsig). Qed.
(** The square root of a negative number is NaN. *)
Theorem C79_root_of_a_negative : forall n a f x o F,
  a <> lit "pi" -> a <> lit "e" -> ty_integer n = false ->
  denote o = ECall (lit "sqrt") [EVar a] -> denotes n (VFlt f) x -> (x < 0)%R ->
  compile (TNum n) [(TNum n, a)] [S_return (Some o)] = Ret F ->
  forall w, exists k0, forall k, (k0 <= k)%nat -> call [VFlt f] k F w = Ret (Some (VFlt S754_nan), w).
Proof. exact (FloatExpr_Proofs.negative_root lib ext llvm19 op_fun fsig). Qed.
(** fma of finite numbers and an infinity is that infinity, although the product alone may be too large; with a
    NaN it is NaN. *)
Theorem C79_fma_with_infinity : forall n a b c f g x y s o F,
  NoDup [a; b; c] -> ~ In (lit "pi") [a; b; c] -> ~ In (lit "e") [a; b; c] -> ty_integer n = false ->
  denote o = ECall (lit "fma") [EVar a; EVar b; EVar c] -> denotes n (VFlt f) x -> denotes n (VFlt g) y ->
  compile (TNum n) [(TNum n, a); (TNum n, b); (TNum n, c)] [S_return (Some o)] = Ret F ->
  forall w, exists k0, forall k, (k0 <= k)%nat ->
    call [VFlt f; VFlt g; VFlt (S754_infinity s)] k F w = Ret (Some (VFlt (S754_infinity s)), w).
Proof. exact (FloatExpr_Proofs.fused_infinity lib ext llvm19 op_fun fsig). Qed.
Theorem C79_fma_with_nan : forall n a b c f g h o F,
  NoDup [a; b; c] -> ~ In (lit "pi") [a; b; c] -> ~ In (lit "e") [a; b; c] -> ty_integer n = false ->
  denote o = ECall (lit "fma") [EVar a; EVar b; EVar c] -> In S754_nan [f; g; h] ->
  compile (TNum n) [(TNum n, a); (TNum n, b); (TNum n, c)] [S_return (Some o)] = Ret F ->
  forall w, exists k0, forall k, (k0 <= k)%nat -> call [VFlt f; VFlt g; VFlt h] k F w = Ret (Some (VFlt S754_nan), w).
Proof. exact (FloatExpr_Proofs.fused_nan lib ext llvm19 op_fun fsig). Qed.
(** NaN spreads: each of + - * / % max min of a NaN and any value, in either order, is NaN. *)
Theorem C79_nan_spreads : forall n a b f g o F,
  a <> b -> ~ In (lit "pi") [a; b] -> ~ In (lit "e") [a; b] -> ty_integer n = false ->
  In (denote o) (float_operations (EVar a) (EVar b)) -> f = S754_nan \/ g = S754_nan ->
  compile (TNum n) [(TNum n, a); (TNum n, b)] [S_return (Some o)] = Ret F ->
  forall s, exists k0, forall k, (k0 <= k)%nat -> call [VFlt f; VFlt g] k F s = Ret (Some (VFlt S754_nan), s).
Proof. exact (FloatExpr_Proofs.nan_return lib ext llvm19 op_fun fsig). Qed.
(** Full statement: a function with an integer result returns an integer. The opposite: a floating result
    whose integer part the type does not have, and NaN and the infinities, are undefined behaviour. *)
Theorem C79_no_integer_for_the_result_refuted : forall params args m n x o F,
  passed params args -> means (find_text params) (denote o) (QNum m x) ->
  ty_integer m = false -> ty_integer n = true -> holds n (Ztrunc x) = false ->
  compile (TNum n) (typed_params params) [S_return (Some o)] = Ret F ->
  forall w, exists k0, forall k, (k0 <= k)%nat -> call args k F w = UB.
Proof. exact (FloatExpr_Proofs.undefined_return lib ext llvm19 op_fun fsig). Qed.
Theorem C79_no_integer_for_nan_refuted : forall a m n f o F,
  a <> lit "pi" -> a <> lit "e" -> denote o = EVar a ->
  ty_integer m = false -> ty_integer n = true -> is_finite_SF f = false ->
  compile (TNum n) [(TNum m, a)] [S_return (Some o)] = Ret F ->
  forall w, exists k0, forall k, (k0 <= k)%nat -> call [VFlt f] k F w = UB.
Proof. exact (FloatExpr_Proofs.not_a_number_return lib ext llvm19 op_fun fsig). Qed.
(** The constants: pi and e are the doubles nearest to the ratio of a circle and to Euler's number. *)
Theorem C79_pi_and_e : forall params args c x o F,
  passed params args -> In (c, x) [(lit "pi", PI); (lit "e", exp 1)] -> denote o = EVar c ->
  compile (TNum F64) (typed_params params) [S_return (Some o)] = Ret F ->
  exists v d, denotes F64 v d /\ (forall d', representable F64 d' -> (Rabs (d - x) <= Rabs (d' - x))%R) /\
    forall w, exists k0, forall k, (k0 <= k)%nat -> call args k F w = Ret (Some v, w).
Proof. exact (FloatExpr_Proofs.constant_return lib ext llvm19 op_fun fsig). Qed.
End Statements.

(** The numbers of the floating types: binary32, binary64 and the 80-bit format *)
Theorem C79_numbers_of_the_types : forall n p lo hi x,
  In (n, p, lo, hi) [(F32, 24, -149, 104); (F64, 53, -1074, 971); (F80, 64, -16445, 16320)] ->
  (representable n x <-> exists m e, Z.abs m < 2 ^ p /\ lo <= e <= hi /\ x = (IZR m * bpow radix2 e)%R).
Proof. exact FloatExpr_Proofs.numbers_of_types. Qed.
(** Rounding gives the nearest of them, unless the number is beyond the largest by half its last digit. *)
Theorem C79_rounding_is_to_nearest : forall n x, in_range n x ->
  representable n (rounded n x) /\ forall d, representable n d -> (Rabs (rounded n x - x) <= Rabs (d - x))%R.
Proof. exact FloatExpr_Proofs.rounding_nearest. Qed.

(** A 64-bit integer and a 32-bit floating number are compared in 32 bits of floating point: 2^40 + 1 equals
    2^40, from source text. *)
Theorem C79_wide_integer_in_narrow_float_refuted : exists F,
  Scalar_Props.sx_compile (lit "bool f(i64 x, f32 y) { return x == y; }") = Ret F /\
  Scalar_Props.sx_call [encode I64 (2 ^ 40 + 1); VFlt (to_fmt F32 1 40 false)] 40 F = Ret (Some (VInt 1), tt).
Proof. eexists. split; [vm_compute; reflexivity|vm_compute; reflexivity]. Qed.
Print Assumptions C79_each_operation_is_rounded_once.
Print Assumptions C79_comparison.
Print Assumptions C79_integer_equals_its_rounding_refuted.
Print Assumptions C79_always_a_value.
Print Assumptions C79_overflow.
Print Assumptions C79_division_by_zero.
Print Assumptions C79_remainder_by_zero.
Print Assumptions C79_remainder_of_a_multiple.
Print Assumptions C79_extremum_of_zeros.
Print Assumptions C79_whole_numbers_keep_the_sign.
Print Assumptions C79_root_of_a_negative.
Print Assumptions C79_fma_with_infinity.
Print Assumptions C79_fma_with_nan.
Print Assumptions C79_nan_spreads.
Print Assumptions C79_no_integer_for_the_result_refuted.
Print Assumptions C79_no_integer_for_nan_refuted.
Print Assumptions C79_pi_and_e.
Print Assumptions C79_numbers_of_the_types.
Print Assumptions C79_rounding_is_to_nearest.
Print Assumptions C79_wide_integer_in_narrow_float_refuted.

(** A mixed expression meets the hypotheses: (7 + 0.5) * 2.5 / 7, where only the division is inexact. *)
Definition fx_source : text := lit "f64 f(i32 x, f64 y) { return (x + 0.5) * y / 7; }".
Definition fx_params : list (text * quantity) := [(lit "x", QNum I32 7); (lit "y", QNum F64 (F2R (Float radix2 5 (-1))))].
Definition fx_args : list val := [encode I32 7; VFlt (S754_finite false 5629499534213120 (-51))].
Ltac half_values := unfold F2R; cbn [Fnum Fexp bpow]; change (Z.pow_pos radix2 1) with 2; lra.
Example C79_ex : exists ret params o F q,
  Scalar_Props.sx_parse fx_source = Ret (ret, params, [S_return (Some o)]) /\ Scalar_Props.sx_compile fx_source = Ret F /\
  params = typed_params fx_params /\ passed fx_params fx_args /\ means (find_text fx_params) (denote o) q /\
  gives ret q (QNum F64 (rounded F64 (18.75 / 7))) /\
  Scalar_Props.sx_call fx_args 100 F = Ret (Some (VFlt (S754_finite false 6031606643799771 (-51))), tt).
Proof.
  assert (E7 : rounded F64 7 = 7%R). { replace 7%R with (F2R (Float radix2 7 0)) by (unfold F2R; cbn; lra). apply FloatExpr_Proofs.rounded_exact; [reflexivity|discriminate]. }
  assert (E5 : rounded F64 (F2R (Float radix2 5 (-1))) = F2R (Float radix2 5 (-1))) by (apply FloatExpr_Proofs.rounded_exact; [reflexivity|discriminate]).
  assert (E1 : rounded F64 (F2R (Float radix2 4503599627370496 (-53))) = (/ 2)%R).
  { rewrite FloatExpr_Proofs.rounded_exact by (reflexivity || discriminate). unfold F2R. cbn [Fnum Fexp]. replace (bpow radix2 (-53)) with (/ 9007199254740992)%R by reflexivity. lra. }
  assert (E15 : rounded F64 (7 + / 2) = (7 + / 2)%R). { replace (7 + / 2)%R with (F2R (Float radix2 15 (-1))) by half_values. apply FloatExpr_Proofs.rounded_exact; [reflexivity|discriminate]. }
  assert (E75 : rounded F64 ((7 + / 2) * F2R (Float radix2 5 (-1))) = 18.75%R).
  { replace ((7 + / 2) * F2R (Float radix2 5 (-1)))%R with (F2R (Float radix2 75 (-2))) by (unfold F2R; cbn [Fnum Fexp bpow]; change (Z.pow_pos radix2 1) with 2; change (Z.pow_pos radix2 2) with 4; lra).
    rewrite FloatExpr_Proofs.rounded_exact by (reflexivity || discriminate). unfold F2R; cbn [Fnum Fexp bpow]; change (Z.pow_pos radix2 2) with 4; lra. }
  assert (IR : forall x, (Rabs x <= 32)%R -> in_range F64 x). { intros x B. apply (FloatExpr_Proofs.in_range_small F64 x 5); [reflexivity|split; [discriminate|reflexivity]|]. exact B. }
  assert (CV : forall x, rounded F64 x = x -> (Rabs x <= 32)%R -> converts x F64 x). { intros x E B. rewrite <- E at 2. constructor. now apply IR. }
  assert (AB : forall x, (0 <= x <= 32)%R -> (Rabs x <= 32)%R) by (intros x B; rewrite Rabs_pos_eq; lra).
  assert (V5 : F2R (Float radix2 5 (-1)) = 2.5%R) by half_values.
  do 4 eexists. exists (QNum F64 (rounded F64 (18.75 / 7))). split; [vm_compute; reflexivity|]. split; [vm_compute; reflexivity|]. split; [vm_compute; reflexivity|].
  split; [|split; [|split]].
  - constructor; [|vm_compute; intuition discriminate|vm_compute; intuition discriminate|].
    + vm_compute. repeat constructor; cbn; intuition discriminate.
    + constructor; [constructor; apply (den_int I32 7); reflexivity|]. constructor; [|constructor]. constructor.
      replace (F2R (Float radix2 5 (-1))) with (SF2R radix2 (S754_finite false 5629499534213120 (-51))); [apply den_flt; reflexivity|].
      rewrite V5. unfold SF2R, F2R. cbn [Fnum Fexp cond_Zopp]. replace (bpow radix2 (-51)) with (/ 2251799813685248)%R by reflexivity. lra.
  - apply (m_operation _ OP_DIVIDE _ _ F64 I32 18.75 7 18.75 7); [do 3 right; now left| | |apply CV; [|apply AB; lra]|apply CV; [exact E7|apply AB; lra]|].
    + rewrite <- E75. apply (m_operation _ OP_MULTIPLY _ _ F64 F64 (7 + / 2) (F2R (Float radix2 5 (-1))) (7 + / 2) (F2R (Float radix2 5 (-1)))); [do 2 right; now left| |now constructor|apply CV; [exact E15|apply AB; lra]|apply CV; [exact E5|rewrite V5; apply AB; lra]|].
      * rewrite <- E15. apply (m_operation _ OP_PLUS _ _ I32 F64 7 (/ 2) 7 (/ 2)); [now left|now constructor| |apply CV; [exact E7|apply AB; lra]|apply CV; [|apply AB; lra]|].
        -- rewrite <- E1. apply m_flt; [vm_compute; reflexivity|]. apply IR. unfold F2R. cbn [Fnum Fexp]. replace (bpow radix2 (-53)) with (/ 9007199254740992)%R by reflexivity. apply AB. lra.
        -- replace (/ 2)%R with (F2R (Float radix2 1 (-1))) by half_values. apply FloatExpr_Proofs.rounded_exact; [reflexivity|discriminate].
        -- apply on_floating; [constructor|]. apply IR, AB. lra.
      * apply on_floating; [constructor|]. apply IR. rewrite V5. apply AB. lra.
    + apply m_int; vm_compute; reflexivity.
    + replace 18.75%R with (F2R (Float radix2 75 (-2))) by (unfold F2R; cbn [Fnum Fexp bpow]; change (Z.pow_pos radix2 2) with 4; lra). apply FloatExpr_Proofs.rounded_exact; [reflexivity|discriminate].
    + apply on_floating; [constructor; lra|]. apply IR, AB. lra.
  - assert (rounded F64 (18.75 / 7) = rounded F64 (rounded F64 (18.75 / 7))) as E.
    { symmetry. apply round_generic; [apply valid_rnd_N|]. apply generic_format_round; [|apply valid_rnd_N]. apply (@FLT_exp_valid (-1074) 53 eq_refl). }
    rewrite E at 2. apply gives_num. constructor. split; [reflexivity|]. rewrite <- E. apply IR, AB. lra.
  - vm_compute. reflexivity.
Qed.
(** The other hypotheses: a 32-bit integer without a 32-bit floating number; arguments NaN and infinity in a
    conditional; twice the largest number. *)
Example C79_ex_compare : exists ret params o F,
  Scalar_Props.sx_parse (lit "bool f(i32 x, f32 y) { return x == y; }") = Ret (ret, params, [S_return (Some o)]) /\
  ret = TBit /\ params = [(TNum I32, lit "x"); (TNum F32, lit "y")] /\ denote o = EBin OP_EQUAL (EVar (lit "x")) (EVar (lit "y")) /\
  compile false (fun _ _ => None) (fun _ => None) ret params [S_return (Some o)] = Ret F /\
  holds I32 16777217 = true /\ in_range F32 (IZR 16777217).
Proof.
  do 4 eexists. do 5 (split; [vm_compute; reflexivity|]). split; [reflexivity|].
  apply (FloatExpr_Proofs.in_range_small F32 _ 25); [reflexivity|split; [discriminate|reflexivity]|]. rewrite Rabs_pos_eq by lra. replace (bpow radix2 25) with 33554432%R by reflexivity. lra.
Qed.
Definition fx_total : text := lit "f32 f(f32 x, f64 y) { return x < y && !(x / y == x) ? -x * 1.5_f32 : abs(y) - 0.1; }".
Example C79_ex_total : exists ret params o F,
  Scalar_Props.sx_parse fx_total = Ret (ret, params, [S_return (Some o)]) /\ Scalar_Props.sx_compile fx_total = Ret F /\
  params = float_params [(lit "x", F32); (lit "y", F64)] /\ ret = TNum F32 /\
  any_floats [(lit "x", F32); (lit "y", F64)] [VFlt S754_nan; VFlt (S754_infinity true)] /\
  floating (find_text [(lit "x", F32); (lit "y", F64)]) (denote o) (TNum F64) /\
  Scalar_Props.sx_call [VFlt S754_nan; VFlt (S754_infinity true)] 100 F = Ret (Some (VFlt (S754_infinity false)), tt).
Proof.
  do 4 eexists. do 4 (split; [vm_compute; reflexivity|]). split; [|split; [|vm_compute; reflexivity]].
  - constructor; [|vm_compute; intuition discriminate|vm_compute; intuition discriminate|repeat constructor].
    vm_compute. repeat constructor; cbn; intuition discriminate.
  - apply (f_choice _ _ _ _ F32 F64).
    + apply f_logic; [now left| |].
      * apply (f_comparison _ _ _ _ F32 F64); [do 2 right; now left|now constructor|now constructor].
      * apply f_not. apply (f_comparison _ _ _ _ F64 F32); [now left| |now constructor]. apply (f_operation _ _ _ _ F32 F64); [do 3 right; now left|now constructor|now constructor].
    + apply (f_operation _ _ _ _ F32 F32); [do 2 right; now left|apply f_negative; now constructor|]. eapply f_literal. vm_compute. reflexivity.
    + apply (f_operation _ _ _ _ F64 F64); [do 1 right; now left|apply f_abs; now constructor|]. eapply f_literal. vm_compute. reflexivity.
Qed.
Example C79_ex_overflow : exists ret params o F v x,
  Scalar_Props.sx_parse (lit "f64 f(f64 x, f64 y) { return x + y; }") = Ret (ret, params, [S_return (Some o)]) /\
  ret = TNum F64 /\ params = [(TNum F64, lit "x"); (TNum F64, lit "y")] /\ denote o = EBin OP_PLUS (EVar (lit "x")) (EVar (lit "y")) /\
  compile false (fun _ _ => None) (fun _ => None) ret params [S_return (Some o)] = Ret F /\
  denotes F64 v x /\ real_op OP_PLUS x x (x + x) /\ (bpow radix2 (fmt_emax F64) <= Rabs (rounded F64 (x + x)))%R.
Proof.
  do 4 eexists. exists (VFlt (S754_finite false 9007199254740991 971)), (F2R (Float radix2 9007199254740991 971)). do 5 (split; [vm_compute; reflexivity|]).
  split; [apply (den_flt F64 (S754_finite false 9007199254740991 971)); reflexivity|]. split; [constructor|].
  replace (F2R (Float radix2 9007199254740991 971) + F2R (Float radix2 9007199254740991 971))%R with (F2R (Float radix2 9007199254740991 972)).
  2: { unfold F2R. cbn [Fnum Fexp]. replace 972 with (1 + 971) by reflexivity. rewrite (bpow_plus radix2 1 971). change (bpow radix2 1) with 2%R. lra. }
  rewrite FloatExpr_Proofs.rounded_exact by (reflexivity || discriminate). rewrite Rabs_pos_eq by (apply F2R_ge_0; discriminate). unfold F2R. cbn [Fnum Fexp].
  change (fmt_emax F64) with (52 + 972). rewrite (bpow_plus radix2 52 972). apply Rmult_le_compat_r; [apply bpow_ge_0|]. replace (bpow radix2 52) with 4503599627370496%R by reflexivity. lra.
Qed.
(** 3 * pi is between 9 and 10; -(3 * pi) as an unsigned byte, from source text, is undefined. *)
Lemma three_pi : exists y, means (find_text [(lit "x", QNum F64 3)]) (EBin OP_MULTIPLY (EVar (lit "x")) (EVar (lit "pi"))) (QNum F64 y) /\ Ztrunc y = 9.
Proof.
  assert (IR : forall x, (Rabs x <= 32)%R -> in_range F64 x). { intros x B. apply (FloatExpr_Proofs.in_range_small F64 x 5); [reflexivity|split; [discriminate|reflexivity]|]. exact B. }
  assert (E3 : rounded F64 3 = 3%R). { replace 3%R with (F2R (Float radix2 3 0)) by (unfold F2R; cbn; lra). apply FloatExpr_Proofs.rounded_exact; [reflexivity|discriminate]. }
  pose proof Constants_Proofs.pi_rounded as EP.
  assert (EQ : rounded F64 (rounded F64 PI) = rounded F64 PI). { rewrite EP. apply FloatExpr_Proofs.rounded_exact; [reflexivity|discriminate]. }
  assert (V : F2R (Float radix2 7074237752028440 (-51)) = (7074237752028440 / 2251799813685248)%R) by (unfold F2R; cbn [Fnum Fexp]; replace (bpow radix2 (-51)) with (/ 2251799813685248)%R by reflexivity; lra).
  exists (rounded F64 (3 * rounded F64 PI)). split.
  - apply (m_operation _ OP_MULTIPLY _ _ F64 F64 3 (rounded F64 PI) 3 (rounded F64 PI)); [do 2 right; now left|now constructor|now constructor| | |].
    + rewrite <- E3 at 2. constructor. apply IR. rewrite Rabs_pos_eq; lra.
    + rewrite <- EQ at 2. constructor. apply IR. rewrite EP, V, Rabs_pos_eq; lra.
    + apply on_floating; [constructor|]. apply IR. rewrite EP, V, Rabs_pos_eq; lra.
  - assert (B : (9 <= rounded F64 (3 * rounded F64 PI) <= 9.5)%R).
    { assert (M : forall a b, (a <= b)%R -> (rounded F64 a <= rounded F64 b)%R). { intros a b L. unfold rounded. apply round_le; [apply (@FLT_exp_valid (-1074) 53 eq_refl)|apply valid_rnd_N|exact L]. }
      assert (E9 : rounded F64 9 = 9%R). { replace 9%R with (F2R (Float radix2 9 0)) by (unfold F2R; cbn; lra). apply FloatExpr_Proofs.rounded_exact; [reflexivity|discriminate]. }
      assert (E95 : rounded F64 9.5 = 9.5%R). { replace 9.5%R with (F2R (Float radix2 19 (-1))) by half_values. apply FloatExpr_Proofs.rounded_exact; [reflexivity|discriminate]. }
      rewrite <- E9 at 1. rewrite <- E95. rewrite EP, V. split; apply M; lra. }
    rewrite Ztrunc_floor by lra. apply Zfloor_imp. change (9 + 1) with 10. lra.
Qed.
Example C79_ex_undefined : exists ret params o F x,
  Scalar_Props.sx_parse (lit "u8 f(f64 x) { return -(x * pi); }") = Ret (ret, params, [S_return (Some o)]) /\
  ret = TNum U8 /\ params = typed_params [(lit "x", QNum F64 3)] /\
  compile false (fun _ _ => None) (fun _ => None) ret params [S_return (Some o)] = Ret F /\
  passed [(lit "x", QNum F64 3)] [VFlt (S754_finite false 6755399441055744 (-51))] /\
  means (find_text [(lit "x", QNum F64 3)]) (denote o) (QNum F64 x) /\ holds U8 (Ztrunc x) = false /\
  Scalar_Props.sx_call [VFlt (S754_finite false 6755399441055744 (-51))] 100 F = UB.
Proof.
  assert (PA : passed [(lit "x", QNum F64 3)] [VFlt (S754_finite false 6755399441055744 (-51))]).
  { constructor; [|vm_compute; intuition discriminate|vm_compute; intuition discriminate|].
    - vm_compute. repeat constructor; cbn; intuition discriminate.
    - constructor; [|constructor]. constructor. replace 3%R with (SF2R radix2 (S754_finite false 6755399441055744 (-51))); [apply den_flt; reflexivity|].
      unfold SF2R, F2R. cbn [Fnum Fexp cond_Zopp]. replace (bpow radix2 (-51)) with (/ 2251799813685248)%R by reflexivity. lra. }
  destruct three_pi as (y & M & T). do 4 eexists. exists (- y)%R. do 4 (split; [vm_compute; reflexivity|]). split; [exact PA|split; [|split; [rewrite Ztrunc_opp, T; reflexivity|vm_compute; reflexivity]]].
  apply m_negative; [exact M|]. apply FloatExpr_Proofs.has_opp; [reflexivity|]. exact (FloatExpr_Proofs.means_has (W:=unit) (fun _ _ _ => None) (fun _ w _ => (w, VInt 0)) false (fun _ _ => None) (fun _ => None) _ _ _ _ _ PA M).
Qed.
(** The remainder and the maximum are exact: max(-7.5 % 2, -2) = -1.5. *)
Definition fr_source : text := lit "f64 f(f64 x, f64 y) { return max(x % y, -y); }".
Definition fr_params : list (text * quantity) := [(lit "x", QNum F64 (-7.5)); (lit "y", QNum F64 2)].
Definition fr_args : list val := [VFlt (S754_finite true 8444249301319680 (-50)); VFlt (S754_finite false 4503599627370496 (-51))].
Example C79_ex_remainder : exists ret params o F,
  Scalar_Props.sx_parse fr_source = Ret (ret, params, [S_return (Some o)]) /\ Scalar_Props.sx_compile fr_source = Ret F /\
  params = typed_params fr_params /\ passed fr_params fr_args /\ means (find_text fr_params) (denote o) (QNum F64 (-1.5)) /\
  gives ret (QNum F64 (-1.5)) (QNum F64 (-1.5)) /\
  Scalar_Props.sx_call fr_args 100 F = Ret (Some (VFlt (S754_finite true 6755399441055744 (-52))), tt).
Proof.
  assert (R : forall m e x, Z.abs m < 2 ^ 53 -> -1074 <= e -> (Rabs x <= 32)%R -> x = F2R (Float radix2 m e) -> converts x F64 x).
  { intros m e x A B C E. assert (rounded F64 x = x) as X. { rewrite E. apply FloatExpr_Proofs.rounded_exact; [exact A|exact B]. } rewrite <- X at 2. constructor. apply (FloatExpr_Proofs.in_range_small F64 x 5); [reflexivity|split; [discriminate|reflexivity]|]. exact C. }
  assert (AB : forall x, (-32 <= x <= 32)%R -> (Rabs x <= 32)%R) by (intros x B; apply Rabs_le; lra).
  assert (C1 : converts (-7.5) F64 (-7.5)) by (apply (R (-15) (-1)); [reflexivity|discriminate|apply AB; lra|half_values]).
  assert (C2 : converts 2 F64 2) by (apply (R 2 0); [reflexivity|discriminate|apply AB; lra|unfold F2R; cbn; lra]).
  assert (C3 : converts (-1.5) F64 (-1.5)) by (apply (R (-3) (-1)); [reflexivity|discriminate|apply AB; lra|half_values]).
  assert (C4 : converts (- (2)) F64 (- (2))) by (apply (R (-2) 0); [reflexivity|discriminate|apply AB; lra|unfold F2R; cbn; lra]).
  do 4 eexists. do 3 (split; [vm_compute; reflexivity|]). split; [|split; [|split; [constructor; exact C3|vm_compute; reflexivity]]].
  - constructor; [|vm_compute; intuition discriminate|vm_compute; intuition discriminate|].
    + vm_compute. repeat constructor; cbn; intuition discriminate.
    + constructor; [|constructor; [|constructor]]; cbn [snd]; constructor.
      * replace (-7.5)%R with (SF2R radix2 (S754_finite true 8444249301319680 (-50))); [apply den_flt; reflexivity|]. unfold SF2R, F2R. cbn [Fnum Fexp cond_Zopp]. replace (bpow radix2 (-50)) with (/ 1125899906842624)%R by reflexivity. rewrite opp_IZR. lra.
      * replace 2%R with (SF2R radix2 (S754_finite false 4503599627370496 (-51))); [apply den_flt; reflexivity|]. unfold SF2R, F2R. cbn [Fnum Fexp cond_Zopp]. replace (bpow radix2 (-51)) with (/ 2251799813685248)%R by reflexivity. lra.
  - apply (m_extremum _ (lit "max") OP_MAX _ _ F64 F64 (-1.5) (- (2)) (-1.5) (- (2))); [now left| | |exact C3|exact C4|].
    + apply (m_operation _ OP_MOD _ _ F64 F64 (-7.5) 2 (-7.5) 2); [do 4 right; now left|now constructor|now constructor|exact C1|exact C2|].
      replace (-1.5)%R with (-7.5 - IZR (Ztrunc (-7.5 / 2)) * 2)%R. { apply exactly_floating; [reflexivity|]. constructor. lra. }
      replace (Ztrunc (-7.5 / 2)) with (-3); [lra|]. rewrite Ztrunc_ceil by lra. symmetry. apply Zceil_imp. change (-3 - 1) with (-4). lra.
    + apply m_negative; [now constructor|]. apply FloatExpr_Proofs.has_opp; [reflexivity|]. exists (VFlt (S754_finite false 4503599627370496 (-51))).
      replace 2%R with (SF2R radix2 (S754_finite false 4503599627370496 (-51))); [apply den_flt; reflexivity|]. unfold SF2R, F2R. cbn [Fnum Fexp cond_Zopp]. replace (bpow radix2 (-51)) with (/ 2251799813685248)%R by reflexivity. lra.
    + replace (-1.5)%R with (Rmax (-1.5) (- (2))) at 2 by (apply Rmax_left; lra). apply exactly_floating; [reflexivity|constructor].
Qed.
(** The constants and NaN, from source text *)
Example C79_ex_constants : exists F, Scalar_Props.sx_compile (lit "f64 f() { return e; }") = Ret F /\
  Scalar_Props.sx_call [] 100 F = Ret (Some (VFlt (S754_finite false 6121026514868073 (-51))), tt) /\ passed [] [].
Proof. eexists. split; [vm_compute; reflexivity|]. split; [vm_compute; reflexivity|]. constructor; [constructor|intros []|intros []|constructor]. Qed.
Example C79_ex_nan : exists F, Scalar_Props.sx_compile (lit "i32 f(f32 x) { return x; }") = Ret F /\
  Scalar_Props.sx_call [VFlt S754_nan] 100 F = UB /\ Scalar_Props.sx_call [VFlt (S754_finite true 15 (-1))] 100 F = Ret (Some (encode I32 (-7)), tt).
Proof. eexists. split; [vm_compute; reflexivity|]. split; vm_compute; reflexivity. Qed.
(** Zeros from source text: -6 % 2 is -0; max(-0, 0) is 0. *)
Example C79_ex_zeros : exists F G,
  Scalar_Props.sx_compile (lit "f64 f(f64 x, f64 y) { return x % y; }") = Ret F /\
  Scalar_Props.sx_compile (lit "f32 f(f32 x, f32 y) { return max(x, y); }") = Ret G /\
  Scalar_Props.sx_call [VFlt (S754_finite true 6755399441055744 (-50)); VFlt (S754_finite false 4503599627370496 (-51))] 100 F = Ret (Some (VFlt (S754_zero true)), tt) /\
  Scalar_Props.sx_call [VFlt (S754_infinity false); VFlt (S754_zero false)] 100 F = Ret (Some (VFlt S754_nan), tt) /\
  Scalar_Props.sx_call [VFlt (S754_zero true); VFlt (S754_zero false)] 100 G = Ret (Some (VFlt (S754_zero false)), tt).
Proof. do 2 eexists. repeat (split; [vm_compute; reflexivity|]). vm_compute. reflexivity. Qed.
(** Functions from source text: rint(2.5) = 2, round(2.5) = 3, ceil(-0.5) = -0, sqrt(2.25) = 1.5, and the square root
    of two is irrational, so rounded. *)
Definition half_of (m : positive) : spec_float := to_fmt F64 (Z.pos m) (-1) false.
Example C79_ex_functions : exists F G H S,
  Scalar_Props.sx_compile (lit "f64 f(f64 x) { return rint(x); }") = Ret F /\
  Scalar_Props.sx_compile (lit "f64 f(f64 x) { return round(x); }") = Ret G /\
  Scalar_Props.sx_compile (lit "f64 f(f64 x) { return ceil(x); }") = Ret H /\
  Scalar_Props.sx_compile (lit "f64 f(f64 x) { return sqrt(x); }") = Ret S /\
  Scalar_Props.sx_call [VFlt (half_of 5)] 100 F = Ret (Some (VFlt (half_of 4)), tt) /\
  Scalar_Props.sx_call [VFlt (half_of 5)] 100 G = Ret (Some (VFlt (half_of 6)), tt) /\
  Scalar_Props.sx_call [VFlt (SFopp (half_of 1))] 100 H = Ret (Some (VFlt (S754_zero true)), tt) /\
  Scalar_Props.sx_call [VFlt (to_fmt F64 9 (-2) false)] 100 S = Ret (Some (VFlt (half_of 3)), tt) /\
  Scalar_Props.sx_call [VFlt (half_of 4)] 100 S = Ret (Some (VFlt (S754_finite false 6369051672525773 (-52))), tt) /\
  Scalar_Props.sx_call [VFlt (SFopp (half_of 4))] 100 S = Ret (Some (VFlt S754_nan), tt).
Proof. do 4 eexists. repeat (split; [vm_compute; reflexivity|]). vm_compute. reflexivity. Qed.
(** fma rounds once: 0.1 * 10 - 1 is not 0. *)
Example C79_ex_fma : exists F G,
  Scalar_Props.sx_compile (lit "f64 f(f64 x, f64 y, f64 z) { return fma(x, y, z); }") = Ret F /\
  Scalar_Props.sx_compile (lit "f64 f(f64 x, f64 y, f64 z) { return x * y + z; }") = Ret G /\
  let args := [VFlt (S754_finite false 7205759403792794 (-56)); VFlt (to_fmt F64 10 0 false); VFlt (to_fmt F64 (-1) 0 false)] in
  Scalar_Props.sx_call args 100 F = Ret (Some (VFlt (S754_finite false 4503599627370496 (-106))), tt) /\
  Scalar_Props.sx_call args 100 G = Ret (Some (VFlt (S754_zero false)), tt) /\
  let large := VFlt (S754_finite false 9007199254740991 971) in
  Scalar_Props.sx_call [large; large; VFlt (S754_infinity true)] 100 F = Ret (Some (VFlt (S754_infinity true)), tt) /\
  Scalar_Props.sx_call [large; large; VFlt (S754_infinity true)] 100 G = Ret (Some (VFlt S754_nan), tt).
Proof. do 2 eexists. repeat (split; [vm_compute; reflexivity|]). vm_compute. reflexivity. Qed.
