(** C77: the built-in numeric functions on vectors and on scalars. Floating point: every format [prec, emax] (float: 24, 128; double: 53, 1024).
    [vmax] and [vmin] are Highway's Max and Min, [first] the order of Clamp's operands, [fused] and [contracted] whether the vector and the scalar
    multiply-add round once; registers have any number [n] of lanes that divides the 64 elements of a unit. *)
From Coq Require Import List Bool Arith ZArith Reals.
Import ListNotations.
From Flocq Require Import Core BinarySingleNaN.
From Verif Require Import Base Lexer_Model Op_Model Number_Model MathFn_Model MathFn_Spec MathFn_Proofs MathFnFma_Proofs.

(** A kernel replaces the 64 elements of a unit by the function of the elements at the same position, and nothing else. *)
Theorem C77_unary_kernel : forall A n (f : A -> A) a out, 0 < n -> Nat.divide n 64 -> 64 <= length a -> 64 <= length out ->
  exists out', unary_kernel n f a out = Ret out' /\ unit_replaced out out' (fun i x => exists u, nth_error a i = Some u /\ x = f u).
Proof. exact @unary_ok. Qed.
Print Assumptions C77_unary_kernel.
Theorem C77_binary_kernel : forall A n (f : A -> A -> A) a b out, 0 < n -> Nat.divide n 64 -> 64 <= length a -> 64 <= length b -> 64 <= length out ->
  exists out', binary_kernel n f a b out = Ret out'
    /\ unit_replaced out out' (fun i x => exists u v, nth_error a i = Some u /\ nth_error b i = Some v /\ x = f u v).
Proof. exact @binary_ok. Qed.
Print Assumptions C77_binary_kernel.
Theorem C77_ternary_kernel : forall A n (f : A -> A -> A -> A) a b c out, 0 < n -> Nat.divide n 64 -> 64 <= length a -> 64 <= length b -> 64 <= length c -> 64 <= length out ->
  exists out', ternary_kernel n f a b c out = Ret out'
    /\ unit_replaced out out' (fun i x => exists u v w, nth_error a i = Some u /\ nth_error b i = Some v /\ nth_error c i = Some w /\ x = f u v w).
Proof. exact @ternary_ok. Qed.
Print Assumptions C77_ternary_kernel.
(** Registers of 8 floats, as with AVX2 *)
Example C77_kernel_case : 0 < 8 /\ Nat.divide 8 64 /\ 64 <= length (repeat 1%Z 64).
Proof. split; [apply le_n_S, le_0_n|]. split; [exists 8; reflexivity|rewrite repeat_length; apply le_n]. Qed.

(** One operand: the vector function gives on every value what the scalar function gives, except round of a number halfway between an even
    number and the next one (away from zero), where it does not. *)
Theorem C77_one_operand : forall prec emax (P : Prec_gt_0 prec) (E : Prec_lt_emax prec emax) op x,
  v_unary prec emax P E op x = s_unary prec emax P E op x <-> ~ (op = OP_ROUND /\ exists k, halfway prec emax x k /\ Z.even k = true).
Proof. exact unary_agree_all. Qed.
Print Assumptions C77_one_operand.
(** The scalar round is to the nearest integer, halfway cases away from zero. *)
Theorem C77_round : forall prec emax (P : Prec_gt_0 prec) (E : Prec_lt_emax prec emax) x, finite prec emax x ->
  exists s, s_unary prec emax P E OP_ROUND x = Ret s /\ finite prec emax s /\ nearest_away prec emax x s.
Proof. exact round_nearest. Qed.
Print Assumptions C77_round.
(** Refuted: round(2.5) is 3, and 2 in a vector; so for every even number. *)
Theorem C77_round_refuted : forall prec emax (P : Prec_gt_0 prec) (E : Prec_lt_emax prec emax) x k, finite prec emax x -> halfway prec emax x k -> Z.even k = true ->
  exists s v, s_unary prec emax P E OP_ROUND x = Ret s /\ Rabs (value prec emax s) = IZR (k + 1)
    /\ v_unary prec emax P E OP_ROUND x = Ret v /\ Rabs (value prec emax v) = IZR k.
Proof. exact round_ties. Qed.
Print Assumptions C77_round_refuted.
Example C77_round_case : exists x : binary_float 53 1024, finite 53 1024 x /\ halfway 53 1024 x 2 /\ Z.even 2 = true.
Proof. exact half_case. Qed.
(** A whole unit of a vector *)
Theorem C77_unit_partial : forall prec emax (P : Prec_gt_0 prec) (E : Prec_lt_emax prec emax) n op f a out,
  0 < n -> Nat.divide n 64 -> 64 <= length a -> 64 <= length out -> (forall x, v_unary prec emax P E op x = Ret (f x)) ->
  exists out', unary_kernel n f a out = Ret out' /\ unit_replaced out out' (fun i x => exists u, nth_error a i = Some u
    /\ (~ (op = OP_ROUND /\ exists k, halfway prec emax u k /\ Z.even k = true) -> s_unary prec emax P E op u = Ret x)).
Proof. exact unit_elements. Qed.
Print Assumptions C77_unit_partial.

(** clamp, bounds in order and no NaN: both give the same number, which is in the bounds, and the value itself if that is. *)
Theorem C77_clamp_partial : forall prec emax vmax vmin, maxes prec emax vmax -> mins prec emax vmin ->
  forall first v lo hi, number prec emax v -> number prec emax lo -> number prec emax hi -> ~ less prec emax hi lo ->
  exists r, s_clamp prec emax v lo hi = Ret r /\ same_number prec emax (v_clamp prec emax vmax vmin first v lo hi) r
    /\ ~ less prec emax r lo /\ ~ less prec emax hi r /\ (~ less prec emax v lo -> ~ less prec emax hi v -> r = v).
Proof. exact clamp_agree. Qed.
Print Assumptions C77_clamp_partial.
(** Refuted for bounds out of order: undefined for scalars, the upper bound for vectors; *)
Theorem C77_clamp_crossed_refuted : forall prec emax vmax vmin, maxes prec emax vmax -> mins prec emax vmin ->
  forall first v lo hi, number prec emax v -> number prec emax lo -> number prec emax hi -> less prec emax hi lo ->
  s_clamp prec emax v lo hi = UB /\ same_number prec emax (v_clamp prec emax vmax vmin first v lo hi) hi.
Proof. exact clamp_crossed. Qed.
Print Assumptions C77_clamp_crossed_refuted.
(** and for NaN on x86: a scalar NaN stays, in a vector it becomes a number. *)
Theorem C77_clamp_nan_refuted : forall prec emax vmax vmin, mins prec emax vmin ->
  forall first lo hi, second_if_nan prec emax vmax -> second_if_nan prec emax vmin -> number prec emax lo -> number prec emax hi -> ~ less prec emax hi lo ->
  s_clamp prec emax B754_nan lo hi = Ret B754_nan /\ number prec emax (v_clamp prec emax vmax vmin first B754_nan lo hi).
Proof. exact clamp_nan. Qed.
Print Assumptions C77_clamp_nan_refuted.
(** The instructions of x86 meet the contract. *)
Example C77_x86 : forall prec emax, maxes prec emax (x86_max prec emax) /\ mins prec emax (x86_min prec emax)
  /\ second_if_nan prec emax (x86_max prec emax) /\ second_if_nan prec emax (x86_min prec emax).
Proof. exact x86_meets. Qed.

(** fma, fms, fnma, fnms: the same for scalars and vectors, on all values, if both round once or both round twice; *)
Theorem C77_fma_partial : forall prec emax (P : Prec_gt_0 prec) (E : Prec_lt_emax prec emax) vmax vmin first fused contracted op a b c,
  In op fma_family -> (op = OP_FMA -> fused = true) -> (op <> OP_FMA -> fused = contracted) ->
  v_ternary prec emax P E vmax vmin first fused op a b c = s_ternary prec emax P E contracted op a b c.
Proof. exact fma_same. Qed.
Print Assumptions C77_fma_partial.
(** or if the product needs no rounding. *)
Theorem C77_fma_exact_partial : forall prec emax (P : Prec_gt_0 prec) (E : Prec_lt_emax prec emax) vmax vmin first fused contracted op a b c,
  In op fma_family -> exact_product prec emax P E a b ->
  v_ternary prec emax P E vmax vmin first fused op a b c = s_ternary prec emax P E contracted op a b c.
Proof. exact fma_any. Qed.
Print Assumptions C77_fma_exact_partial.
Example C77_exact_case : exact_product 53 1024 P53 E53 three three /\ finite 53 1024 three.
Proof. exact exact_case. Qed.
(** Fused, without overflow: the exact result rounded once. *)
Theorem C77_fma_value : forall prec emax (P : Prec_gt_0 prec) (E : Prec_lt_emax prec emax) vmax vmin first op a b c,
  In op fma_family -> finite prec emax a -> finite prec emax b -> finite prec emax c -> fits emax (rounded prec emax (fma_value prec emax op a b c)) ->
  exists r, v_ternary prec emax P E vmax vmin first true op a b c = Ret r /\ finite prec emax r /\ value prec emax r = rounded prec emax (fma_value prec emax op a b c).
Proof. exact fused_value. Qed.
Print Assumptions C77_fma_value.
(** Refuted: a vector fms on a processor that fuses, a scalar fms compiled without contraction. *)
Theorem C77_fused_refuted : forall first, exists a c,
  v_ternary 53 1024 P53 E53 (x86_max 53 1024) (x86_min 53 1024) first true OP_FMS a a c <> s_ternary 53 1024 P53 E53 false OP_FMS a a c.
Proof. exact (fun first => ex_intro _ w64_a (ex_intro _ w64_c (fused_differs first))). Qed.
Print Assumptions C77_fused_refuted.

(** abs_diff of integers: the distance if it has a value of the type; if not (signed types), undefined for scalars, and a negative number for vectors. *)
Theorem C77_abs_diff : forall w signed a b, (1 <= w)%Z -> in_type w signed a = true -> in_type w signed b = true ->
  (in_type w signed (Z.abs (a - b)) = true -> s_abs_diff_int w signed a b = Ret (Z.abs (a - b)) /\ v_abs_diff_int w signed a b = Z.abs (a - b))
  /\ (in_type w signed (Z.abs (a - b)) = false -> s_abs_diff_int w signed a b = UB /\ v_abs_diff_int w signed a b = (Z.abs (a - b) - 2 ^ w)%Z /\ (v_abs_diff_int w signed a b < 0)%Z).
Proof. exact abs_diff_int. Qed.
Print Assumptions C77_abs_diff.
Example C77_abs_diff_cases : in_type 32 true (Z.abs (7 - (-5))) = true /\ in_type 32 true (Z.abs (-2147483648 - 1)) = false.
Proof. split; reflexivity. Qed.
(** clamp of integers *)
Theorem C77_clamp_int : forall v lo hi,
  ((lo <= hi)%Z -> exists r, s_clamp_int v lo hi = Ret r /\ v_clamp_int v lo hi = r /\ (lo <= r <= hi)%Z /\ ((lo <= v <= hi)%Z -> r = v))
  /\ ((hi < lo)%Z -> s_clamp_int v lo hi = UB /\ v_clamp_int v lo hi = hi).
Proof. exact clamp_int. Qed.
Print Assumptions C77_clamp_int.

(** fma, fms, fnma and fnms of vectors of integers: the result modulo 2^w, so the result itself if it has a value of the type. *)
Theorem C77_fma_int : forall w signed op a b c, (1 <= w)%Z -> In op fma_family ->
  exists r, v_fma_int w signed op a b c = Ret r /\ in_type w signed r = true /\ (exists k, r = fma_int_value op a b c + k * 2 ^ w)%Z
    /\ (in_type w signed (fma_int_value op a b c) = true -> r = fma_int_value op a b c).
Proof. exact fma_int. Qed.
Print Assumptions C77_fma_int.

(** Which types: refused for vectors only, refused for scalars only. *)
Theorem C77_coverage_refuted : forall op n, In op modelled -> n <> F80 ->
  (scalars_accepted op n /\ ~ vectors_accepted op n <-> op = OP_CLAMP /\ In n [U8; I8; U16; I16])
  /\ (vectors_accepted op n /\ ~ scalars_accepted op n <->
      op = OP_ABS_DIFF /\ In n [I8; I16] \/ In op fma_family /\ In n [U32; I32; U64; I64] \/ op = OP_ABS /\ In n [U8; I8; U16; I16; U32; U64]).
Proof. exact coverage. Qed.
Print Assumptions C77_coverage_refuted.
(** If the first argument of every call is a vector, a call is compiled in a source as in a source of its own. *)
Theorem C77_calls_partial : forall cs, (forall c, In c cs -> c_first c = true) ->
  (forall ch, compile_calls cs = Some ch -> Forall2 (fun c k => compile_calls [c] = Some [k]) cs ch)
  /\ (compile_calls cs = None <-> exists c, In c cs /\ compile_calls [c] = None).
Proof. exact calls_alone. Qed.
Print Assumptions C77_calls_partial.
(** Refuted with a scalar first: clamp(1.0, v, w) is refused, unless some other call of the source is clamp(v, ...); *)
Theorem C77_scalar_first_refuted : forall n, kernel_registered OP_CLAMP n = true ->
  compile_calls [Call OP_CLAMP n false] = None /\ compile_calls [Call OP_CLAMP n false; Call OP_CLAMP n true] = Some [Kernel; Kernel].
Proof. exact scalar_first. Qed.
Print Assumptions C77_scalar_first_refuted.
(** and fma(2.0, v, w) is the instruction or the kernel, depending on another call. *)
Theorem C77_scalar_first_fma_refuted : forall n, n = F32 \/ n = F64 ->
  compile_calls [Call OP_FMA n false] = Some [Instruction] /\ compile_calls [Call OP_FMA n false; Call OP_FMA n true] = Some [Kernel; Kernel].
Proof. exact scalar_first_fma. Qed.
Print Assumptions C77_scalar_first_fma_refuted.
