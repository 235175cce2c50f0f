(** C45, C46: integer expressions and comparisons of compiled functions. *)
From Coq Require Import Ascii String List Bool Arith ZArith Lia Floats.SpecFloat.
Import ListNotations.
From Verif Require Import Base Lexer_Model Op_Model Number_Model Parser_Model Parser_Spec Ir_Model Codegen_Model Codegen_Spec Scalar_Model Scalar_Spec.
From Verif Require Scalar_Proofs.
Local Open Scope Z_scope.

Section Statements.
Context {W : Type}.
Variable lib : optok -> vty -> list val -> option val.  (* operators that are not modelled *)
Variable ext : text -> W -> list val -> W * val.
Variable llvm19 : bool.
Variable op_fun : optok -> vty -> option vty.
Variable fsig : text -> option (list vty * vty).
(** [k] steps of a compiled function *)
Let call (args : list val) := @Ir_Model.call val W (ir_prim (Scalar_Model.oper lib) cast) (total ext) konst_val truth args.
Let compile := compile llvm19 op_fun fsig.

(** ** C45 *)
(** A function that returns an expression over integers and truth values returns its mathematical value,
    as long as every intermediate value fits the type it is kept in. [denote o] is the tree of the source. *)
Theorem C45_integer_expressions_are_exact : forall params ret o F w m r,
  proper params -> ideal_eval (ideal_env params) (denote o) = Some m -> returned ret m = Some r ->
  compile ret (params_of params) [S_return (Some o)] = Ret F ->
  exists k0, forall k, (k0 <= k)%nat -> call (args_of params) k F w = Ret (Some r, w).
Proof. exact (Scalar_Proofs.ideal_return lib ext llvm19 op_fun fsig). Qed.
(** Two integers of different types, compared *)
Theorem C45_mixed_comparison : forall ta tb a b x y op f o F w,
  a <> b -> ~ In (lit "pi") [a; b] -> ~ In (lit "e") [a; b] ->
  compares op = Some f -> denote o = EBin op (EVar a) (EVar b) ->
  holds ta x = true -> holds tb y = true -> holds (wider ta tb) x = true -> holds (wider ta tb) y = true ->
  compile TBit [(TNum ta, a); (TNum tb, b)] [S_return (Some o)] = Ret F ->
  exists k0, forall k, (k0 <= k)%nat ->
    call [encode ta x; encode tb y] k F w = Ret (Some (VInt (if f x y then 1 else 0)), w).
Proof. exact (Scalar_Proofs.mixed_comparison lib ext llvm19 op_fun fsig). Qed.
(** The common type does not depend on the order of the operands, and is one of their types. *)
Theorem C45_common_type : forall ta tb,
  normalize [TNum ta; TNum tb] = normalize [TNum tb; TNum ta] /\
  (normalize [TNum ta; TNum tb] = Ret (TNum ta) \/ normalize [TNum ta; TNum tb] = Ret (TNum tb)).
Proof. exact Scalar_Proofs.common_type. Qed.

(** ** C46 *)
(** Full statement: for all values of one number type. Missing: NaN, for which the next theorem shows the
    opposite. *)
Theorem C46_exactly_one_partial : forall n a b va vb oe on F1 F2 w,
  a <> b -> ~ In (lit "pi") [a; b] -> ~ In (lit "e") [a; b] ->
  denote oe = EBin OP_EQUAL (EVar a) (EVar b) -> denote on = EBin OP_NOT_EQUAL (EVar a) (EVar b) ->
  of_type n va -> of_type n vb -> va <> VFlt S754_nan -> vb <> VFlt S754_nan ->
  compile TBit [(TNum n, a); (TNum n, b)] [S_return (Some oe)] = Ret F1 ->
  compile TBit [(TNum n, a); (TNum n, b)] [S_return (Some on)] = Ret F2 ->
  exists (r : bool) k0, forall k, (k0 <= k)%nat ->
    call [va; vb] k F1 w = Ret (Some (VInt (if r then 1 else 0)), w) /\
    call [va; vb] k F2 w = Ret (Some (VInt (if r then 0 else 1)), w).
Proof. exact (Scalar_Proofs.exactly_one lib ext llvm19 op_fun fsig). Qed.
Theorem C46_nan_refuted : forall n a b va vb oe on F1 F2 w,
  a <> b -> ~ In (lit "pi") [a; b] -> ~ In (lit "e") [a; b] ->
  denote oe = EBin OP_EQUAL (EVar a) (EVar b) -> denote on = EBin OP_NOT_EQUAL (EVar a) (EVar b) ->
  of_type n va -> of_type n vb -> va = VFlt S754_nan \/ vb = VFlt S754_nan ->
  compile TBit [(TNum n, a); (TNum n, b)] [S_return (Some oe)] = Ret F1 ->
  compile TBit [(TNum n, a); (TNum n, b)] [S_return (Some on)] = Ret F2 ->
  exists k0, forall k, (k0 <= k)%nat -> call [va; vb] k F1 w = Ret (Some (VInt 0), w) /\ call [va; vb] k F2 w = Ret (Some (VInt 0), w).
Proof. exact (Scalar_Proofs.nan_neither lib ext llvm19 op_fun fsig). Qed.
End Statements.

(** ** Counterexamples and instances, from source text *)
Definition sx_types : list (text * vty) :=
  [(lit "u8", TNum U8); (lit "i8", TNum I8); (lit "u16", TNum U16); (lit "i16", TNum I16); (lit "u32", TNum U32); (lit "i32", TNum I32);
   (lit "u64", TNum U64); (lit "i64", TNum I64); (lit "f32", TNum F32); (lit "f64", TNum F64); (lit "bool", TBit)].
Definition sx_type (t : text) : option vty := find_text sx_types t.
Definition sx_is_type (t : text) : bool := match sx_type t with Some _ => true | None => false end.
Definition sx_parse (t : text) : outcome (vty * list (vty * text) * list stmt) :=
  do! f <- parse_function_ast sx_is_type sx_type t;
  Ret (f_ret f, map (fun a => (a_type a, a_name a)) (match Parser_Model.f_args f with Some l => l | None => [] end), f_body f).
Definition sx_compile (t : text) : outcome cfg :=
  do! (ret, params, body) <- sx_parse t; compile false (fun _ _ => None) (fun _ => None) ret params body.
(** The world is not used. *)
Definition sx_call (args : list val) (m : nat) (F : cfg) : outcome (option val * unit) :=
  Ir_Model.call (ir_prim (Scalar_Model.oper (fun _ _ _ => None)) cast) (fun _ w _ => Ret (w, VInt 0)) konst_val truth args m F tt.

(** Values that are not representable in the common type compare wrongly: -1 < 1 is false for i32 and u64,
    200 > 100 is false for u8 and i8, although i16 would hold all of them. *)
Theorem C45_minus_one_less_than_one_refuted : exists F,
  sx_compile (lit "bool f(i32 x, u64 y) { return x < y; }") = Ret F /\
  sx_call [encode I32 (-1); encode U64 1] 40 F = Ret (Some (VInt 0), tt).
Proof. eexists. split; [vm_compute; reflexivity|vm_compute; reflexivity]. Qed.
Theorem C45_two_hundred_greater_than_one_hundred_refuted : exists F,
  sx_compile (lit "bool f(u8 x, i8 y) { return x > y; }") = Ret F /\
  sx_call [encode U8 200; encode I8 100] 40 F = Ret (Some (VInt 0), tt).
Proof. eexists. split; [vm_compute; reflexivity|vm_compute; reflexivity]. Qed.
(** abs reads the bits of an unsigned number as a signed number. *)
Theorem C45_abs_of_unsigned_refuted : exists F,
  sx_compile (lit "u8 f(u8 x) { return abs(x); }") = Ret F /\
  forall z, 128 < z < 256 -> sx_call [encode U8 z] 40 F = Ret (Some (encode U8 (256 - z)), tt) /\ encode U8 (256 - z) <> encode U8 z.
Proof.
  eexists. split; [vm_compute; reflexivity|]. intros z Hz. assert (z mod 256 = z) as E by (apply Z.mod_small; lia). assert ((256 - z) mod 256 = 256 - z) as E' by (apply Z.mod_small; lia).
  unfold encode. cbn [layout]. change (2 ^ 8) with 256. rewrite E, E'. split; [|intros H; injection H; lia].
  transitivity (do! v <- Codegen_Spec.defined (Scalar_Model.oper (fun _ _ _ => None) OP_ABS (TNum U8) [VInt z]); Ret (Some v, tt)); [reflexivity|].
  cbn [Scalar_Model.oper unary ty_bits Codegen_Spec.defined obind]. unfold i_abs, as_signed. change (2 ^ (8 - 1)) with 128. change (2 ^ 8) with 256. destruct (Z.ltb_spec z 128); [lia|]. rewrite Z.abs_neq by lia. do 4 f_equal. rewrite <- E'. f_equal. lia.
Qed.
Print Assumptions C45_integer_expressions_are_exact.
Print Assumptions C45_mixed_comparison.
Print Assumptions C45_common_type.
Print Assumptions C46_exactly_one_partial.
Print Assumptions C46_nan_refuted.
Print Assumptions C45_minus_one_less_than_one_refuted.
Print Assumptions C45_two_hundred_greater_than_one_hundred_refuted.
Print Assumptions C45_abs_of_unsigned_refuted.

(** A mixed expression meets the hypotheses. *)
Definition sx_mixed : text := lit "i64 f(i8 x, u32 y, bool b) { return max(x, -3) * (b && x < y ? y % 7 : x) - y / 2; }".
Definition sx_values : list (text * ideal) := [(lit "x", MInt I8 5); (lit "y", MInt U32 4000); (lit "b", MBool true)].
Example C45_ex : exists ret params o F,
  sx_parse sx_mixed = Ret (ret, params, [S_return (Some o)]) /\ sx_compile sx_mixed = Ret F /\
  params = params_of sx_values /\ proper sx_values /\
  ideal_eval (ideal_env sx_values) (denote o) = Some (MInt I32 (-1985)) /\
  returned ret (MInt I32 (-1985)) = Some (encode I64 (-1985)) /\
  sx_call (args_of sx_values) 100 F = Ret (Some (encode I64 (-1985)), tt).
Proof.
  do 4 eexists. split; [vm_compute; reflexivity|]. split; [vm_compute; reflexivity|]. split; [vm_compute; reflexivity|].
  split; [constructor; [|vm_compute; intuition discriminate|vm_compute; intuition discriminate|vm_compute; reflexivity]; vm_compute; repeat constructor; cbn; intuition discriminate|].
  split; [vm_compute; reflexivity|]. split; vm_compute; reflexivity.
Qed.
(** Comparisons of all integer types with all others are compiled. *)
Definition sx_ints : list string := ["u8"; "i8"; "u16"; "i16"; "u32"; "i32"; "u64"; "i64"]%string.
Example C45_ex_compiles : forallb (fun a => forallb (fun b => match sx_compile (lit "bool f(" ++ lit a ++ lit " x, " ++ lit b ++ lit " y) { return x <= y; }") with Ret _ => true | _ => false end) sx_ints) sx_ints = true.
Proof. vm_compute. reflexivity. Qed.
Example C46_ex : exists ret params o1 o2 F1 F2 ,
  sx_parse (lit "bool f(f64 x, f64 y) { return x == y; }") = Ret (ret, params, [S_return (Some o1)]) /\
  sx_parse (lit "bool f(f64 x, f64 y) { return x != y; }") = Ret (ret, params, [S_return (Some o2)]) /\
  ret = TBit /\ params = [(TNum F64, lit "x"); (TNum F64, lit "y")] /\
  denote o1 = EBin OP_EQUAL (EVar (lit "x")) (EVar (lit "y")) /\ denote o2 = EBin OP_NOT_EQUAL (EVar (lit "x")) (EVar (lit "y")) /\
  compile false (fun _ _ => None) (fun _ => None) ret params [S_return (Some o1)] = Ret F1 /\
  compile false (fun _ _ => None) (fun _ => None) ret params [S_return (Some o2)] = Ret F2 /\
  of_type F64 (VFlt (S754_infinity false)) /\ of_type F64 (VFlt S754_nan).
Proof. do 6 eexists. do 8 (split; [vm_compute; reflexivity|]). split; reflexivity. Qed.
