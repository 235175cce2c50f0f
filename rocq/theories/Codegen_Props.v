(** C38-C41, C43, C60: compiled scalar functions.
    [oper], [conv], [ext], [konst_val] and [truth] are what operators, conversions, called functions and
    constants compute; the theorems hold for every choice. [llvm19], [op_fun] and [fsig] are the LLVM version,
    the library functions for operators, and the functions a body can call. *)
From Coq Require Import Ascii String List Bool Arith ZArith Lia.
Import ListNotations.
From Verif Require Import Base Lexer_Model Op_Model Number_Model Parser_Model Parser_Spec Ir_Model Codegen_Model Codegen_Spec Codegen_Scope Scalar_Model.
From Verif Require Codegen_Shape Codegen_Results Codegen_Results2.

Section Statements.
Context {V W : Type}.
Variable oper : optok -> vty -> list V -> option V.
Variable conv : vty -> vty -> V -> option V.
Variable ext : text -> W -> list V -> W * V.
Variable konst_val : konst -> V.
Variable truth : V -> bool.
Variable llvm19 : bool.
Variable op_fun : optok -> vty -> option vty.
Variable fsig : text -> option (list vty * vty).
(** [m] steps of the compiled function *)
Let call (args : list V) := @Ir_Model.call V W (ir_prim oper conv) (total ext) konst_val truth args.
(** The meaning of the source, with at most [n] iterations of each loop *)
Let run_body := run_body oper conv (total ext) konst_val truth llvm19 op_fun fsig.
Let eval := eval oper conv (total ext) konst_val llvm19 op_fun fsig.
Let eval_lazy := eval_lazy oper conv ext konst_val truth llvm19 op_fun fsig.
Let compile := compile llvm19 op_fun fsig.
Let params_ok (params : list (vty * text)) (args : list V) : Prop :=
  NoDup (map snd params) /\ ~ In (lit "pi") (map snd params) /\ ~ In (lit "e") (map snd params) /\
  Forall (fun p => fst p <> TVoid) params /\ length args = length params.
Let start (params : list (vty * text)) (args : list V) : env := bind_args params args (fun _ => None).

(** ** C38 *)
(** Full statement: the function [return e] returns the value of the tree of e.
    Missing: expressions with assignments, strings, arrays and members; operators written as functions with
    another number of arguments (next theorem). *)
Theorem C38_compiled_expression_is_its_tree_partial : forall ret params args o F w,
  params_ok params args -> pure (denote o) = true ->
  compile ret params [S_return (Some o)] = Ret F ->
  match (do! (w', x) <- eval (start params args) w (denote o); do! v <- convert conv x ret; Ret (v, w')) with
  | Ret (v, w') => exists m, forall k, m <= k -> call args k F w = Ret (if vty_eqb ret TVoid then None else Some v, w')
  | UB => exists m, forall k, m <= k -> call args k F w = UB
  | Err | Hang => False
  end.
Proof.
  intros ret params args o F w (H1 & H2 & H3 & H4 & H5) Hp HF. apply Codegen_Results2.return_value; [now apply Codegen_Results2.return_fits|exact HF].
Qed.

(** ** C39 *)
(** Full statement: assigning x does not change y. Missing: programs that are not [fits]; declarations whose
    initialiser is a variable break the property, see below. The two functions differ in the assignment x = e
    before [return y]. *)
Theorem C39_assignment_leaves_other_variables_partial : forall ret params args pre oa x ox y e F1 F2 w r,
  denote oa = EBin OP_ASSIGN (EVar x) e -> denote ox = EVar y -> x <> y -> no_calls e = true ->
  fits params args (pre ++ [S_expr oa; S_return (Some ox)]) -> fits params args (pre ++ [S_return (Some ox)]) ->
  compile ret params (pre ++ [S_expr oa; S_return (Some ox)]) = Ret F1 ->
  compile ret params (pre ++ [S_return (Some ox)]) = Ret F2 ->
  (exists m, call args m F2 w = Ret r) -> (exists m, call args m F1 w = Ret r) \/ (exists m, call args m F1 w = UB).
Proof. exact (Codegen_Results2.assign_frame oper conv ext konst_val truth llvm19 op_fun fsig). Qed.

(** ** C40 *)
(** Full statement: every block of an accepted function ends in its only terminator, and refers to blocks of
    the function. Missing: programs that are not [shaped_list], see below. *)
Theorem C40_blocks_are_well_formed_partial : forall ret params body F,
  shaped_list (map denote_stmt body) = true -> compile ret params body = Ret F -> well_formed F = true.
Proof. exact (Codegen_Shape.compile_wf llvm19 op_fun fsig). Qed.
(** Two return statements in a row are accepted; the block has two terminators. *)
Theorem C40_statement_after_return_refuted : forall ret params r1 r2 F,
  compile ret params [S_return r1; S_return r2] = Ret F -> well_formed F = false.
Proof. exact (Codegen_Results2.two_returns llvm19 op_fun fsig). Qed.

(** ** C41 *)
(** Full statement: the generated blocks compute what the statements mean: the same results with the same
    effects on the world, the same undefined behaviour, the same non-termination.
    Missing: programs that are not [fits]. *)
Theorem C41_generated_code_runs_the_program_partial : forall ret params args body F w,
  fits params args body -> compile ret params body = Ret F ->
  let source n := run_body ret n params args w (map denote_stmt body) in
  (forall r, (exists n, source n = Ret r) <-> (exists m, call args m F w = Ret r)) /\
  ((exists n, source n = UB) <-> (exists m, call args m F w = UB)) /\
  ((forall n, source n = Hang) <-> (forall m, call args m F w = Hang)) /\
  (forall n, source n <> Err) /\ (forall m, call args m F w <> Err).
Proof. exact (Codegen_Results2.compile_equiv oper conv ext konst_val truth llvm19 op_fun fsig). Qed.
(** A call has one outcome. *)
Theorem C41_one_outcome_partial : forall args F m w r, call args m F w = r -> r <> Hang -> forall k, m <= k -> call args k F w = r.
Proof. exact (Codegen_Results2.call_mono oper conv ext konst_val truth). Qed.

(** ** C43 *)
(** Full statement: a && b, a || b and c ? a : b evaluate only the operands they need. This is false: all
    operands are evaluated. The function is undefined if the operand that is not needed is, and has the
    effects of both operands. *)
Theorem C43_all_operands_are_evaluated_refuted : forall op ret params args o a b F w w1 x,
  op = OP_LOGIC_AND \/ op = OP_LOGIC_OR -> params_ok params args ->
  denote o = EBin op a b -> pure (denote o) = true -> compile ret params [S_return (Some o)] = Ret F ->
  eval (start params args) w a = Ret (w1, x) ->
  (eval (start params args) w1 b = UB -> exists m, forall k, m <= k -> call args k F w = UB) /\
  (forall w2 y k r w', eval (start params args) w1 b = Ret (w2, y) -> call args k F w = Ret (r, w') -> w' = w2).
Proof.
  intros op ret params args o a b F w w1 x Hop Hps Ho Hp HF Ea. pose proof (C38_compiled_expression_is_its_tree_partial ret params args o F w Hps Hp HF) as H. rewrite Ho in H. unfold eval in H. cbn [Codegen_Spec.eval] in H. fold eval in H. rewrite Ea in H. cbn [obind] in H. split.
  - intros Eb. rewrite Eb in H. exact H.
  - intros w2 y k r w' Eb Ec. rewrite Eb in H. cbn [obind] in H. destruct (apply_op oper conv llvm19 op_fun op [x; y]) as [v| | |]; cbn [obind] in H; try contradiction.
    + destruct (convert conv v ret) as [u| | |]; cbn [obind] in H; try contradiction; destruct H as (m & H).
      * pose proof (Codegen_Results2.call_det oper conv ext konst_val truth args F _ _ _ _ _ Ec (H m (le_n m))) as Q. assert (Ret (r, w') = Ret (if vty_eqb ret TVoid then None else Some u, w2)) as Q' by (apply Q; discriminate). congruence.
      * pose proof (Codegen_Results2.call_det oper conv ext konst_val truth args F _ _ _ _ _ Ec (H m (le_n m))) as Q. assert (Ret (r, w') = UB) as Q' by (apply Q; discriminate). discriminate.
    + destruct H as (m & H). pose proof (Codegen_Results2.call_det oper conv ext konst_val truth args F _ _ _ _ _ Ec (H m (le_n m))) as Q. assert (Ret (r, w') = UB) as Q' by (apply Q; discriminate). discriminate.
Qed.
Theorem C43_both_branches_are_evaluated_refuted : forall ret params args o c a b F w w0 z w1 x,
  params_ok params args -> denote o = ECond c a b -> pure (denote o) = true -> compile ret params [S_return (Some o)] = Ret F ->
  eval (start params args) w c = Ret (w0, z) ->
  (eval (start params args) w0 a = UB -> exists m, forall k, m <= k -> call args k F w = UB) /\
  (eval (start params args) w0 a = Ret (w1, x) -> eval (start params args) w1 b = UB -> exists m, forall k, m <= k -> call args k F w = UB).
Proof.
  intros ret params args o c a b F w w0 z w1 x Hps Ho Hp HF Ec. pose proof (C38_compiled_expression_is_its_tree_partial ret params args o F w Hps Hp HF) as H. rewrite Ho in H. unfold eval in H. cbn [Codegen_Spec.eval] in H. fold eval in H. rewrite Ec in H. cbn [obind] in H. split.
  - intros Ea. rewrite Ea in H. exact H.
  - intros Ea Eb. rewrite Ea in H. cbn [obind] in H. rewrite Eb in H. exact H.
Qed.
(** What holds: the value is the one that evaluating only the needed operands gives, if all operands are
    defined and no functions with effects are called. The hypotheses say what the instructions compute. *)
Theorem C43_value_as_if_only_needed_operands_partial : forall ret params args o F w w' x,
  (forall a b, truth a = false -> oper OP_LOGIC_AND TBit [a; b] = Some a) ->
  (forall a b, truth a = true -> oper OP_LOGIC_OR TBit [a; b] = Some a) ->
  (forall t c a b, oper OP_CONDITIONAL t [c; a; b] = Some (if truth c then a else b)) ->
  (forall t, op_fun OP_LOGIC_AND t = None) -> (forall t, op_fun OP_LOGIC_OR t = None) ->
  params_ok params args -> pure (denote o) = true -> no_calls (denote o) = true ->
  compile ret params [S_return (Some o)] = Ret F ->
  eval (start params args) w (denote o) = Ret (w', x) ->
  match (do! (w', x) <- eval_lazy (start params args) w (denote o); do! v <- convert conv x ret; Ret (v, w')) with
  | Ret (v, w') => w' = w /\ exists m, forall k, m <= k -> call args k F w = Ret (if vty_eqb ret TVoid then None else Some v, w)
  | UB => exists m, forall k, m <= k -> call args k F w = UB
  | Err | Hang => False
  end.
Proof.
  intros ret params args o F w w' x A1 A2 A3 A4 A5 Hps Hp Hn HF He. pose proof (C38_compiled_expression_is_its_tree_partial ret params args o F w Hps Hp HF) as H.
  destruct (Codegen_Results.lazy_eq oper conv ext konst_val truth llvm19 op_fun fsig A1 A2 A3 A4 A5 _ _ Hn _ _ _ He) as [-> El]. unfold eval_lazy. fold (start params args) in El. rewrite El. rewrite He in H. cbn [obind] in *.
  destruct (convert conv x ret) as [u| | |]; cbn [obind] in *; try contradiction; auto.
Qed.

(** ** C60 *)
(** Full statement: every accepted function with a result type returns a computed value on every path, and
    reads only assigned variables. This is false (examples below). It holds if every variable is declared
    before it is read, in the same block or an enclosing one, every path ends in a return with a value, and
    the operators used are never undefined. [ok] lists these operators with their number of operands. *)
Theorem C60_returned_values_are_computed_partial : forall (ok : optok -> nat -> bool) ret params args body F w m,
  (forall op t vs, ok op (length vs) = true -> oper op t vs <> None) -> (forall a b v, conv a b v <> None) ->
  fits params args body -> ret <> TVoid ->
  scoped_list (map snd params) (map denote_stmt body) = true -> last_leaves (map denote_stmt body) = true ->
  forallb valued (map denote_stmt body) = true -> forallb (within_stmt ok) (map denote_stmt body) = true ->
  compile ret params body = Ret F ->
  call args m F w = Hang \/ exists v w', call args m F w = Ret (Some v, w').
Proof.
  intros ok ret params args body F w m Ho Hc Hf Hr Hs Hl Hv Hw HF. destruct (Codegen_Results2.compile_equiv oper conv ext konst_val truth llvm19 op_fun fsig ret params args body F w Hf HF) as (R & U & _ & _ & E).
  assert (forall n, run_body ret n params args w (map denote_stmt body) <> UB /\ forall r w', run_body ret n params args w (map denote_stmt body) = Ret (r, w') -> r <> None) as Q.
  { intros n. apply (Codegen_Results.run_body_def oper conv ext konst_val truth llvm19 op_fun fsig ok); auto; apply Hf. }
  destruct (call args m F w) as [[r w']| | |] eqn:Em; [|now apply E in Em| |auto].
  - right. destruct (proj2 (R (r, w')) (ex_intro _ m Em)) as (n & En). destruct r as [v|]; [eauto|]. exfalso. now apply (proj2 (Q n) _ _ En).
  - exfalso. destruct (proj2 U (ex_intro _ m Em)) as (n & En). now apply (proj1 (Q n)).
Qed.
End Statements.

(** ** Counterexamples and instances, from source text *)
Definition ex_types : list (text * vty) := [(lit "int", TNum I32); (lit "double", TNum F64); (lit "bool", TBit)].
Definition ex_type (t : text) : option vty := find_text ex_types t.
Definition ex_is_type (t : text) : bool := match ex_type t with Some _ => true | None => false end.
Definition ex_parse (t : text) : outcome (vty * list (vty * text) * list stmt) :=
  do! f <- parse_function_ast ex_is_type ex_type t;
  Ret (f_ret f, map (fun a => (a_type a, a_name a)) (match Parser_Model.f_args f with Some l => l | None => [] end), f_body f).
Definition ex_compile (t : text) : outcome cfg :=
  do! (ret, params, body) <- ex_parse t; compile false (fun _ _ => None) (fun _ => None) ret params body.
(** The compiled function in numbers: the world is not used. *)
Definition ex_call (args : list val) (m : nat) (F : cfg) : outcome (option val * unit) :=
  call (ir_prim (Scalar_Model.oper (fun _ _ _ => None)) cast) (fun _ w _ => Ret (w, VInt 0)) Scalar_Model.konst_val Scalar_Model.truth args m F tt.

(** C38: sqrt with two arguments and max with one are accepted; the operators take their operands from the
    neighbours: b * max(sqrt(c), d). *)
Theorem C38_operands_of_function_operators_refuted : exists F,
  ex_compile (lit "double f(double b, double c, double d) { return sqrt(b, c) * max(d); }") = Ret F /\
  forall V W (oper : optok -> vty -> list V -> option V) conv (ext : text -> W -> list V -> W * V) konst_val truth b c d w s m r,
    oper OP_SQRT (TNum F64) [c] = Some s -> oper OP_MAX (TNum F64) [s; d] = Some m -> oper OP_MULTIPLY (TNum F64) [b; m] = Some r ->
    exists k, call (ir_prim oper conv) (total ext) konst_val truth [b; c; d] k F w = Ret (Some r, w).
Proof.
  eexists. split; [vm_compute; reflexivity|]. intros V W oper conv ext konst_val truth b c d w s m r H1 H2 H3. exists 30.
  vm_compute. rewrite H1, H2, H3. reflexivity.
Qed.

(** C39: x changes although only y is assigned, for every argument. *)
Theorem C39_initialised_with_a_variable_refuted : exists F,
  ex_compile (lit "int f(int x) { auto y = x; y = 5; return x; }") = Ret F /\
  forall V W oper conv (ext : text -> W -> list V -> W * V) konst_val truth x w,
    exists k, call (ir_prim oper conv) (total ext) konst_val truth [x] k F w = Ret (Some (konst_val (KNum (CInt I32 5))), w).
Proof. eexists. split; [vm_compute; reflexivity|]. intros V W oper conv ext konst_val truth x w. exists 20. reflexivity. Qed.
(** ... and y changes when x is assigned. *)
Theorem C39_variable_follows_initialised_refuted : exists F,
  ex_compile (lit "int f(int x) { auto y = x; x = 5; return y; }") = Ret F /\
  forall V W oper conv (ext : text -> W -> list V -> W * V) konst_val truth x w,
    exists k, call (ir_prim oper conv) (total ext) konst_val truth [x] k F w = Ret (Some (konst_val (KNum (CInt I32 5))), w).
Proof. eexists. split; [vm_compute; reflexivity|]. intros V W oper conv ext konst_val truth x w. exists 20. reflexivity. Qed.

(** C40: a loop at the end of an else branch leaves a block without a terminator. *)
Theorem C40_loop_at_the_end_of_else_refuted : exists F b,
  ex_compile (lit "int f(int x) { if (x > 0) { x = 1; } else { while (x < 0) { x += 1; } } return x; }") = Ret F /\
  nth_error F b = Some (Blk true []) /\ well_formed F = false.
Proof. eexists. exists 6. split; [vm_compute; reflexivity|]. split; vm_compute; reflexivity. Qed.

(** C60: a path without return, and a variable assigned on another path only. *)
Theorem C60_path_without_return_refuted : exists F,
  ex_compile (lit "int f(int x) { if (x > 0) { return x; } }") = Ret F /\
  forall m, 20 <= m -> ex_call [VInt 0] m F = UB.
Proof. eexists. split; [vm_compute; reflexivity|]. intros m Hm. unfold ex_call. apply (Codegen_Results2.call_mono _ _ _ _ _ _ _ 20); [vm_compute; reflexivity|discriminate|exact Hm]. Qed.
Theorem C60_variable_of_another_path_refuted : exists F,
  ex_compile (lit "int f(int x) { if (x > 0) { auto y = 1; } return y; }") = Ret F /\
  forall m, 20 <= m -> ex_call [VInt 0] m F = UB.
Proof. eexists. split; [vm_compute; reflexivity|]. intros m Hm. unfold ex_call. apply (Codegen_Results2.call_mono _ _ _ _ _ _ _ 20); [vm_compute; reflexivity|discriminate|exact Hm]. Qed.

Print Assumptions C38_compiled_expression_is_its_tree_partial.
Print Assumptions C39_assignment_leaves_other_variables_partial.
Print Assumptions C40_blocks_are_well_formed_partial.
Print Assumptions C40_statement_after_return_refuted.
Print Assumptions C41_generated_code_runs_the_program_partial.
Print Assumptions C41_one_outcome_partial.
Print Assumptions C43_all_operands_are_evaluated_refuted.
Print Assumptions C43_both_branches_are_evaluated_refuted.
Print Assumptions C43_value_as_if_only_needed_operands_partial.
Print Assumptions C60_returned_values_are_computed_partial.
Print Assumptions C38_operands_of_function_operators_refuted.
Print Assumptions C39_initialised_with_a_variable_refuted.
Print Assumptions C39_variable_follows_initialised_refuted.
Print Assumptions C40_loop_at_the_end_of_else_refuted.
Print Assumptions C60_path_without_return_refuted.
Print Assumptions C60_variable_of_another_path_refuted.

(** Instances of the hypotheses *)
Definition ex_gcd : text := lit "int f(int x, int y) { while (y != 0) { auto t = x % y; x = y; y = t; if (t == 1) { return 1; } elif (t > 1000000) { continue; } } return x; }".
Ltac solve_fits :=
  constructor; [vm_compute; reflexivity|vm_compute; reflexivity|
    unfold names_ok; vm_compute; split; [repeat constructor; cbn; intuition discriminate|split; intuition discriminate]|
    repeat constructor; discriminate|reflexivity].
Example C41_ex : exists ret params body F,
  ex_parse ex_gcd = Ret (ret, params, body) /\ ex_compile ex_gcd = Ret F /\ fits params [VInt 48; VInt 36] body /\
  well_formed F = true /\ ex_call [VInt 48; VInt 36] 200 F = Ret (Some (VInt 12), tt).
Proof. do 4 eexists. split; [vm_compute; reflexivity|]. split; [vm_compute; reflexivity|]. split; [solve_fits|]. split; vm_compute; reflexivity. Qed.
Example C60_ex : exists ret params body F,
  ex_parse ex_gcd = Ret (ret, params, body) /\ ex_compile ex_gcd = Ret F /\
  scoped_list (map snd params) (map denote_stmt body) = true /\ last_leaves (map denote_stmt body) = true /\
  forallb valued (map denote_stmt body) = true /\
  forallb (within_stmt (fun op k => existsb (optok_eqb op) [OP_NOT_EQUAL; OP_EQUAL; OP_GREATER; OP_MOD])) (map denote_stmt body) = true.
Proof. do 4 eexists. split; [vm_compute; reflexivity|]. split; [vm_compute; reflexivity|]. repeat split; vm_compute; reflexivity. Qed.
(** Operators that are never undefined on integers of one width *)
Example C60_ex_ops : forall op t vs, existsb (optok_eqb op) [OP_PLUS; OP_EQUAL] && (length vs =? 2) = true ->
  (fun (op : optok) (t : vty) (vs : list Z) => match vs with [a; b] => Some (if optok_eqb op OP_PLUS then (a + b) mod 4294967296 else if a =? b then 1 else 0) | _ => None end)%Z op t vs <> None.
Proof. intros op t [|a [|b [|c vs]]] H; cbn in H; try (rewrite andb_false_r in H); discriminate. Qed.
(** 10 / x is evaluated although x is 0. *)
Definition ex_guard : text := lit "bool f(int x) { return x != 0 && 10 / x > 1; }".
Example C43_ex : exists ret params body F,
  ex_parse ex_guard = Ret (ret, params, body) /\ ex_compile ex_guard = Ret F /\
  ex_call [VInt 0] 50 F = UB /\ ex_call [VInt 5] 50 F = Ret (Some (VInt 1), tt) /\
  match body with
  | [S_return (Some o)] =>
      pure (denote o) = true /\ no_calls (denote o) = true /\
      eval_lazy (Scalar_Model.oper (fun _ _ _ => None)) cast (fun _ w _ => (w, VInt 0)) Scalar_Model.konst_val Scalar_Model.truth false (fun _ _ => None) (fun _ => None)
        (bind_args params [VInt 0] (fun _ => None)) tt (denote o) = Ret (tt, (TBit, VInt 0))
  | _ => False
  end.
Proof. do 4 eexists. split; [vm_compute; reflexivity|]. split; [vm_compute; reflexivity|]. split; [vm_compute; reflexivity|]. split; [vm_compute; reflexivity|]. cbv beta iota. split; [vm_compute; reflexivity|]. split; [vm_compute; reflexivity|]. vm_compute. reflexivity. Qed.
(** The contracts on the instructions hold in numbers, when bits are combined by value. *)
Definition ex_oper (op : optok) (t : vty) (vs : list val) : option val :=
  match op, vs with
  | OP_LOGIC_AND, [a; b] => Some (if Scalar_Model.truth a then b else a)
  | OP_LOGIC_OR, [a; b] => Some (if Scalar_Model.truth a then a else b)
  | OP_CONDITIONAL, [c; a; b] => Some (if Scalar_Model.truth c then a else b)
  | _, _ => Scalar_Model.oper (fun _ _ _ => None) op t vs
  end.
Example C43_ex_ops :
  (forall a b, Scalar_Model.truth a = false -> ex_oper OP_LOGIC_AND TBit [a; b] = Some a) /\
  (forall a b, Scalar_Model.truth a = true -> ex_oper OP_LOGIC_OR TBit [a; b] = Some a) /\
  (forall t c a b, ex_oper OP_CONDITIONAL t [c; a; b] = Some (if Scalar_Model.truth c then a else b)).
Proof. repeat split; intros; cbn [ex_oper]; try (rewrite H); reflexivity. Qed.
Example C39_ex : exists ret params body1 body2 F1 F2,
  ex_parse (lit "int f(int x, int y) { if (x > y) { y = x + 1; } x = y * 3; return y; }") = Ret (ret, params, body1) /\
  ex_parse (lit "int f(int x, int y) { if (x > y) { y = x + 1; } return y; }") = Ret (ret, params, body2) /\
  compile false (fun _ _ => None) (fun _ => None) ret params body1 = Ret F1 /\ compile false (fun _ _ => None) (fun _ => None) ret params body2 = Ret F2 /\
  fits params [VInt 7; VInt 5] body1 /\ fits params [VInt 7; VInt 5] body2 /\
  ex_call [VInt 7; VInt 5] 100 F1 = Ret (Some (VInt 8), tt) /\ ex_call [VInt 7; VInt 5] 100 F2 = Ret (Some (VInt 8), tt).
Proof. do 6 eexists. split; [vm_compute; reflexivity|]. split; [vm_compute; reflexivity|]. split; [vm_compute; reflexivity|]. split; [vm_compute; reflexivity|]. split; [solve_fits|]. split; [solve_fits|]. split; vm_compute; reflexivity. Qed.
