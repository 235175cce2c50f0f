(** C81: what a compiler answers does not depend on what it compiled before. *)
From Coq Require Import Ascii String List Bool Arith ZArith.
Import ListNotations.
From Verif Require Import Base Lexer_Model Op_Model Number_Model Parser_Model Ir_Model Codegen_Model Validate_Model Validate_Props Session_Model Session_Spec.
From Verif Require Session_Proofs.

(** ** C81 *)
(** A compiler that got only functions, expressions and sources of one function, accepted or not, answers every
    request as a new compiler does. Missing: sources with several functions, see below. *)
Theorem C81_answers_do_not_depend_on_history_partial : forall llvm19 op_fun reg is_type type_named h s r,
  serve llvm19 op_fun reg is_type type_named h new_session = Ret s ->
  (forall t, In (CompileSource t) h -> at_most_one (parse_source is_type type_named) t) ->
  fst (answer llvm19 op_fun reg is_type type_named r s) = fst (answer llvm19 op_fun reg is_type type_named r new_session).
Proof. exact Session_Proofs.independent_answers. Qed.
Print Assumptions C81_answers_do_not_depend_on_history_partial.

(** A source gets the same answer from every compiler. *)
Theorem C81_sources : forall llvm19 op_fun reg is_type type_named h s t,
  serve llvm19 op_fun reg is_type type_named h new_session = Ret s ->
  fst (answer llvm19 op_fun reg is_type type_named (CompileSource t) s) = fst (answer llvm19 op_fun reg is_type type_named (CompileSource t) new_session).
Proof. exact (fun llvm19 op_fun reg is_type type_named h s t _ => Session_Proofs.source_independent llvm19 op_fun reg is_type type_named t s). Qed.
Print Assumptions C81_sources.

(** A function that calls at most itself gets the same answer from every compiler. *)
Theorem C81_functions_without_calls : forall llvm19 op_fun reg is_type type_named h s t f,
  serve llvm19 op_fun reg is_type type_named h new_session = Ret s ->
  parse_function_ast is_type type_named t = Ret f -> builtin_op (f_name f) = None ->
  (forall n, In n (flat_map callees_stmt (f_body f)) -> n = f_name f) ->
  fst (answer llvm19 op_fun reg is_type type_named (CompileFunction t) s) = fst (answer llvm19 op_fun reg is_type type_named (CompileFunction t) new_session).
Proof. exact Session_Proofs.alone_answers. Qed.
Print Assumptions C81_functions_without_calls.

(** After an accepted source of two or more functions, functions and expressions that call a library function or a
    registered function, such as these, are refused, whatever the compiler did before. *)
Definition ex_reg (t : text) : option (list vty * vty) := if text_eqb t (lit "my_square") then Some ([TNum I32], TNum I32) else None.
Definition ex_answer := answer false ex_lib ex_reg ex_is_type ex_type.
Definition ex_serve := serve false ex_lib ex_reg ex_is_type ex_type.
Definition ex_requests : list request :=
  [CompileFunction (lit "double f(double x) { return cbrt(x) + 1; }"); CompileFunction (lit "int f(int x) { return my_square(x) + 1; }");
   CompileExpression (TNum F64) [(TNum F64, lit "x")] (lit "cbrt(x) + 1"); CompileExpression (TNum I32) [(TNum I32, lit "x")] (lit "my_square(x) + 1")].
Theorem C81_after_a_source_of_several_functions_refuted : forall h t s s' us Fs r,
  ex_serve h new_session = Ret s -> parse_source ex_is_type ex_type t = Ret us -> 2 <= length us ->
  ex_answer (CompileSource t) s = (Ret Fs, s') -> In r ex_requests ->
  (exists F, fst (ex_answer r new_session) = Ret [F]) /\ fst (ex_answer r s') = Err.
Proof.
  intros h t s s' us Fs r _ P N E I. unfold ex_answer at 2. rewrite (Session_Proofs.later_answer _ _ _ _ _ t s s' us Fs r P N E).
  repeat (destruct I as [<-|I]; [split; [eexists; vm_compute; reflexivity|vm_compute; reflexivity]|]). contradiction.
Qed.
Print Assumptions C81_after_a_source_of_several_functions_refuted.

(** A source can define a function with the name of a registered one and call it, but not after another function of the
    source has called the registered one: then the code generator takes the registered one. *)
Theorem C80_functions_named_like_registered_ones_refuted :
  accepted (fst (ex_answer (CompileSource (lit "int my_square(int x, int y) { return x * y; } int g(int x) { return my_square(x, x); }")) new_session)) = true /\
  accepted (fst (ex_answer (CompileSource (lit "int f(int x) { return my_square(x); } int square(int x, int y) { return x * y; } int g(int x) { return square(x, x); }")) new_session)) = true /\
  fst (ex_answer (CompileSource (lit "int f(int x) { return my_square(x); } int my_square(int x, int y) { return x * y; } int g(int x) { return my_square(x, x); }")) new_session) = Err.
Proof. repeat split; vm_compute; reflexivity. Qed.
Print Assumptions C80_functions_named_like_registered_ones_refuted.

(** Instances: a history that ends with such a source, and one that does not *)
Definition ex_history : list request :=
  [CompileFunction (lit "double f(double x) { return sqrt(x) + 1; }"); CompileFunction (lit "int f(int x) { return y; }"); CompileSource (lit "int f(int x) { return my_square(x); }");
   CompileSource (lit "int f( {"); CompileExpression (TNum I32) [(TNum I32, lit "x")] (lit "my_square(x) + 1")].
Example C81_ex : exists s Fs s' us,
  ex_serve ex_history new_session = Ret s /\ (forall t, In (CompileSource t) ex_history -> at_most_one (parse_source ex_is_type ex_type) t) /\
  parse_source ex_is_type ex_type (lit "int sq(int x) { return x * x; } int g(int x) { return sq(x) + 1; }") = Ret us /\ 2 <= length us /\
  ex_answer (CompileSource (lit "int sq(int x) { return x * x; } int g(int x) { return sq(x) + 1; }")) s = (Ret Fs, s').
Proof.
  do 4 eexists. split; [vm_compute; reflexivity|]. split; [|split; [vm_compute; reflexivity|split; [|vm_compute; reflexivity]]].
  - intros t I us. repeat (destruct I as [I|I]; [try discriminate I; injection I as <-; vm_compute; intros E; try discriminate E; injection E as <-; repeat constructor|]). contradiction.
  - repeat constructor.
Qed.
Example C81_ex_alone : exists f, let t := lit "int f(int x) { if (x < 2) { return 1; } return x * f(x - 1); }" in
  parse_function_ast ex_is_type ex_type t = Ret f /\ builtin_op (f_name f) = None /\ flat_map callees_stmt (f_body f) = [f_name f] /\ exists F, fst (ex_answer (CompileFunction t) new_session) = Ret [F].
Proof. eexists. cbn zeta. split; [vm_compute; reflexivity|]. split; [vm_compute; reflexivity|]. split; [vm_compute; reflexivity|]. eexists. vm_compute. reflexivity. Qed.
