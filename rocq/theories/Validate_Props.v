(** C80: which scalar functions are accepted.
    [llvm19], [op_fun] and [fsig] are the LLVM version, the library functions for operators, and the functions a
    body can call; the theorems hold for every choice with [library] and [no_operator_names]. *)
From Coq Require Import Ascii String List Bool Arith ZArith.
Import ListNotations.
From Verif Require Import Base Lexer_Model Op_Model Number_Model Parser_Model Parser_Spec Ir_Model Codegen_Model Codegen_Spec Codegen_Scope Validate_Model Validate_Spec.
From Verif Require Validate_Proofs Validate_Run.

(** ** C80 *)
(** A well-typed function is accepted. *)
Theorem C80_well_typed_functions_are_accepted : forall llvm19 op_fun fsig ret params body,
  library op_fun -> no_operator_names fsig -> Forall (fun p => fst p <> TVoid) params ->
  forallb simple (map denote_stmt body) = true ->
  well_typed op_fun fsig ret params (map denote_stmt body) ->
  exists F, compile_function llvm19 op_fun fsig ret params body = Ret F.
Proof. exact (fun llvm19 op_fun fsig ret params body lib names P B => Validate_Proofs.accepts llvm19 op_fun fsig lib names ret params body P B). Qed.
Print Assumptions C80_well_typed_functions_are_accepted.

(** ... and a function that is accepted is well typed.
    Missing: functions with ?:, where branches of different types can be accepted, see below. *)
Theorem C80_accepted_iff_well_typed_partial : forall llvm19 op_fun fsig ret params body,
  library op_fun -> no_operator_names fsig -> Forall (fun p => fst p <> TVoid) params ->
  forallb simple (map denote_stmt body) = true -> forallb unconditional_stmt (map denote_stmt body) = true ->
  (exists F, compile_function llvm19 op_fun fsig ret params body = Ret F) <-> well_typed op_fun fsig ret params (map denote_stmt body).
Proof.
  exact (fun llvm19 op_fun fsig ret params body lib names P B U => conj
    (fun H => match H with ex_intro _ F E => Validate_Proofs.accepts_only llvm19 op_fun fsig lib names ret params body P B F U E end)
    (Validate_Proofs.accepts llvm19 op_fun fsig lib names ret params body P B)).
Qed.
Print Assumptions C80_accepted_iff_well_typed_partial.

(** An accepted function runs as its source says, with all library functions at hand. *)
Theorem C80_accepted_functions_run : forall V W (oper : optok -> vty -> list V -> option V) conv (ext : text -> W -> list V -> W * V) konst_val truth
    llvm19 op_fun fsig ret params (args : list V) body F w,
  fits params args body -> compile_function llvm19 op_fun fsig ret params body = Ret F ->
  let source n := run_body oper conv (total ext) konst_val truth llvm19 op_fun fsig ret n params args w (map denote_stmt body) in
  let call m := @Ir_Model.call V W (ir_prim oper conv) (total ext) konst_val truth args m F w in
  (forall r, (exists n, source n = Ret r) <-> (exists m, call m = Ret r)) /\
  ((exists n, source n = UB) <-> (exists m, call m = UB)) /\
  ((forall n, source n = Hang) <-> (forall m, call m = Hang)) /\
  (forall n, source n <> Err) /\ (forall m, call m <> Err).
Proof. exact (@Validate_Run.accepted_equiv). Qed.
Print Assumptions C80_accepted_functions_run.

(** Compiling ends with code or with an error, if no function returns void and literals fit their types.
    Missing: without these conditions the compiler is undefined, see below. *)
Theorem C80_compiling_never_crashes_partial : forall llvm19 op_fun fsig ret params body,
  library op_fun -> no_operator_names fsig -> Forall (fun p => fst p <> TVoid) params ->
  forallb simple (map denote_stmt body) = true ->
  (forall f ts, fsig f <> Some (ts, TVoid)) -> forallb (within_stmt (fun _ _ => true)) (map denote_stmt body) = true ->
  match compile_function llvm19 op_fun fsig ret params body with Ret _ | Err => True | _ => False end.
Proof. exact (fun llvm19 op_fun fsig ret params body lib names P B => Validate_Proofs.never_crashes llvm19 op_fun fsig lib names ret params body P B). Qed.
Print Assumptions C80_compiling_never_crashes_partial.

(** A source with several functions that return the same type is accepted exactly if the functions have different
    names and are well typed. Missing: functions with different result types, see below; ?: . *)
Theorem C80_sources_partial : forall llvm19 op_fun reg us r,
  library op_fun -> no_operator_names reg -> Forall plain us -> Forall (fun u => u_ret u = r) us ->
  (well_typed_source op_fun reg [] us -> exists Fs, compile_source llvm19 op_fun reg us = Ret Fs) /\
  (Forall (fun u => forallb unconditional_stmt (map denote_stmt (u_body u)) = true) us ->
   (exists Fs, compile_source llvm19 op_fun reg us = Ret Fs) -> well_typed_source op_fun reg [] us).
Proof.
  exact (fun llvm19 op_fun reg us r lib names P R => conj (Validate_Proofs.source_accepts llvm19 op_fun reg lib names us r P R)
    (fun U H => match H with ex_intro _ Fs E => Validate_Proofs.source_accepts_only llvm19 op_fun reg lib names us r Fs P R U E end)).
Qed.
Print Assumptions C80_sources_partial.

(** An accepted source has code for each of its functions, in order, and each runs as its source says. (Calls
    of functions are [ext], here and in C41; for functions of the source that call each other see C82.) *)
Theorem C80_accepted_sources_run : forall V W (oper : optok -> vty -> list V -> option V) conv (ext : text -> W -> list V -> W * V) konst_val truth
    llvm19 op_fun reg us Fs,
  compile_source llvm19 op_fun reg us = Ret Fs ->
  length Fs = length us /\
  forall i u F, nth_error us i = Some u -> nth_error Fs i = Some F ->
  forall (args : list V) w, fits (u_params u) args (u_body u) ->
  let source n := run_body oper conv (total ext) konst_val truth llvm19 op_fun (callable (firstn (S i) us) reg) (u_ret u) n (u_params u) args w (map denote_stmt (u_body u)) in
  let call m := @Ir_Model.call V W (ir_prim oper conv) (total ext) konst_val truth args m F w in
  (forall r, (exists n, source n = Ret r) <-> (exists m, call m = Ret r)) /\
  ((exists n, source n = UB) <-> (exists m, call m = UB)) /\
  ((forall n, source n = Hang) <-> (forall m, call m = Hang)) /\
  (forall n, source n <> Err) /\ (forall m, call m <> Err).
Proof. exact (@Validate_Run.source_equiv). Qed.
Print Assumptions C80_accepted_sources_run.

(** A function of a source whose result fits its own type, but not that of the first function, is refused. *)
Theorem C80_result_types_of_later_functions_refuted : forall llvm19 op_fun reg u v us o t,
  library op_fun -> no_operator_names reg -> Forall plain [u; v] ->
  u_body v = [S_return (Some o)] -> pure (denote o) = true ->
  has_type op_fun (callable [u; v] reg) (known (u_params v)) (denote o) = Some t -> t <> TVoid ->
  pass t (u_ret v) = true -> pass t (u_ret u) = false ->
  forall Fs, compile_source llvm19 op_fun reg (u :: v :: us) <> Ret Fs.
Proof. exact (fun llvm19 op_fun reg u v us o t lib names P B Pu T N _ Q => Validate_Proofs.later_return llvm19 op_fun reg lib names u v us o t P B Pu T N Q). Qed.
Print Assumptions C80_result_types_of_later_functions_refuted.

(** ** Instances, from source text *)
Definition ex_types : list (text * vty) :=
  [(lit "int", TNum I32); (lit "double", TNum F64); (lit "long_double", TNum F80); (lit "bool", TBit); (lit "void", TVoid)].
Definition ex_type (t : text) : option vty := find_text ex_types t.
Definition ex_is_type (t : text) : bool := match ex_type t with Some _ => true | None => false end.
Definition ex_parse (t : text) : outcome udf :=
  do! f <- parse_function_ast ex_is_type ex_type t;
  Ret (Udf (f_name f) (f_ret f) (map (fun a => (a_type a, a_name a)) (match Parser_Model.f_args f with Some l => l | None => [] end)) (f_body f)).
(** All operators written like functions, on floating-point numbers; max and min on int too *)
Definition ex_lib (op : optok) (t : vty) : option vty :=
  match t with
  | TNum n => if negb (Number_Model.ty_integer n) || optok_eqb op OP_MAX || optok_eqb op OP_MIN then Some t else None
  | _ => None
  end.
Definition ex_compile (reg : text -> option (list vty * vty)) (t : text) : outcome cfg :=
  do! u <- ex_parse t; compile_function false ex_lib (local_sig [u] reg) (u_ret u) (u_params u) (u_body u).
Definition ex_source (ts : list text) : outcome (list cfg) :=
  do! us <- (fix parse l := match l with [] => Ret [] | t :: l' => do! u <- ex_parse t; do! us <- parse l'; Ret (u :: us) end) ts;
  compile_source false ex_lib (fun _ => None) us.
Definition none (_ : text) : option (list vty * vty) := None.
Definition accepted {A} (o : outcome A) : bool := match o with Ret _ => true | _ => false end.

(** The order of the branches of ?: decides whether a function is accepted. *)
Theorem C80_branches_of_different_types_refuted :
  accepted (ex_compile none (lit "double f(bool b) { return sqrt(b ? 2 : 1.5); }")) = true /\
  ex_compile none (lit "double f(bool b) { return sqrt(b ? 1.5 : 2); }") = Err.
Proof. split; vm_compute; reflexivity. Qed.
Print Assumptions C80_branches_of_different_types_refuted.
(** A variable in its own initialiser passes the checks; the code generator is undefined. *)
Theorem C80_variable_in_its_initialiser_refuted : ex_compile none (lit "int f() { auto x = x + 1; return x; }") = UB.
Proof. vm_compute. reflexivity. Qed.
Print Assumptions C80_variable_in_its_initialiser_refuted.
(** ... and so does a function without a result as an operand. *)
Definition ex_log (t : text) : option (list vty * vty) := if text_eqb t (lit "log_it") then Some ([], TVoid) else None.
Theorem C80_void_operand_refuted : ex_compile ex_log (lit "int f() { return log_it() + 1; }") = UB.
Proof. vm_compute. reflexivity. Qed.
Print Assumptions C80_void_operand_refuted.
(** The number of operands of an operator written like a function is not checked. *)
Theorem C80_number_of_operands_refuted :
  accepted (ex_compile none (lit "double f(double b, double c) { return max(sqrt(b, c)); }")) = true.
Proof. vm_compute. reflexivity. Qed.
Print Assumptions C80_number_of_operands_refuted.
(** A long double cannot be negated, but subtracted from 0. *)
Theorem C80_negative_long_double_refuted :
  ex_compile none (lit "long_double f(long_double x) { return -x; }") = Err /\
  accepted (ex_compile none (lit "long_double f(long_double x) { return 0 - x; }")) = true.
Proof. split; vm_compute; reflexivity. Qed.
Print Assumptions C80_negative_long_double_refuted.

(** Instances of the hypotheses *)
Example C80_ex_library : library ex_lib /\ no_operator_names none.
Proof.
  split; [|intros op; reflexivity]. intros op t r H. unfold ex_lib in H. destruct t as [| |n]; try discriminate H. destruct (_ || _ || _); [|discriminate H]. injection H as <-. eauto.
Qed.
Definition ex_newton : text := lit "double f(double a, int n) { auto x = max(a, 1.0); auto i = 0; while (i < n && x > 0) { x = (x + a / x) / 2; i += 1; if (i == 100) { break; } elif (x * x == a) { return sqrt(x) - pow(x, 2); } } return -x; }".
Example C80_ex : exists u F,
  ex_parse ex_newton = Ret u /\ well_typed ex_lib none (u_ret u) (u_params u) (map denote_stmt (u_body u)) /\
  forallb simple (map denote_stmt (u_body u)) = true /\ forallb unconditional_stmt (map denote_stmt (u_body u)) = true /\
  forallb (within_stmt (fun _ _ => true)) (map denote_stmt (u_body u)) = true /\ Forall (fun p => fst p <> TVoid) (u_params u) /\
  fits (u_params u) [tt; tt] (u_body u) /\ compile_function false ex_lib none (u_ret u) (u_params u) (u_body u) = Ret F.
Proof.
  do 2 eexists. split; [vm_compute; reflexivity|]. split; [split; [vm_compute; repeat constructor; cbn; intuition discriminate|vm_compute; discriminate]|].
  split; [vm_compute; reflexivity|]. split; [vm_compute; reflexivity|]. split; [vm_compute; reflexivity|]. split; [repeat constructor; discriminate|].
  split; [|vm_compute; reflexivity]. constructor; [vm_compute; reflexivity|vm_compute; reflexivity|unfold names_ok; vm_compute; split; [repeat constructor; cbn; intuition discriminate|split; intuition discriminate]|repeat constructor; discriminate|reflexivity].
Qed.
(** What is not well typed, and refused: an unknown name, a name declared twice, a condition that is a number, an
    assignment of another type, break outside a loop, a call with the wrong arguments, a repeated parameter. *)
Example C80_ex_refused : forall t,
  In t [lit "int f(int x) { return y; }"; lit "int f(int x) { auto x = 1 + 2; return x; }"; lit "int f(int x) { if (x) { return 1; } return 2; }";
        lit "int f(int x) { x = 1.5; return x; }"; lit "int f(int x) { break; return x; }"; lit "int f(int x) { return f(x, x); }"; lit "int f(int x, int x) { return x; }";
        lit "int f(int x) { return x && true; }"; lit "int f(int x) { return !x; }"; lit "bool f(int x) { return x; }"; lit "int f(int x) { x *= 1.5; return x; }"] ->
  exists u, ex_parse t = Ret u /\ ex_compile none t = Err /\ ~ well_typed ex_lib (callable [u] none) (u_ret u) (u_params u) (map denote_stmt (u_body u)).
Proof.
  intros t H. repeat (destruct H as [<-|H]; [eexists; split; [vm_compute; reflexivity|]; split; [vm_compute; reflexivity|]; intros [N W]; revert N W; vm_compute; intros N W; try (now elim W); inversion N as [|? ? N1 N2]; elim N1; now left|]). contradiction.
Qed.
Definition ex_two : list text := [lit "int sq(int x) { return x * x; }"; lit "int f(int x, int y) { return sq(x) + sq(y) + 1; }"].
Example C80_ex_source : exists u v,
  map ex_parse ex_two = [Ret u; Ret v] /\ Forall plain [u; v] /\ Forall (fun u => u_ret u = TNum I32) [u; v] /\ well_typed_source ex_lib none [] [u; v] /\
  Forall (fun u => forallb unconditional_stmt (map denote_stmt (u_body u)) = true) [u; v] /\ accepted (ex_source ex_two) = true.
Proof.
  do 2 eexists. split; [vm_compute; reflexivity|]. split; [|split; [|split; [|split]]].
  - repeat constructor; try (vm_compute; reflexivity); try discriminate; intros []; discriminate.
  - repeat constructor.
  - cbn [well_typed_source app]. split; [split; [vm_compute; repeat constructor; cbn; intuition discriminate|vm_compute; discriminate]|]. split; [intros []|]. split; [split; [vm_compute; repeat constructor; cbn; intuition discriminate|vm_compute; discriminate]|]. split; [|exact Logic.I].
    vm_compute. intuition discriminate.
  - repeat constructor.
  - vm_compute. reflexivity.
Qed.
Example C80_ex_later : exists u v o,
  map ex_parse [lit "int f(int x) { return x; }"; lit "bool g(int x) { return f(x) > 0; }"] = [Ret u; Ret v] /\
  Forall plain [u; v] /\ u_body v = [S_return (Some o)] /\ pure (denote o) = true /\
  has_type ex_lib (callable [u; v] none) (known (u_params v)) (denote o) = Some TBit /\ pass TBit (u_ret v) = true /\ pass TBit (u_ret u) = false.
Proof.
  do 3 eexists. split; [vm_compute; reflexivity|]. split; [repeat constructor; try (vm_compute; reflexivity); try discriminate; intros []; discriminate|].
  split; [reflexivity|]. repeat split; vm_compute; reflexivity.
Qed.
