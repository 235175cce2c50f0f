(** Model of one JitCompiler used for several compilations: rapidudf/compiler/compiler.{h,cc}, ast/context.{h,cc}
    and the entry points of ast/grammar.cc, for scalar functions. The parser is Parser_Model, the checks
    Validate_Model, the code generator Codegen_Model.
    Not modelled: what Validate_Model leaves out; the text of errors; options, statistics, and loading (C42, C71).
    Every compilation starts with a new code generator (compiler.cc:131-136), so only the parse context is kept. *)
From Coq Require Import Ascii String List Bool Arith ZArith.
Import ListNotations.
From Verif Require Import Base Lexer_Model Op_Model Number_Model Parser_Model Ir_Model Codegen_Model Validate_Model.

(** context.h:120-127, FunctionParseContext: the variables, the library functions of operators and the registered
    functions to declare, and the description (name, parameter types, result type) once it is set. The loop counter is
    an argument of [validate_stmt]. *)
Record fcontext : Type := Fcontext
  { c_vars : vars; c_ops : calls; c_names : list text; c_desc : option (text * (list vty * vty)) }.
Definition no_context : fcontext := Fcontext [] [] [] None.
(** context.h:129-142, ParseContext: function_parse_ctxs_ and current_function_cursor_ *)
Record session : Type := Session { contexts : list fcontext; cursor : nat }.
Definition new_session : session := Session [] 0.

(** context.h:128-134, GetFunctionParseContext: contexts that do not exist are created empty. *)
Definition get_context (i : nat) (s : session) : fcontext := nth i (contexts s) no_context.
Fixpoint set_nth (i : nat) (c : fcontext) (l : list fcontext) : list fcontext :=
  match i, l with
  | O, [] => [c]
  | O, _ :: l' => c :: l'
  | S i', [] => no_context :: set_nth i' c []
  | S i', x :: l' => x :: set_nth i' c l'
  end.
Definition put_context (i : nat) (c : fcontext) (s : session) : session := Session (set_nth i c (contexts s)) (cursor s).
(** context.cc:29-37, Clear, and context.cc:56-71, SetSource: the cursor stays. *)
Definition clear (s : session) : session := Session [] (cursor s).
(** context.h:95 *)
Definition set_cursor (i : nat) (s : session) : session := Session (contexts s) i.
(** ast/function.cc:22-33, ToFuncDesc *)
Definition desc_of (u : udf) : text * (list vty * vty) := (u_name u, (map fst (u_params u), u_ret u)).
(** context.cc:39-43, SetFuncDesc *)
Definition set_desc (u : udf) (i : nat) (s : session) : session :=
  let c := get_context i s in put_context i (Fcontext (c_vars c) (c_ops c) (c_names c) (Some (desc_of u))) s.
(** context.cc:165-175: the first of the contexts 0, ..., cursor with that name *)
Definition local_desc (s : session) (f : text) : option (list vty * vty) :=
  match find (fun c => match c_desc c with Some (g, _) => text_eqb g f | None => false end) (map (fun i => get_context i s) (seq 0 (S (cursor s)))) with
  | Some c => match c_desc c with Some (_, sg) => Some sg | None => None end
  | None => None
  end.
(** context.h:76, GetFuncReturnDType(), with the default argument 0 *)
Definition return_type (s : session) : vty := match c_desc (get_context 0 s) with Some (_, (_, r)) => r | None => TVoid end.

(** The names that are called in an operand and in statements; an operator written like a function is not one.
    Member accesses are left out, as in Validate_Model. *)
Fixpoint called (o : operand) : list text :=
  match o with
  | O_var n None (Some args) _ =>
      match builtin_op n with Some _ => [] | None => [n] end ++ match args with Some l => flat_map called l | None => [] end
  | O_select c (a, b) => called c ++ called a ++ called b
  | O_bin l r _ => called l ++ flat_map (fun x => match x with (_, y) => called y end) r
  | O_un _ x _ => called x
  | _ => []
  end.
Fixpoint called_stmt (s : stmt) : list text :=
  match s with
  | S_return (Some o) | S_expr o => called o
  | S_while c b => called c ++ flat_map called_stmt b
  | S_ifelse c b es el =>
      called c ++ flat_map called_stmt b ++ flat_map (fun x => match x with (c, b) => called c ++ flat_map called_stmt b end) es ++
      match el with Some b => flat_map called_stmt b | None => [] end
  | _ => []
  end.

Section Session.
Variable llvm19 : bool.
Variable op_fun : optok -> vty -> option vty.
(** The registered functions *)
Variable reg : text -> option (list vty * vty).
(** Symbols: the names of types (C72), and which are scalar types *)
Variable is_type : text -> bool.
Variable type_named : text -> option vty.

(** context.cc:165-193, CheckFuncExist *)
Definition check_sig (s : session) (f : text) : option (list vty * vty) :=
  match local_desc s f with Some sg => Some sg | None => reg f end.
(** What is recorded in the context of the cursor: context.cc:184-190, not for functions of the source. *)
Definition record (Γ : fctx) (names : list text) (s : session) : session :=
  let c := get_context (cursor s) s in
  put_context (cursor s) (Fcontext (fst Γ) (snd Γ)
    (filter (fun f => match local_desc s f with Some _ => false | None => true end) names ++ c_names c) (c_desc c)) s.
Definition current (s : session) : fctx := let c := get_context (cursor s) s in (c_vars c, c_ops c).
(** function.cc:33-52, Function::Validate *)
Definition check_function (u : udf) (s : session) : outcome session :=
  do! Γ <- validate_params (u_params u) (current s);
  do! Γ <- validate_stmts op_fun (check_sig s) (return_type s) false (u_body u) Γ;
  Ret (record Γ (flat_map called_stmt (u_body u)) s).

(** codegen.cc:602-640, CallFunction: a declared function, or else a function of the source defined so far *)
Definition code_sig (names : list text) (done : list udf) (f : text) : option (list vty * vty) :=
  if existsb (text_eqb f) names then reg f
  else match find (fun u => text_eqb (u_name u) f) done with Some u => Some (map fst (u_params u), u_ret u) | None => None end.
Fixpoint build_functions (ops : calls) (names : list text) (done us : list udf) : outcome (list cfg) :=
  match us with
  | [] => Ret []
  | u :: us' =>
      do! F <- compile llvm19 (declared_fun op_fun ops) (code_sig names (done ++ [u])) (u_ret u) (u_params u) (u_body u);
      do! Fs <- build_functions ops names (done ++ [u]) us';
      Ret (F :: Fs)
  end.
(** compiler.cc:73-113, CompileFunctions: the contexts 0, ..., n - 1 are read. *)
Definition compile_functions (us : list udf) (s : session) : outcome (list cfg) :=
  let cs := map (fun i => get_context i s) (seq 0 (length us)) in
  build_functions (flat_map c_ops cs) (flat_map c_names cs) [] us.

Definition udf_of (f : @func vty) : udf :=
  Udf (f_name f) (f_ret f) (map (fun a => (a_type a, a_name a)) (match f_args f with Some l => l | None => [] end)) (f_body f).
Definition failed {A B} (o : outcome A) (d : outcome B) : outcome B := match o with Ret _ => d | Err => Err | UB => UB | Hang => Hang end.

(** compiler.h:80-104 with compiler.cc:57-70 and grammar.cc:849-882: CompileFunction *)
Definition compile_one (source : text) (s : session) : outcome (list cfg) * session :=
  let s := clear s in
  match parse_function_ast is_type type_named source with
  | Ret f =>
      let u := udf_of f in
      let s := set_desc u 0 s in
      match check_function u s with
      | Ret s => (compile_functions [u] s, s)
      | o => (failed o Err, s)
      end
  | o => (failed o Err, s)
  end.

(** grammar.cc:913-926. After an error the cursor stays where it is. *)
Fixpoint check_functions (i : nat) (seen : list text) (us : list udf) (s : session) : outcome unit * session :=
  match us with
  | [] => (Ret tt, s)
  | u :: us' =>
      let s := set_desc u i (set_cursor i s) in
      match check_function u s with
      | Ret s => if existsb (text_eqb (u_name u)) seen then (Err, s) else check_functions (S i) (u_name u :: seen) us' s
      | o => (failed o Err, s)
      end
  end.
(** grammar.cc:884-911, parsing all functions *)
Definition parse_source (source : text) : outcome (list udf) :=
  do! ts <- lex_all source;
  do! fs <- parse_funcs is_type type_named (S (length ts)) ts;
  Ret (map udf_of fs).
(** compiler.cc:36-55 with grammar.cc:884-930: CompileSource *)
Definition compile_source (source : text) (s : session) : outcome (list cfg) * session :=
  let s := clear s in
  match parse_source source with
  | Ret us =>
      match check_functions 0 [] us s with
      | (Ret _, s) => (compile_functions us s, s)
      | (o, s) => (failed o Err, s)
      end
  | o => (failed o Err, s)
  end.

(** compiler.h:107-150: the arguments of an expression are variables of the context of the cursor. *)
Fixpoint add_arguments (ps : list (vty * text)) (Γ : vars) : option vars :=
  match ps with
  | [] => Some Γ
  | (t, x) :: ps' =>
      match find_text Γ x with
      | Some (TBit | TNum _) => None
      | _ => add_arguments ps' (add_local x t Γ)
      end
  end.
(** compiler.h:52 *)
Definition expression_name : text := lit "rapidudf_expresion".
(** compiler.h:106-165 with compiler.cc:115-128 and grammar.cc:932-966: CompileExpression with the result type, and the
    types and names of the arguments. SetSource keeps the variables. *)
Definition compile_expression (ret : vty) (ps : list (vty * text)) (source : text) (s : session) : outcome (list cfg) * session :=
  let s := clear s in
  match add_arguments ps (c_vars (get_context (cursor s) s)) with
  | None => (Err, s)
  | Some Γ =>
      let s := put_context (cursor s) (Fcontext Γ [] [] None) s in
      match parse_expression_ast is_type source with
      | Ret o =>
          let u := Udf expression_name ret ps [S_return (Some o)] in
          let s := set_desc u 0 s in
          match validate op_fun (check_sig s) o (current s) with
          | Ret (_, Γ) => let s := record Γ (called o) s in (compile_functions [u] s, s)
          | x => (failed x Err, s)
          end
      | x => (failed x Err, s)
      end
  end.

(** The requests to a compiler *)
Inductive request : Type :=
| CompileFunction (source : text)
| CompileSource (source : text)
| CompileExpression (ret : vty) (ps : list (vty * text)) (source : text).
Definition answer (r : request) (s : session) : outcome (list cfg) * session :=
  match r with
  | CompileFunction t => compile_one t s
  | CompileSource t => compile_source t s
  | CompileExpression ret ps t => compile_expression ret ps t s
  end.
(** A compiler that has served some requests; nothing can be said after undefined behaviour. *)
Fixpoint serve (h : list request) (s : session) : outcome session :=
  match h with
  | [] => Ret s
  | r :: h' => match answer r s with (Ret _, s) => serve h' s | (Err, s) => serve h' s | (UB, _) => UB | (Hang, _) => Hang end
  end.
End Session.
