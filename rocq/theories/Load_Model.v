(** Model of loading compiled functions: rapidudf/compiler/compiler.{h,cc}, compiler/function.h JitFunction,
    ast/function.cc CompareSignature. The parser, the IR builder and LLVM are parameters. *)
From Coq Require Import Ascii String List Bool Arith ZArith.
Import ListNotations.
From Verif Require Import Base Lexer_Model DType_Spec DType_Model Load_Spec.

(** ast/function.cc:53-81, CompareSignature *)
Fixpoint compare_args (given params : list dtype) : outcome bool :=
  match given, params with
  | [], [] => Ret true
  | g :: given, p :: params =>
      do! same <- dtype_eqb g p;
      if same then compare_args given params else Ret false
  | _, _ => UB
  end.
Definition compare_signature (u : udf) (rtype : dtype) (args : list dtype) : outcome bool :=
  do! same <- dtype_eqb (get_dtype (u_return u)) rtype;
  if negb same then Ret false
  else match u_args u with
  | None => Ret (match args with [] => true | _ => false end)
  | Some ps =>
      if negb (length args =? length ps)%nat then Ret false else compare_args args (map get_dtype ps)
  end.

(** compiler.cc:147-163, VerifyFunctionSignature: the answer of CompareSignature is not used. [Err]: NotFound. *)
Fixpoint verify_signature (parsed : list udf) (name : text) (rtype : dtype) (args : list dtype) : outcome text :=
  match parsed with
  | [] => Err
  | u :: parsed =>
      if text_eqb name (u_name u) then
        do! _ <- compare_signature u rtype args;
        Ret (u_name u)
      else verify_signature parsed name rtype args
  end.

(** function.h:38-81: JitFunction. [j_resource]: which code generator the shared pointer holds; [j_f]: the address,
    as the code generator it belongs to and the code; None: null. [j_cached]: None before it is set. *)
Record jit : Type := Jit { j_name : text; j_resource : option nat; j_f : option (nat * nat); j_cached : option bool }.

(** The heap of code generators: how many shared pointers hold each (0: freed), the functions LLVM made for each,
    and the next number. *)
Record state : Type := State
  { c_alive : bool; c_codegen : option nat; c_parsed : list udf;
    h_count : nat -> nat; h_code : nat -> list udf; h_next : nat; vars : list (option jit) }.
Definition start : state := State true None [] (fun _ => 0%nat) (fun _ => []) 0 [].

Definition upd {A} (n : nat) (x : A) (f : nat -> A) : nat -> A := fun m => if (m =? n)%nat then x else f m.
(** shared_ptr: copy and release *)
Definition acquire (r : option nat) (h : nat -> nat) : nat -> nat :=
  match r with None => h | Some s => upd s (S (h s)) h end.
Definition release (r : option nat) (h : nat -> nat) : nat -> nat :=
  match r with None => h | Some s => upd s (pred (h s)) h end.

(** compiler.cc:131-136, NewCodegen *)
Definition new_codegen (st : state) : state :=
  let s := h_next st in
  State (c_alive st) (Some s) [] (release (c_codegen st) (upd s 1%nat (h_count st))) (upd s [] (h_code st)) (S s) (vars st).
(** compiler.cc:73-110, CompileFunctions: parsed_ast_funcs_ is set first; the code exists only after Finish. *)
Definition compile_functions (us : list udf) (finished : bool) (st : state) : state :=
  State (c_alive st) (c_codegen st) us (h_count st)
    (match c_codegen st with
     | Some s => if finished then upd s us (h_code st) else h_code st
     | None => h_code st
     end) (h_next st) (vars st).
(** codegen.cc:176-184, GetFunctionPtr: LLVM's lookup finds the first function of a name in the finished module.
    [Err]: an error status. *)
Definition function_ptr (name : text) (st : state) : outcome (nat * nat) :=
  match c_codegen st with
  | None => Err
  | Some s =>
      match find (fun u => text_eqb (u_name u) name) (h_code st s) with
      | Some u => Ret (s, u_code u)
      | None => Err
      end
  end.
(** compiler.h:78, 105 and 155: the JitFunction is built with the code generator and moved into the StatusOr, and
    from there into the variable, so [is_from_cache_] is never copied (function.h:74-79). *)
Definition new_var (name : text) (f : nat * nat) (st : state) : state :=
  State (c_alive st) (c_codegen st) (c_parsed st) (acquire (c_codegen st) (h_count st)) (h_code st) (h_next st)
    (vars st ++ [Some (Jit name (c_codegen st) (Some f) None)]).

Section Compiler.
Variable source : Type.
Variable functions : source -> built (list udf).
Variable function : source -> built udf.
Variable expression : source -> signature -> built nat.

(** compiler.cc:36-55, CompileSource *)
Definition compile_source (src : source) (st : state) : state * bool :=
  let st := new_codegen st in
  match functions src with
  | BadSource => (st, false)
  | NoCode us => (compile_functions us false st, false)
  | Code us => (compile_functions us true st, true)
  end.
(** compiler.h:57-79, LoadFunction *)
Definition load_function (name : text) (s : signature) (st : state) : outcome state :=
  match c_codegen st with
  | None => Err
  | Some _ =>
      do! _ <- verify_signature (c_parsed st) name (get_dtype (s_return s)) (map get_dtype (s_args s));
      do! f <- function_ptr name st;
      Ret (new_var name f st)
  end.
(** compiler.h:81-106, CompileFunction: on failure the new, empty code generator stays. *)
Definition compile_function (src : source) (s : signature) (st : state) : outcome (state * bool) :=
  let st := new_codegen st in
  match function src with
  | BadSource => Ret (st, false)
  | NoCode u => Ret (compile_functions [u] false st, false)
  | Code u =>
      let st := compile_functions [u] true st in
      match verify_signature (c_parsed st) (u_name u) (get_dtype (s_return s)) (map get_dtype (s_args s)) with
      | Ret name => match function_ptr name st with Ret f => Ret (new_var name f st, true) | Err => Ret (st, false) | UB => UB | Hang => Hang end
      | Err => Ret (st, false)
      | UB => UB
      | Hang => Hang
      end
  end.
(** compiler.h:108-165, CompileDynObjExpression: the function gets the requested types. Simplified: the number and
    the names of the arguments are part of [expression]. *)
Definition compile_expression (src : source) (s : signature) (st : state) : outcome (state * bool) :=
  let st := new_codegen st in
  let name := lit "rapidudf_expresion" in
  let u := Udf name (s_return s) (match s_args s with [] => None | l => Some l end) in
  match expression src s with
  | BadSource => Ret (st, false)
  | NoCode c => Ret (compile_functions [u c] false st, false)
  | Code c =>
      let st := compile_functions [u c] true st in
      match function_ptr name st with
      | Ret f => Ret (new_var name f st, true)
      | Err => Ret (st, false)
      | UB => UB
      | Hang => Hang
      end
  end.

Definition with_vars (vs : list (option jit)) (h : nat -> nat) (st : state) : state :=
  State (c_alive st) (c_codegen st) (c_parsed st) h (h_code st) (h_next st) vs.
(** function.h:74-79, MoveFrom: the address is copied, the shared pointer moved; the flag stays. *)
Definition moved_into (other this : jit) : jit := Jit (j_name other) (j_resource other) (j_f other) (j_cached this).
Definition moved_from (other : jit) : jit := Jit (j_name other) None (j_f other) (j_cached other).
Definition default_jit : jit := Jit [] None None None.

(** One operation. Using the compiler or a variable after its end is undefined. *)
Definition step (st : state) (o : op source) : outcome (state * event) :=
  match o with
  | OCompileSource src =>
      if c_alive st then let (st, ok) := compile_source src st in Ret (st, Done ok) else UB
  | OLoad name s =>
      if c_alive st then
        match load_function name s st with
        | Ret st => Ret (st, Done true)
        | Err => Ret (st, Done false)
        | UB => UB
        | Hang => Hang
        end
      else UB
  | OCompileFunction src s =>
      if c_alive st then do! (st, ok) <- compile_function src s st; Ret (st, Done ok) else UB
  | OCompileExpression src s =>
      if c_alive st then do! (st, ok) <- compile_expression src s st; Ret (st, Done ok) else UB
  | ODefault => Ret (with_vars (vars st ++ [Some default_jit]) (h_count st) st, Done true)
  | OMoveNew a =>
      match nth_error (vars st) a with
      | Some (Some x) =>
          Ret (with_vars (set_nth a (Some (moved_from x)) (vars st) ++ [Some (moved_into x default_jit)]) (h_count st) st,
               Done true)
      | _ => UB
      end
  | OMove a b =>
      match nth_error (vars st) a, nth_error (vars st) b with
      | Some (Some x), Some (Some y) =>
          if (a =? b)%nat then Ret (st, Done true)
          else Ret (with_vars (set_nth b (Some (moved_into x y)) (set_nth a (Some (moved_from x)) (vars st)))
                      (release (j_resource y) (h_count st)) st, Done true)
      | _, _ => UB
      end
  | ODrop a =>
      match nth_error (vars st) a with
      | Some (Some x) => Ret (with_vars (set_nth a None (vars st)) (release (j_resource x) (h_count st)) st, Done true)
      | _ => UB
      end
  | OCall a =>
      match nth_error (vars st) a with
      | Some (Some x) =>
          match j_f x with
          | None => UB
          | Some (s, c) => if (h_count st s =? 0)%nat then UB else Ret (st, Ran c)
          end
      | _ => UB
      end
  | ODropCompiler =>
      if c_alive st then
        Ret (State false None [] (release (c_codegen st) (h_count st)) (h_code st) (h_next st) (vars st), Done true)
      else UB
  end.
Fixpoint run (st : state) (os : list (op source)) : outcome (list event) :=
  match os with
  | [] => Ret []
  | o :: os => do! (st, e) <- step st o; do! es <- run st os; Ret (e :: es)
  end.
End Compiler.
