(** Vocabulary for C42 and C71: programs that compile sources, load functions, and move, drop and call them. *)
From Coq Require Import Ascii String List Bool Arith ZArith.
Import ListNotations.
From Verif Require Import Lexer_Model DType_Spec.

(** A signature RET(Args...). *)
Record signature : Type := Sig { s_return : cpptype; s_args : list cpptype }.
Definition signature_ok (s : signature) : Prop :=
  Forall (fun t => supported 2047 t /\ no_arrays t) (s_return s :: s_args s).
(** A function in a source: its name, its types (None: no parameter list at all) and the code it compiles to. *)
Record udf : Type := Udf { u_name : text; u_return : cpptype; u_args : option (list cpptype); u_code : nat }.
Definition udf_signature (u : udf) : signature := Sig (u_return u) (match u_args u with None => [] | Some l => l end).

(** What a program does with one compiler and its variables of type JitFunction, numbered in order of creation. *)
Inductive op (source : Type) : Type :=
| OCompileSource (src : source)                        (* compiler.CompileSource(src) *)
| OLoad (name : text) (s : signature)                  (* auto f = compiler.LoadFunction<...>(name) *)
| OCompileFunction (src : source) (s : signature)      (* auto f = compiler.CompileFunction<...>(src) *)
| OCompileExpression (src : source) (s : signature)    (* auto f = compiler.CompileExpression<...>(src, names) *)
| ODefault                                             (* JitFunction<...> f; *)
| OMoveNew (a : nat)                                   (* JitFunction<...> f(std::move(a)); *)
| OMove (a b : nat)                                    (* b = std::move(a); *)
| ODrop (a : nat)                                      (* a goes out of scope *)
| OCall (a : nat)                                      (* a(...) *)
| ODropCompiler.                                       (* the compiler goes out of scope *)
Arguments OCompileSource {source}. Arguments OLoad {source}. Arguments OCompileFunction {source}.
Arguments OCompileExpression {source}. Arguments ODefault {source}. Arguments OMoveNew {source}.
Arguments OMove {source}. Arguments ODrop {source}. Arguments OCall {source}. Arguments ODropCompiler {source}.

(** What is seen: whether an operation succeeded, and which code a call ran. *)
Inductive event : Type := Done (ok : bool) | Ran (code : nat).

(** The operation names only signatures that data types can describe (C07). *)
Definition op_ok {source} (o : op source) : Prop :=
  match o with
  | OLoad _ s | OCompileFunction _ s | OCompileExpression _ s => signature_ok s
  | _ => True
  end.
(** The outcome of the front end and of LLVM for a source: no syntax tree; a tree but no machine code; or code. *)
Inductive built (A : Type) : Type := BadSource | NoCode (a : A) | Code (a : A).
Arguments BadSource {A}. Arguments NoCode {A}. Arguments Code {A}.

Section Ideal.
Variable source : Type.
Variable functions : source -> built (list udf).            (* of a source with any number of functions *)
Variable function : source -> built udf.                    (* of a source with one *)
Variable expression : source -> signature -> built nat.     (* of an expression *)

(** A variable: nothing, the code it runs, moved from, or out of scope. *)
Inductive var : Type := VEmpty | VCode (code : nat) | VMoved | VGone.
(** The functions that can be loaded (None: no compiler any more), and the variables. *)
Record ideal : Type := Ideal { i_known : option (list udf); i_vars : list var }.
Fixpoint set_nth {A} (n : nat) (x : A) (l : list A) : list A :=
  match l, n with
  | [], _ => []
  | _ :: l, 0 => x :: l
  | y :: l, S n => y :: set_nth n x l
  end.
Definition code_of (known : list udf) (name : text) : option nat :=
  option_map u_code (find (fun u => text_eqb (u_name u) name) known).

(** What the program should see; None: it uses a variable that holds no function, or the compiler after its end. *)
Definition ideal_step (st : ideal) (o : op source) : option (ideal * event) :=
  match o, i_known st with
  | OCompileSource src, Some _ =>
      match functions src with
      | Code us => Some (Ideal (Some us) (i_vars st), Done true)
      | _ => Some (Ideal (Some []) (i_vars st), Done false)
      end
  | OLoad name _, Some us =>
      match code_of us name with
      | Some c => Some (Ideal (Some us) (i_vars st ++ [VCode c]), Done true)
      | None => Some (st, Done false)
      end
  | OCompileFunction src _, Some _ =>
      match function src with
      | Code u => Some (Ideal (Some [u]) (i_vars st ++ [VCode (u_code u)]), Done true)
      | _ => Some (Ideal (Some []) (i_vars st), Done false)
      end
  | OCompileExpression src s, Some _ =>
      match expression src s with
      | Code c =>
          Some (Ideal (Some [Udf (lit "rapidudf_expresion") (s_return s)
                       (match s_args s with [] => None | l => Some l end) c])
                  (i_vars st ++ [VCode c]), Done true)
      | _ => Some (Ideal (Some []) (i_vars st), Done false)
      end
  | (OCompileSource _ | OLoad _ _ | OCompileFunction _ _ | OCompileExpression _ _), None => None
  | ODefault, _ => Some (Ideal (i_known st) (i_vars st ++ [VEmpty]), Done true)
  | OMoveNew a, _ =>
      match nth_error (i_vars st) a with
      | Some (VCode c) => Some (Ideal (i_known st) (set_nth a VMoved (i_vars st) ++ [VCode c]), Done true)
      | _ => None
      end
  | OMove a b, _ =>
      match nth_error (i_vars st) a, nth_error (i_vars st) b with
      | Some (VCode c), Some (VEmpty | VCode _ | VMoved) =>
          Some (Ideal (i_known st) (set_nth b (VCode c) (set_nth a VMoved (i_vars st))), Done true)
      | _, _ => None
      end
  | ODrop a, _ =>
      match nth_error (i_vars st) a with
      | Some (VEmpty | VCode _ | VMoved) => Some (Ideal (i_known st) (set_nth a VGone (i_vars st)), Done true)
      | _ => None
      end
  | OCall a, _ =>
      match nth_error (i_vars st) a with
      | Some (VCode c) => Some (st, Ran c)
      | _ => None
      end
  | ODropCompiler, Some _ => Some (Ideal None (i_vars st), Done true)
  | ODropCompiler, None => None
  end.
Fixpoint ideal_run (st : ideal) (os : list (op source)) : option (list event) :=
  match os with
  | [] => Some []
  | o :: os =>
      match ideal_step st o with
      | None => None
      | Some (st, e) => match ideal_run st os with Some es => Some (e :: es) | None => None end
      end
  end.
End Ideal.
