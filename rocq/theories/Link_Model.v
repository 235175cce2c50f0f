(** Model of what a compiled source does when its functions call each other, or themselves: a call refers to the
    function of that name in the same module, or to a registered function, by its address.
    Modelled: rapidudf/compiler/codegen.cc:166-184 (Finish, GetFunctionPtr), 359-416 (DefineFunction, the name of
    the function) and 602-684 (CallFunction). LLVM's linker is trusted to resolve a name to the function of that
    name in the module. Left out: the limit of the stack, which deep recursion runs into. *)
From Coq Require Import List Bool Arith ZArith.
Import ListNotations.
From Verif Require Import Base Lexer_Model Op_Model Number_Model Ir_Model Validate_Model.

Section Linked.
Context {V W : Type}.
Variable prim_sem : prim -> list V -> option V.
(** The registered functions. They return. *)
Variable ext : text -> W -> list V -> W * V.
Variable konst_val : konst -> V.
Variable truth : V -> bool.
Variable reg : text -> option (list vty * vty).
(** The functions of the source with their code *)
Variable prog : list (udf * cfg).

(** What a call leaves in the register of the call; nothing uses it if the function returns void. *)
Definition result (r : option V) : V := match r with Some v => v | None => konst_val (KBool false) end.
(** codegen.cc:359-416, 625-637: the function of a name; registered functions come first. (In the code these are
    the registered functions that the checks declared. A function of the source that has the name of a registered
    function is outside of the theorems.) *)
Definition find_code (f : text) : option (udf * cfg) :=
  match reg f with
  | Some _ => None
  | None => find (fun x => text_eqb (u_name (fst x)) f) prog
  end.
(** A call of a function by its name. [n] bounds the depth of the calls and the number of instructions of each;
    [Hang] beyond. *)
Fixpoint linked (n : nat) (f : text) (w : W) (vs : list V) : outcome (W * V) :=
  match find_code f with
  | None => Ret (ext f w vs)
  | Some (u, F) =>
      match n with
      | O => Hang
      | S n =>
          if length vs =? length (u_params u) then
            do! (r, w) <- Ir_Model.call prim_sem (linked n) konst_val truth vs n F w; Ret (w, result r)
          else UB
      end
  end.
End Linked.
