(** What a source text means: a program of the grammar (Parser_Spec) is a list of functions; which programs are
    well typed, and what calling their functions does, written without reference to the compiler. *)
From Coq Require Import List Bool Arith ZArith.
Import ListNotations.
From Verif Require Import Base Lexer_Model Op_Model Number_Model Parser_Model Parser_Spec Ir_Model Codegen_Spec Codegen_Scope Validate_Spec.

Definition program : Type := list (@fn vty).
(** The function of a name, with the functions before it and itself *)
Fixpoint definition_of (before gs : program) (f : text) : option (program * @fn vty) :=
  match gs with
  | [] => None
  | g :: gs' => if text_eqb (fn_name g) f then Some (before ++ [g], g) else definition_of (before ++ [g]) gs' f
  end.
(** What a function can call: the functions of [gs], and the registered functions *)
Definition in_scope (gs : program) (reg : text -> option (list vty * vty)) (f : text) : option (list vty * vty) :=
  match definition_of [] gs f with Some (_, g) => Some (map fst (fn_args g), fn_ret g) | None => reg f end.
(** Every function is well typed; it can call itself and the functions before it. *)
Definition typed_program (op_fun : optok -> vty -> option vty) (reg : text -> option (list vty * vty)) (gs : program) : Prop :=
  forall before g after, gs = before ++ g :: after ->
  well_typed op_fun (in_scope (before ++ [g]) reg) (fn_ret g) (fn_args g) (fn_body g).
(** What an operator can be called is not the name of a function; the functions the theorems speak about. *)
Definition ordinary (g : @fn vty) : Prop :=
  (forall op, fn_name g <> op_str op) /\ forallb simple (fn_body g) = true /\ shaped_list (fn_body g) = true /\
  names_ok (fn_args g) (fn_body g) /\ Forall (fun p => fst p <> TVoid) (fn_args g).

Section Meaning.
Context {V W : Type}.
Variable oper : optok -> vty -> list V -> option V.
Variable conv : vty -> vty -> V -> option V.
Variable ext : text -> W -> list V -> W * V.
Variable konst_val : konst -> V.
Variable truth : V -> bool.
Variable llvm19 : bool.
Variable op_fun : optok -> vty -> option vty.
Variable reg : text -> option (list vty * vty).
Variable gs : program.
(** A call of function [f]: its body is executed with the arguments for its parameters. [n] bounds the depth of the
    calls and the iterations of each loop; [Hang] beyond. *)
Fixpoint call_of (n : nat) (f : text) (w : W) (vs : list V) : outcome (W * V) :=
  match definition_of [] gs f with
  | None => Ret (ext f w vs)
  | Some (known, g) =>
      match n with
      | O => Hang
      | S n =>
          if length vs =? length (fn_args g) then
            do! (r, w) <- run_body oper conv (call_of n) konst_val truth llvm19 op_fun (in_scope known reg) (fn_ret g) n (fn_args g) vs w (fn_body g);
            Ret (w, match r with Some v => v | None => konst_val (KBool false) end)
          else Err
      end
  end.
End Meaning.
(** The declarations of a program, for the linker: names and parameters *)
Definition declarations (gs : program) : list Validate_Model.udf := map (fun g => Validate_Model.Udf (fn_name g) (fn_ret g) (fn_args g) []) gs.
