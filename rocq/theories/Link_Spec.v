(** The meaning of the functions of a source that call each other, or themselves: written without reference to
    the code generator. *)
From Coq Require Import List Bool Arith ZArith.
Import ListNotations.
From Verif Require Import Base Lexer_Model Op_Model Number_Model Parser_Model Parser_Spec Ir_Model Codegen_Spec Codegen_Scope Validate_Spec.
From Verif Require Import Validate_Model.

Section Meaning.
Context {V W : Type}.
Variable oper : optok -> vty -> list V -> option V.
Variable conv : vty -> vty -> V -> option V.
Variable ext : text -> W -> list V -> W * V.          (* the registered functions *)
Variable konst_val : konst -> V.
Variable truth : V -> bool.
Variable llvm19 : bool.
Variable op_fun : optok -> vty -> option vty.
Variable reg : text -> option (list vty * vty).      (* the types of the registered functions *)

(** The functions before the one of this name, and that one *)
Fixpoint lookup (before us : list udf) (f : text) : option (list udf * udf) :=
  match us with
  | [] => None
  | u :: us' => if text_eqb (u_name u) f then Some (before ++ [u], u) else lookup (before ++ [u]) us' f
  end.
Variable us : list udf.
(** A call of a function: its body is executed, with the arguments for its parameters; it can call itself, the
    functions before it and the registered functions. [n] bounds the depth of the calls and the iterations of
    each loop; [Hang] beyond. A function without a result has an arbitrary value, which cannot be used. *)
Fixpoint meaning (n : nat) (f : text) (w : W) (vs : list V) : outcome (W * V) :=
  match lookup [] us f with
  | None => Ret (ext f w vs)
  | Some (known, u) =>
      match n with
      | O => Hang
      | S n =>
          if length vs =? length (u_params u) then
            do! (r, w) <- run_body oper conv (meaning n) konst_val truth llvm19 op_fun (callable known reg) (u_ret u) n (u_params u) vs w (map denote_stmt (u_body u));
            Ret (w, match r with Some v => v | None => konst_val (KBool false) end)
          else Err
      end
  end.
End Meaning.

(** The functions the theorems speak about: see [fits] in Codegen_Scope. *)
Definition regular (u : udf) : Prop :=
  forallb simple (map denote_stmt (u_body u)) = true /\ shaped_list (map denote_stmt (u_body u)) = true /\
  names_ok (u_params u) (map denote_stmt (u_body u)) /\ Forall (fun p => fst p <> TVoid) (u_params u).

(** An expression contains a call of a function. *)
Fixpoint contains_call (f : text) (e : expr) : bool :=
  match e with
  | EUn _ a => contains_call f a
  | EBin _ a b => contains_call f a || contains_call f b
  | ECond c a b => contains_call f c || contains_call f a || contains_call f b
  | ECall g es => text_eqb g f || existsb (contains_call f) es
  | _ => false
  end.
