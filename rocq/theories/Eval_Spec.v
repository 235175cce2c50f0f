(** What C31 says: the answer of a call is that of a fresh compilation. *)
From Coq Require Import List Bool NArith.
Import ListNotations.
From Verif Require Import Base LRU_Model Eval_Model.

Section Spec.
Context {source arg sig code : Type}.
Variable sig_dec : forall a b : sig, {a = b} + {a <> b}.
Variable w : world source arg sig code.

(** The functions of a source with a given signature. *)
Definition with_sig (fs : list (sig * code)) (g : sig) : list code :=
  map snd (filter (fun f => if sig_dec (fst f) g then true else false) fs).

(** What a fresh compilation with the same argument descriptions and signature gives. *)
Definition fresh (k : @call source arg sig) (a : @answer code) : Prop :=
  match k with
  | C_function s g =>
      match compile_functions w s with
      | None => a = Status
      | Some fs => match with_sig fs g with [] => a = Status | l => exists f, In f l /\ a = Called f end
      end
  | C_expression s names g =>
      match compile_expression w s names g with None => a = Status | Some f => a = Called f end
  end.

(** One way of using each source: as functions, or as an expression over given arguments. *)
Inductive use := U_functions | U_expression (names : list arg).
Definition conforms (plan : source -> use) (k : @call source arg sig) : Prop :=
  match k with
  | C_function s _ => plan s = U_functions
  | C_expression s names _ => plan s = U_expression names
  end.
Definition begun (e : @event source arg sig) : option (@call source arg sig) := match e with E_begin k => Some k | _ => None end.
End Spec.
