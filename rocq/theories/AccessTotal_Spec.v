(** For C75, which chains of accesses are refused: descriptions of C++ types, and outcomes other than undefined
    behaviour. *)
From Coq Require Import ZArith.
From Verif Require Import Base DType_Spec DType_Model.
Local Open Scope Z_scope.

(** [d] describes a C++ type of the supported kinds, with type numbers below 2047. *)
Definition sized (d : dtype) : Prop := exists t, supported 2047 t /\ d = get_dtype t.
(** A value or an error: neither undefined behaviour nor a loop without end. *)
Definition defined {A} (o : outcome A) : Prop := match o with Ret _ | Err => True | _ => False end.
