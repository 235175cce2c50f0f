(** Equality of operators *)
From Coq Require Import List ZArith.
Import ListNotations.
From Verif Require Import Base Op_Model.

Definition all_ops : list optok :=
  [OP_INVALID; OP_POSITIVE; OP_NEGATIVE; OP_NOT; OP_SQRT; OP_CBRT; OP_FLOOR; OP_CEIL; OP_ROUND; OP_RINT; 
   OP_TRUNC; OP_ERF; OP_ERFC; OP_ABS; OP_SIN; OP_COS; OP_TAN; OP_ASIN; OP_ACOS; OP_ATAN; OP_ATANH; OP_SINH; 
   OP_COSH; OP_TANH; OP_ASINH; OP_ACOSH; OP_EXP; OP_EXP2; OP_EXPM1; OP_LOG; OP_LOG2; OP_LOG10; OP_LOG1P; 
   OP_APPROX_RECIP; OP_APPROX_RECIP_SQRT; OP_PLUS; OP_MINUS; OP_MULTIPLY; OP_DIVIDE; OP_MOD; OP_ASSIGN; 
   OP_PLUS_ASSIGN; OP_MINUS_ASSIGN; OP_MULTIPLY_ASSIGN; OP_DIVIDE_ASSIGN; OP_MOD_ASSIGN; OP_EQUAL; OP_NOT_EQUAL; 
   OP_LESS; OP_LESS_EQUAL; OP_GREATER; OP_GREATER_EQUAL; OP_LOGIC_AND; OP_LOGIC_OR; OP_LOGIC_XOR; OP_ATAN2; 
   OP_MAX; OP_MIN; OP_POW; OP_HYPOT; OP_ABS_DIFF; OP_CONDITIONAL; OP_CLAMP; OP_FMA; OP_FMS; OP_FNMA; OP_FNMS; 
   OP_DOT; OP_COS_DISTANCE; OP_L2_DISTANCE; OP_IOTA; OP_SORT; OP_SELECT; OP_TOPK; OP_SORT_KV; OP_SELECT_KV; 
   OP_TOPK_KV; OP_ARG_SORT; OP_ARG_SELECT; OP_SUM; OP_AVG; OP_CLONE; OP_FILTER; OP_GATHER].
Definition of_code (z : Z) : option optok := find (fun o => (op_code o =? z)%Z) all_ops.
Lemma of_code_ok a : of_code (op_code a) = Some a.
Proof. destruct a; reflexivity. Qed.
Lemma optok_eqb_eq a b : optok_eqb a b = true <-> a = b.
Proof.
  unfold optok_eqb. rewrite Z.eqb_eq. split; [|intros ->; reflexivity]. intros H.
  assert (Some a = Some b) as E by (rewrite <- (of_code_ok a), <- (of_code_ok b); now rewrite H). now injection E.
Qed.
