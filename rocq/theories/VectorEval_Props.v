(** C44: expressions on vectors. [run_statement fuel t nodes] is the compiled code of an expression (or assignment) with elements
    of type [t]; [vemit e] is the expression in postfix order, as the compiler gets it; [fuel] bounds the rounds of the loop. *)
From Coq Require Import List Bool Arith ZArith Lia Floats.SpecFloat.
Import ListNotations.
From Verif Require Import Base Lexer_Model Op_Model Number_Model Ir_Model Scalar_Model Scalar_Spec VectorEval_Model VectorEval_Spec.
From Verif Require VectorEval_Proofs.
Local Open Scope Z_scope.

Section Statements.
Variable lib : optok -> vty -> list val -> option val.  (* operators that are not modelled *)
Variable vecs : nat -> vec.                              (* the vector variables *)
Let types j := v_ty (vecs j).

(** Vectors of one size [n], any size below 2^30: the result has [n] elements, and element [i] is the expression of the i-th
    elements, with scalars converted to the type of the vector. Expressions of operators that always have results.
    Missing (see the refuted theorems): parts of other types that are not single scalars ([plain]). *)
Theorem C44_elementwise_partial : forall e t n fuel,
  validate vecs e = Some (true, t) -> is_operation e = true -> plain types e = true -> total types e = true -> element_type t = true ->
  (forall j, In j (vectors_of e) -> v_size (vecs j) = n /\ proper_vector (vecs j)) -> bytes_of t n + 7 < 2 ^ 32 -> n / 64 <= Z.of_nat fuel ->
  exists r, run_statement lib vecs fuel t (vemit e) = Ret (r, vecs) /\ v_ty r = t /\ v_size r = n /\ proper_vector r /\
    forall i, Z.of_nat i < n -> exists v, nth_error (v_mem r) i = Some v /\ value lib types (element vecs i) e = Some v.
Proof. exact (VectorEval_Proofs.elementwise_total lib vecs). Qed.
(** All operators: the expression must have a value in every lane of the last unit, too, where vectors read as 1 past their end. *)
Theorem C44_elementwise_if_defined_partial : forall e t n fuel,
  validate vecs e = Some (true, t) -> is_operation e = true -> plain types e = true -> element_type t = true ->
  (forall j, In j (vectors_of e) -> v_size (vecs j) = n) -> 0 <= n < 2 ^ 30 -> bytes_of t n + 7 < 2 ^ 32 ->
  (forall i, Z.of_nat i < in_units n -> defined lib types (in_lane vecs i) e) -> n / 64 <= Z.of_nat fuel ->
  exists r, run_statement lib vecs fuel t (vemit e) = Ret (r, vecs) /\ v_ty r = t /\ v_size r = n /\ vector_ok r /\
    (forall v, In v (v_mem r) -> exists i, Z.of_nat i < in_units n /\ value lib types (in_lane vecs i) e = Some v) /\
    forall i, Z.of_nat i < n -> exists v, nth_error (v_mem r) i = Some v /\ value lib types (element vecs i) e = Some v.
Proof. exact (VectorEval_Proofs.elementwise lib vecs). Qed.
(** Integers: the elements are the mathematical values, if these fit. *)
Theorem C44_integers_partial : forall e t n fuel m,
  validate vecs e = Some (true, t) -> is_operation e = true -> plain types e = true -> element_type t = true ->
  (forall j, In j (vectors_of e) -> v_size (vecs j) = n) -> 0 <= n < 2 ^ 30 -> bytes_of t n + 7 < 2 ^ 32 ->
  (forall i, Z.of_nat i < in_units n -> ideal_value types (in_lane vecs i) e = Some (m i)) -> n / 64 <= Z.of_nat fuel ->
  exists r, run_statement lib vecs fuel t (vemit e) = Ret (r, vecs) /\ v_ty r = t /\ v_size r = n /\
    forall i, Z.of_nat i < n -> nth_error (v_mem r) i = Some (machine (m i)).
Proof. exact (VectorEval_Proofs.elementwise_integers lib vecs). Qed.
(** Vectors of different sizes: an exception (or no compilation), whatever is in their memory; any expression that has a type. *)
Theorem C44_sizes : forall e t fuel i j,
  validate vecs e = Some t -> In i (vectors_of e) -> In j (vectors_of e) -> v_size (vecs i) <> v_size (vecs j) ->
  run_statement lib vecs fuel (snd t) (vemit e) = Err.
Proof. exact (VectorEval_Proofs.different_sizes lib vecs). Qed.
(** x = e, x += e, ...: x gets the result of e, x + e, ...; other variables keep their vectors. *)
Theorem C44_assignment : forall fuel t j op e rhs r vt,
  match op with
  | OP_ASSIGN => Some e
  | OP_PLUS_ASSIGN => Some (EBin OP_PLUS (EVec j) e)
  | OP_MINUS_ASSIGN => Some (EBin OP_MINUS (EVec j) e)
  | OP_MULTIPLY_ASSIGN => Some (EBin OP_MULTIPLY (EVec j) e)
  | OP_DIVIDE_ASSIGN => Some (EBin OP_DIVIDE (EVec j) e)
  | OP_MOD_ASSIGN => Some (EBin OP_MOD (EVec j) e)
  | _ => None
  end = Some rhs -> validate vecs rhs = Some vt ->
  run_statement lib vecs fuel t (vemit rhs) = Ret (r, vecs) -> v_ty r = v_ty (vecs j) ->
  run_statement lib vecs fuel t (N_vec j :: vemit e ++ [N_op op]) = Ret (r, fun k => if Nat.eqb k j then r else vecs k).
Proof. exact (VectorEval_Proofs.assigned lib vecs). Qed.
End Statements.
Print Assumptions C44_elementwise_partial.
Print Assumptions C44_elementwise_if_defined_partial.
Print Assumptions C44_integers_partial.
Print Assumptions C44_sizes.
Print Assumptions C44_assignment.

(** ** Examples: vectors of 70 elements *)
Definition no_lib (op : optok) (t : vty) (vs : list val) : option val := None.
Definition i32s (l : list Z) : vec := Vec (TNum I32) (Z.of_nat (length l)) (map (fun z => VInt (z mod 2 ^ 32)) l).
Definition seventy : nat -> vec := fun j => i32s (map (fun k => Z.of_nat k * (Z.of_nat j + 1) - 35) (seq 0 70)).
(** x * 2 > y ? x : y - 3 *)
Definition sample : vexpr :=
  ESel (EBin OP_GREATER (EBin OP_MULTIPLY (EVec 0) (EScalar (VInt 2) (TNum U8))) (EVec 1)) (EVec 0)
       (EBin OP_MINUS (EVec 1) (EScalar (VInt 3) (TNum I32))).
Example C44_example_hypotheses :
  validate seventy sample = Some (true, TNum I32) /\
  is_operation sample = true /\ plain (fun j => v_ty (seventy j)) sample = true /\ total (fun j => v_ty (seventy j)) sample = true /\
  (forall j, In j (vectors_of sample) -> v_size (seventy j) = 70 /\ proper_vector (seventy j)) /\ bytes_of (TNum I32) 70 + 7 < 2 ^ 32 /\ 70 / 64 <= Z.of_nat 1.
Proof.
  repeat split; try reflexivity; try (destruct H as [<-|[<-|[<-|[<-|[]]]]]; vm_compute; congruence || (repeat split; congruence)).
  intros v Hv. destruct H as [<-|[<-|[<-|[<-|[]]]]]; revert v Hv; apply Forall_forall; repeat constructor.
Qed.
Example C44_example_result :
  match run_statement no_lib seventy 1 (TNum I32) (vemit sample) with
  | Ret (r, _) => Some (v_size r, map (nth_error (v_mem r)) [0; 40; 69; 70]%nat)
  | _ => None
  end = Some (70, [Some (VInt (2 ^ 32 - 38)); Some (VInt 42); Some (VInt 100); None]).
Proof. vm_compute. reflexivity. Qed.
(** x / 4 + y: every lane has a mathematical value. *)
Definition quarter : vexpr := EBin OP_PLUS (EBin OP_DIVIDE (EVec 0) (EScalar (VInt 4) (TNum U8))) (EVec 1).
Example C44_example_integers :
  validate seventy quarter = Some (true, TNum I32) /\ plain (fun j => v_ty (seventy j)) quarter = true /\
  (forall i, Z.of_nat i < in_units 70 -> exists m, ideal_value (fun j => v_ty (seventy j)) (in_lane seventy i) quarter = Some m) /\
  ideal_value (fun j => v_ty (seventy j)) (in_lane seventy 0) quarter = Some (MInt I32 (-43)).
Proof.
  split; [reflexivity|]. split; [reflexivity|]. split; [|vm_compute; reflexivity]. change (in_units 70) with 128. intros i Hi.
  assert (forallb (fun i => match ideal_value (fun j => v_ty (seventy j)) (in_lane seventy i) quarter with Some _ => true | None => false end) (seq 0 128) = true) as A
    by (vm_compute; reflexivity).
  rewrite forallb_forall in A. specialize (A i). destruct (ideal_value _ _ _); [eauto|]. discriminate A. apply in_seq. lia.
Qed.
Example C44_example_sizes :
  run_statement no_lib (fun j => if Nat.eqb j 0 then i32s [1; 2; 3] else i32s [4; 5]) 1 (TNum I32) (vemit (EBin OP_PLUS (EVec 0) (EVec 1))) = Err.
Proof. reflexivity. Qed.
Example C44_example_assignment :
  match run_statement no_lib seventy 1 (TNum I32) (N_vec 1 :: vemit (EVec 0) ++ [N_op OP_MINUS_ASSIGN]) with
  | Ret (r, vecs) => Some (nth_error (v_mem (vecs 1%nat)) 66, nth_error (v_mem (vecs 0%nat)) 66)
  | _ => None
  end = Some (Some (VInt 66), Some (VInt 31)).
Proof. vm_compute. reflexivity. Qed.

(** ** Where it fails *)
(** x / (y - 1): a division by zero in the lanes past the end, although all the elements have a value. *)
Definition below_one : vexpr := EBin OP_DIVIDE (EVec 0) (EBin OP_MINUS (EVec 1) (EScalar (VInt 1) (TNum I32))).
Definition six_three (j : nat) : vec := if Nat.eqb j 0 then i32s [6] else i32s [3].
Theorem C44_last_unit_refuted : forall lib fuel,
  validate six_three below_one = Some (true, TNum I32) /\ plain (fun j => v_ty (six_three j)) below_one = true /\
  value lib (fun j => v_ty (six_three j)) (element six_three 0) below_one = Some (VInt 3) /\
  run_statement lib six_three fuel (TNum I32) (vemit below_one) = UB.
Proof. intros lib fuel. split; [reflexivity|]. split; [reflexivity|]. split; [reflexivity|]. destruct fuel; vm_compute; reflexivity. Qed.
Print Assumptions C44_last_unit_refuted.
(** x + (0.5 + 0.5) with x of 32-bit integers is x: the halves are converted, not their sum. *)
Definition half : vexpr := EScalar (VFlt (to_fmt F64 1 (-1) false)) (TNum F64).
Definition plus_one : vexpr := EBin OP_PLUS (EVec 0) (EBin OP_PLUS half half).
Definition five (j : nat) : vec := i32s [5].
Theorem C44_scalar_part_refuted : forall lib fuel,
  validate five plus_one = Some (true, TNum I32) /\
  value lib (fun j => v_ty (five j)) (element five 0) plus_one = Some (VInt 6) /\
  run_statement lib five fuel (TNum I32) (vemit plus_one) = Ret (i32s [5], five).
Proof. intros lib fuel. split; [reflexivity|]. split; [vm_compute; reflexivity|]. destruct fuel; vm_compute; reflexivity. Qed.
Print Assumptions C44_scalar_part_refuted.
(** x + (1 + 2) with x of doubles: a vector of doubles is stored in a temporary for 32-bit integers. *)
Definition doubles (j : nat) : vec := Vec (TNum F64) 1 [VFlt (to_fmt F64 5 0 false)].
Definition plus_three : vexpr := EBin OP_PLUS (EVec 0) (EBin OP_PLUS (EScalar (VInt 1) (TNum I32)) (EScalar (VInt 2) (TNum I32))).
Theorem C44_temporary_refuted : forall lib fuel,
  validate doubles plus_three = Some (true, TNum F64) /\
  value lib (fun j => v_ty (doubles j)) (element doubles 0) plus_three = Some (VFlt (to_fmt F64 8 0 false)) /\
  run_statement lib doubles fuel (TNum F64) (vemit plus_three) = UB.
Proof. intros lib fuel. split; [reflexivity|]. split; [vm_compute; reflexivity|]. destruct fuel; vm_compute; reflexivity. Qed.
Print Assumptions C44_temporary_refuted.
(** x > 0 ? 1 : 2.5: the choice is typed as doubles but computed with 32-bit integers. *)
Definition choice : vexpr :=
  ESel (EBin OP_GREATER (EVec 0) (EScalar (VInt 0) (TNum I32))) (EScalar (VInt 1) (TNum I32)) (EScalar (VFlt (to_fmt F64 5 (-1) false)) (TNum F64)).
Theorem C44_scalar_choice_refuted : forall lib fuel,
  validate five choice = Some (true, TNum F64) /\
  value lib (fun j => v_ty (five j)) (element five 0) choice = Some (VFlt (to_fmt F64 1 0 false)) /\
  run_statement lib five fuel (TNum F64) (vemit choice) = UB.
Proof. intros lib fuel. split; [reflexivity|]. split; [vm_compute; reflexivity|]. destruct fuel; vm_compute; reflexivity. Qed.
Print Assumptions C44_scalar_choice_refuted.
