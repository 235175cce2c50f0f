(** C57: the line of an error. *)
From Coq Require Import Ascii String List Bool Arith ZArith Lia.
Import ListNotations.
From Verif Require Import Base Lexer_Model SrcLine_Model SrcLine_Spec SrcLine_Proofs.
Local Open Scope Z_scope.

(** Full statement: for every source and every position in it the reported line is the line of the position.
    This holds exactly when the column plus the number of lines before does not exceed the length of the line,
    because the newlines are not counted; on the first line in particular. *)
Theorem C57_error_line_partial : forall src p,
  (p <= length src)%nat -> Z.of_nat (length src) + 2 < 2 ^ 31 ->
  (column_of src p + (line_of src p - 1) <= length (line_text src p))%nat ->
  get_line_no src (Z.of_nat p) = Z.of_nat (line_of src p) /\
  get_error_line src (Z.of_nat p) = Some (Z.of_nat (line_of src p), line_text src p) /\
  get_source_line src (Z.of_nat (line_of src p)) = line_text src p.
Proof. exact line_right. Qed.
Print Assumptions C57_error_line_partial.

(** At every other position a later line is reported. *)
Theorem C57_error_line_refuted : forall src p,
  (p <= length src)%nat -> Z.of_nat (length src) + 2 < 2 ^ 31 ->
  (length (line_text src p) < column_of src p + (line_of src p - 1))%nat ->
  Z.of_nat (line_of src p) < get_line_no src (Z.of_nat p).
Proof. exact line_wrong. Qed.
Print Assumptions C57_error_line_refuted.

Definition ex_src : text := lit "int f() {" ++ nl :: lit "  return y;" ++ nl :: lit "}".
(** y is at offset 19, in line 2; the closing brace in line 3 is reported as line 4. *)
Example C57_ex : line_of ex_src 19 = 2%nat /\ get_line_no ex_src 19 = 2 /\ line_text ex_src 19 = lit "  return y;" /\
  (column_of ex_src 19 + (line_of ex_src 19 - 1) <= length (line_text ex_src 19))%nat /\
  line_of ex_src 22 = 3%nat /\ (length (line_text ex_src 22) < column_of ex_src 22 + (line_of ex_src 22 - 1))%nat /\ get_line_no ex_src 22 = 4.
Proof. repeat split; try (vm_compute; reflexivity); apply Nat.leb_le; vm_compute; reflexivity. Qed.
