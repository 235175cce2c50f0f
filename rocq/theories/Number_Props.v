(** C37: integer literals denote their value. *)
From Coq Require Import Ascii String List ZArith.
Import ListNotations.
From Verif Require Import Base Lexer_Model Lexer_Spec Number_Model Number_Spec Number_Proofs.
Local Open Scope Z_scope.

(** A literal with a type suffix, whose value the type can hold and which has at most 53 significant bits,
    is the integer of that type. *)
Theorem C37_suffixed_literal_partial t n ty :
  t <> [] -> denotes_int t n -> ty_integer ty = true -> holds ty n -> fits_double n ->
  literal (t ++ lit "_" ++ suffix_name ty) = Ret (CInt ty n).
Proof. exact (literal_suffix t n ty). Qed.
Print Assumptions C37_suffixed_literal_partial.

(** Below 2^64 these are the only ones: every other literal is accepted with another value, or the
    conversion is undefined. It is never rejected. *)
Theorem C37_suffixed_literal_refuted t n ty :
  t <> [] -> denotes_int t n -> ty_integer ty = true -> n < 2 ^ 64 -> ~ (holds ty n /\ fits_double n) ->
  literal (t ++ lit "_" ++ suffix_name ty) <> Ret (CInt ty n) /\ literal (t ++ lit "_" ++ suffix_name ty) <> Err.
Proof. exact (literal_suffix_not t n ty). Qed.
Print Assumptions C37_suffixed_literal_refuted.

(** A literal without a suffix: i32 if it fits, else i64. *)
Theorem C37_plain_literal_partial t n :
  t <> [] -> denotes_int t n -> n < 2 ^ 63 -> fits_double n ->
  literal t = Ret (CInt (if n <? 2 ^ 31 then I32 else I64) n).
Proof. exact (literal_plain t n). Qed.
Print Assumptions C37_plain_literal_partial.

Theorem C37_plain_literal_refuted t n :
  t <> [] -> denotes_int t n -> n < 2 ^ 63 -> ~ fits_double n ->
  exists ty m, literal t = Ret (CInt ty m) /\ m <> n \/ literal t = UB.
Proof. exact (literal_plain_not t n). Qed.
Print Assumptions C37_plain_literal_refuted.

Theorem C37_large_plain_literal_refuted t n :
  t <> [] -> denotes_int t n -> 2 ^ 63 <= n < 2 ^ 64 -> literal t = UB.
Proof. exact (literal_plain_ub t n). Qed.
Print Assumptions C37_large_plain_literal_refuted.

(** ** Examples *)
Example C37_ex_denotes : denotes_int (lit "300") 300.
Proof.
  change 300 with (10 * (10 * (10 * 0 + Z.of_nat 3) + Z.of_nat 0) + Z.of_nat 0).
  apply (di_snoc (lit "30") _ "0" 0); [|reflexivity]. apply (di_snoc (lit "3") _ "0" 0); [|reflexivity].
  apply (di_snoc [] _ "3" 3); [constructor|reflexivity].
Qed.
Example C37_ex_fits : holds U16 300 /\ ~ holds U8 300 /\ fits_double 300.
Proof.
  split; [|split]. vm_compute; split; congruence. vm_compute; intros [_ H]; discriminate.
  exists 300, 0. vm_compute. repeat split; congruence.
Qed.
Example C37_ex_wrong :
  literal (lit "300_u16") = Ret (CInt U16 300) /\ literal (lit "300_u8") = Ret (CInt U8 44) /\
  literal (lit "128_i8") = Ret (CInt I8 (-128)) /\
  literal (lit "9007199254740993") = Ret (CInt I64 9007199254740992) /\
  literal (lit "18446744073709551615_u64") = UB /\ literal (lit "9223372036854775807") = UB /\
  literal (lit "2147483648") = Ret (CInt I64 2147483648) /\ literal (lit "1.5_i32") = Ret (CInt I32 1) /\
  literal (lit "1.5") = Ret (CFloat F64 (3 * 2 ^ 51, -52)) /\ literal (lit "7_q") = Err.
Proof. repeat split; reflexivity. Qed.
Example C37_ex_not_fits : ~ fits_double 9007199254740993.
Proof.
  intros H. pose proof (nearest_fits 9007199254740993 ltac:(discriminate) H) as E. revert E. vm_compute. discriminate.
Qed.
