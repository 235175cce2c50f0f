(** What integer literals should denote. *)
From Coq Require Import Ascii String List ZArith.
Import ListNotations.
From Verif Require Import Base Lexer_Model Lexer_Spec Number_Model.
Local Open Scope Z_scope.

(** The integer a digit string denotes, most significant digit first. *)
Inductive denotes_int : text -> Z -> Prop :=
| di_nil : denotes_int [] 0
| di_snoc t n c d : denotes_int t n -> nth_error (lit "0123456789") d = Some c ->
    denotes_int (t ++ [c]) (10 * n + Z.of_nat d).

Definition suffix_name (ty : numty) : text :=
  match ty with
  | U8 => lit "u8" | I8 => lit "i8" | U16 => lit "u16" | I16 => lit "i16" | U32 => lit "u32" | I32 => lit "i32"
  | U64 => lit "u64" | I64 => lit "i64" | F32 => lit "f32" | F64 => lit "f64" | F80 => lit "f80"
  end.

(** The integers an integer type can hold. *)
Definition holds (ty : numty) (n : Z) : Prop :=
  match ty with
  | U8 => 0 <= n < 2 ^ 8 | U16 => 0 <= n < 2 ^ 16 | U32 => 0 <= n < 2 ^ 32 | U64 => 0 <= n < 2 ^ 64
  | I8 => - 2 ^ 7 <= n < 2 ^ 7 | I16 => - 2 ^ 15 <= n < 2 ^ 15 | I32 => - 2 ^ 31 <= n < 2 ^ 31 | I64 => - 2 ^ 63 <= n < 2 ^ 63
  | F32 | F64 | F80 => False
  end.

(** Integers with at most 53 significant bits. *)
Definition fits_double (n : Z) : Prop := exists m e, 0 <= m <= 2 ^ 53 /\ 0 <= e /\ n = m * 2 ^ e.
