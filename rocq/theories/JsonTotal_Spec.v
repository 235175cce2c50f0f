(** Specification of C78: which comparisons are defined. *)
From Coq Require Import List Bool ZArith Reals Floats.SpecFloat.
From Flocq Require Import Core BinarySingleNaN.
From Verif Require Import Base Lexer_Model Op_Model Number_Model Ir_Model Scalar_Model Scalar_Spec Names_Model StringView_Spec StringView_Model Json_Spec Json_Model.
Local Open Scope Z_scope.

(** A string shorter than 2^31 bytes *)
Definition short (s : text) : Prop := Z.of_nat (length s) < 2 ^ 31.
(** Values of scripts: a document in memory, any number of a type (NaN and infinities included), a truth value, a
    string *)
Inductive proper (H : heap) : sval -> Prop :=
| p_document a d : stored H a d -> (forall s, d = DString s -> short s) -> proper H (SJson a)
| p_integer n z : ty_integer n = true -> proper H (SNum n (VInt z))
| p_floating n f : ty_integer n = false -> proper H (SNum n (VFlt f))
| p_bool b : proper H (SBit b)
| p_string j t v : of_string j (codes t) = Ret v -> short t -> proper H (SStr v).
(** A document that is a real number, and an integer type without its integer part *)
Inductive out_of_type (H : heap) : sval -> sval -> Prop :=
| out_real n c a f : stored H a (DReal f) -> ty_integer n = true ->
    (is_finite_SF f = true -> holds n (Ztrunc (SF2R radix2 f)) = false) -> out_of_type H (SJson a) (SNum n c).
(** == != < <= > >= *)
Definition comparison_op (op : optok) : Prop := exists b, answer op Eq = Some b.
(** The kinds of operands that can be compared: numbers, strings, and documents with numbers (but not long double) and
    strings. *)
Inductive comparable : sval -> sval -> Prop :=
| c_numbers m n v w : comparable (SNum m v) (SNum n w)
| c_strings s t : comparable (SStr s) (SStr t)
| c_document_number a n v : n <> F80 -> comparable (SJson a) (SNum n v)
| c_number_document a n v : n <> F80 -> comparable (SNum n v) (SJson a)
| c_document_string a s : comparable (SJson a) (SStr s)
| c_string_document a s : comparable (SStr s) (SJson a).
