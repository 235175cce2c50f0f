(** Model of rapidudf/meta/optype.h:25-118, enum OpToken, and of kOpTokenStrs (lines 119-211).
    The range markers (OP_..._BEGIN and OP_..._END) are left out of the type; their codes are kept. *)
From Coq Require Import Ascii String List ZArith.
Import ListNotations.
From Verif Require Import Base Lexer_Model.

Inductive optok : Type :=
| OP_INVALID
| OP_POSITIVE
| OP_NEGATIVE
| OP_NOT
| OP_SQRT
| OP_CBRT
| OP_FLOOR
| OP_CEIL
| OP_ROUND
| OP_RINT
| OP_TRUNC
| OP_ERF
| OP_ERFC
| OP_ABS
| OP_SIN
| OP_COS
| OP_TAN
| OP_ASIN
| OP_ACOS
| OP_ATAN
| OP_ATANH
| OP_SINH
| OP_COSH
| OP_TANH
| OP_ASINH
| OP_ACOSH
| OP_EXP
| OP_EXP2
| OP_EXPM1
| OP_LOG
| OP_LOG2
| OP_LOG10
| OP_LOG1P
| OP_APPROX_RECIP
| OP_APPROX_RECIP_SQRT
| OP_PLUS
| OP_MINUS
| OP_MULTIPLY
| OP_DIVIDE
| OP_MOD
| OP_ASSIGN
| OP_PLUS_ASSIGN
| OP_MINUS_ASSIGN
| OP_MULTIPLY_ASSIGN
| OP_DIVIDE_ASSIGN
| OP_MOD_ASSIGN
| OP_EQUAL
| OP_NOT_EQUAL
| OP_LESS
| OP_LESS_EQUAL
| OP_GREATER
| OP_GREATER_EQUAL
| OP_LOGIC_AND
| OP_LOGIC_OR
| OP_LOGIC_XOR
| OP_ATAN2
| OP_MAX
| OP_MIN
| OP_POW
| OP_HYPOT
| OP_ABS_DIFF
| OP_CONDITIONAL
| OP_CLAMP
| OP_FMA
| OP_FMS
| OP_FNMA
| OP_FNMS
| OP_DOT
| OP_COS_DISTANCE
| OP_L2_DISTANCE
| OP_IOTA
| OP_SORT
| OP_SELECT
| OP_TOPK
| OP_SORT_KV
| OP_SELECT_KV
| OP_TOPK_KV
| OP_ARG_SORT
| OP_ARG_SELECT
| OP_SUM
| OP_AVG
| OP_CLONE
| OP_FILTER
| OP_GATHER.

(** The value of each enumerator. *)
Definition op_code (o : optok) : Z :=
  match o with
  | OP_INVALID => 0
  | OP_POSITIVE => 2
  | OP_NEGATIVE => 3
  | OP_NOT => 4
  | OP_SQRT => 5
  | OP_CBRT => 6
  | OP_FLOOR => 7
  | OP_CEIL => 8
  | OP_ROUND => 9
  | OP_RINT => 10
  | OP_TRUNC => 11
  | OP_ERF => 12
  | OP_ERFC => 13
  | OP_ABS => 14
  | OP_SIN => 15
  | OP_COS => 16
  | OP_TAN => 17
  | OP_ASIN => 18
  | OP_ACOS => 19
  | OP_ATAN => 20
  | OP_ATANH => 21
  | OP_SINH => 22
  | OP_COSH => 23
  | OP_TANH => 24
  | OP_ASINH => 25
  | OP_ACOSH => 26
  | OP_EXP => 27
  | OP_EXP2 => 28
  | OP_EXPM1 => 29
  | OP_LOG => 30
  | OP_LOG2 => 31
  | OP_LOG10 => 32
  | OP_LOG1P => 33
  | OP_APPROX_RECIP => 34
  | OP_APPROX_RECIP_SQRT => 35
  | OP_PLUS => 38
  | OP_MINUS => 39
  | OP_MULTIPLY => 40
  | OP_DIVIDE => 41
  | OP_MOD => 42
  | OP_ASSIGN => 43
  | OP_PLUS_ASSIGN => 44
  | OP_MINUS_ASSIGN => 45
  | OP_MULTIPLY_ASSIGN => 46
  | OP_DIVIDE_ASSIGN => 47
  | OP_MOD_ASSIGN => 48
  | OP_EQUAL => 49
  | OP_NOT_EQUAL => 50
  | OP_LESS => 51
  | OP_LESS_EQUAL => 52
  | OP_GREATER => 53
  | OP_GREATER_EQUAL => 54
  | OP_LOGIC_AND => 55
  | OP_LOGIC_OR => 56
  | OP_LOGIC_XOR => 57
  | OP_ATAN2 => 58
  | OP_MAX => 59
  | OP_MIN => 60
  | OP_POW => 61
  | OP_HYPOT => 62
  | OP_ABS_DIFF => 63
  | OP_CONDITIONAL => 66
  | OP_CLAMP => 67
  | OP_FMA => 68
  | OP_FMS => 69
  | OP_FNMA => 70
  | OP_FNMS => 71
  | OP_DOT => 74
  | OP_COS_DISTANCE => 75
  | OP_L2_DISTANCE => 76
  | OP_IOTA => 77
  | OP_SORT => 78
  | OP_SELECT => 79
  | OP_TOPK => 80
  | OP_SORT_KV => 81
  | OP_SELECT_KV => 82
  | OP_TOPK_KV => 83
  | OP_ARG_SORT => 84
  | OP_ARG_SELECT => 85
  | OP_SUM => 86
  | OP_AVG => 87
  | OP_CLONE => 88
  | OP_FILTER => 89
  | OP_GATHER => 90
  end%Z.
(** Comparison of enumerators *)
Definition optok_eqb (a b : optok) : bool := (op_code a =? op_code b)%Z.


(** kOpTokenStrs[op] *)
Definition op_str (o : optok) : text :=
  match o with
  | OP_INVALID => lit "invalid"
  | OP_POSITIVE => lit "positive"
  | OP_NEGATIVE => lit "negative"
  | OP_NOT => lit "not"
  | OP_SQRT => lit "sqrt"
  | OP_CBRT => lit "cbrt"
  | OP_FLOOR => lit "floor"
  | OP_CEIL => lit "ceil"
  | OP_ROUND => lit "round"
  | OP_RINT => lit "rint"
  | OP_TRUNC => lit "trunc"
  | OP_ERF => lit "erf"
  | OP_ERFC => lit "erfc"
  | OP_ABS => lit "abs"
  | OP_SIN => lit "sin"
  | OP_COS => lit "cos"
  | OP_TAN => lit "tan"
  | OP_ASIN => lit "asin"
  | OP_ACOS => lit "acos"
  | OP_ATAN => lit "atan"
  | OP_ATANH => lit "atanh"
  | OP_SINH => lit "sinh"
  | OP_COSH => lit "cosh"
  | OP_TANH => lit "tanh"
  | OP_ASINH => lit "asinh"
  | OP_ACOSH => lit "acosh"
  | OP_EXP => lit "exp"
  | OP_EXP2 => lit "exp2"
  | OP_EXPM1 => lit "expm1"
  | OP_LOG => lit "log"
  | OP_LOG2 => lit "log2"
  | OP_LOG10 => lit "log10"
  | OP_LOG1P => lit "log1p"
  | OP_APPROX_RECIP => lit "approx_recip"
  | OP_APPROX_RECIP_SQRT => lit "approx_recip_sqrt"
  | OP_PLUS => lit "add"
  | OP_MINUS => lit "sub"
  | OP_MULTIPLY => lit "multiply"
  | OP_DIVIDE => lit "divide"
  | OP_MOD => lit "mod"
  | OP_ASSIGN => lit "assign"
  | OP_PLUS_ASSIGN => lit "add_assign"
  | OP_MINUS_ASSIGN => lit "sub_assign"
  | OP_MULTIPLY_ASSIGN => lit "multiply_assign"
  | OP_DIVIDE_ASSIGN => lit "divide_assign"
  | OP_MOD_ASSIGN => lit "mod_assign"
  | OP_EQUAL => lit "eq"
  | OP_NOT_EQUAL => lit "ne"
  | OP_LESS => lit "lt"
  | OP_LESS_EQUAL => lit "le"
  | OP_GREATER => lit "gt"
  | OP_GREATER_EQUAL => lit "ge"
  | OP_LOGIC_AND => lit "and"
  | OP_LOGIC_OR => lit "or"
  | OP_LOGIC_XOR => lit "xor"
  | OP_ATAN2 => lit "atan2"
  | OP_MAX => lit "max"
  | OP_MIN => lit "min"
  | OP_POW => lit "pow"
  | OP_HYPOT => lit "hypot"
  | OP_ABS_DIFF => lit "abs_diff"
  | OP_CONDITIONAL => lit "conditional"
  | OP_CLAMP => lit "clamp"
  | OP_FMA => lit "fma"
  | OP_FMS => lit "fms"
  | OP_FNMA => lit "fnma"
  | OP_FNMS => lit "fnms"
  | OP_DOT => lit "dot"
  | OP_COS_DISTANCE => lit "cos_distance"
  | OP_L2_DISTANCE => lit "l2_distance"
  | OP_IOTA => lit "iota"
  | OP_SORT => lit "sort"
  | OP_SELECT => lit "select"
  | OP_TOPK => lit "topk"
  | OP_SORT_KV => lit "sort_kv"
  | OP_SELECT_KV => lit "select_kv"
  | OP_TOPK_KV => lit "topk_kv"
  | OP_ARG_SORT => lit "argsort"
  | OP_ARG_SELECT => lit "argselect"
  | OP_SUM => lit "sum"
  | OP_AVG => lit "avg"
  | OP_CLONE => lit "clone"
  | OP_FILTER => lit "filter"
  | OP_GATHER => lit "gather"
  end.
