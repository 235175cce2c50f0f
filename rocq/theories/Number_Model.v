(** Model of number literals: rapidudf/ast/grammar.cc (Parser::ParseNumber), rapidudf/ast/symbols.cc
    (number suffixes) and rapidudf/compiler/compiler_constants.cc.
    A non-negative double is a pair (m, e) standing for m * 2^e. *)
From Coq Require Import Ascii String List Bool ZArith.
Import ListNotations.
From Verif Require Import Base Lexer_Model.
Local Open Scope Z_scope.

Definition dbl : Type := (Z * Z)%type.

(** The types a suffix can name: symbols.cc:55-60, GetNumberSymbols. *)
Inductive numty : Type := U8 | I8 | U16 | I16 | U32 | I32 | U64 | I64 | F32 | F64 | F80.
Definition number_symbols : list (text * numty) :=
  [ (lit "u8", U8); (lit "i8", I8); (lit "u16", U16); (lit "i16", I16); (lit "u32", U32); (lit "i32", I32);
    (lit "u64", U64); (lit "i64", I64); (lit "f32", F32); (lit "f64", F64); (lit "f80", F80) ].

(** *** std::from_chars for double, on the texts the lexer produces (digits with at most one dot).
    Contract of the standard library: the nearest double, ties to even; out-of-range results (overflow
    and underflow to zero) are errors. *)
Definition digit_value (c : ascii) : Z := Z.of_nat (nat_of_ascii c) - 48.
Fixpoint decimal (acc : Z) (t : text) : Z :=
  match t with [] => acc | c :: t' => decimal (acc * 10 + digit_value c) t' end.
(** Digits before the dot, and after it if there is one. *)
Fixpoint split_dot (t : text) : text * option text :=
  match t with
  | [] => ([], None)
  | c :: t' => if Ascii.eqb c "." then ([], Some t') else let (a, b) := split_dot t' in (c :: a, b)
  end.

(** num / den rounded to the nearest integer, ties to even *)
Definition rne (num den : Z) : Z :=
  let q := num / den in
  let r := num mod den in
  if 2 * r <? den then q
  else if den <? 2 * r then q + 1
  else if Z.even q then q else q + 1.
(** floor (log2 (n / d)) *)
Definition flog2 (n d : Z) : Z :=
  let l := Z.log2 n - Z.log2 d in
  if (if 0 <=? l then d * 2 ^ l <=? n else d <=? n * 2 ^ (- l)) then l else l - 1.
(** n / d / 2^e as a fraction *)
Definition scaled (n d e : Z) : Z * Z := if 0 <=? e then (n, d * 2 ^ e) else (n * 2 ^ (- e), d).
Definition round_double (n d : Z) : option dbl :=
  if n =? 0 then Some (0, 0)
  else
    let e := Z.max (-1074) (flog2 n d - 52) in
    let (a, b) := scaled n d e in
    let m := rne a b in
    if m =? 0 then None
    else if (971 <? e) || ((e =? 971) && (2 ^ 53 <=? m)) then None
    else Some (m, e).

Definition from_chars_double (t : text) : option dbl :=
  match split_dot t with
  | (ds, None) => match ds with [] => None | _ => if forallb is_digit ds then round_double (decimal 0 ds) 1 else None end
  | (ds, Some fs) =>
      if forallb is_digit (ds ++ fs) && negb (match ds ++ fs with [] => true | _ => false end)
      then round_double (decimal 0 (ds ++ fs)) (10 ^ Z.of_nat (length fs)) else None
  end.

(** grammar.cc:130-143, the search for the suffix: the first '_' at index 1 or later. *)
Fixpoint split_suffix (t : text) : text * option text :=
  match t with
  | [] => ([], None)
  | c :: t' => if Ascii.eqb c "_" then ([], Some t') else let (a, b) := split_suffix t' in (c :: a, b)
  end.

(** grammar.cc:124-153, ParseNumber; None is the error return. *)
Definition parse_number (t : text) : option (dbl * option numty) :=
  match t with
  | [] => match from_chars_double [] with Some v => Some (v, None) | None => None end
  | c :: t' =>
      let (num, sfx) := split_suffix t' in
      match sfx with
      | None => match from_chars_double (c :: num) with Some v => Some (v, None) | None => None end
      | Some s =>
          match find_text number_symbols s with
          | None => None
          | Some ty => match from_chars_double (c :: num) with Some v => Some (v, Some ty) | None => None end
          end
      end
  end.

(** *** Constants *)
(** A constant of the generated code: an integer with its type, or a floating value (the narrowing of a
    double to f32 is not modelled). *)
Inductive const : Type := CInt (ty : numty) (v : Z) | CFloat (ty : numty) (v : dbl).

Definition ty_bits (ty : numty) : Z :=
  match ty with U8 | I8 => 8 | U16 | I16 => 16 | U32 | I32 | F32 => 32 | U64 | I64 | F64 => 64 | F80 => 80 end.
Definition ty_signed (ty : numty) : bool := match ty with I8 | I16 | I32 | I64 => true | _ => false end.
Definition ty_integer (ty : numty) : bool := match ty with F32 | F64 | F80 => false | _ => true end.

(** Truncation of a non-negative double towards zero. *)
Definition dbl_trunc (v : dbl) : Z := let (m, e) := v in if 0 <=? e then m * 2 ^ e else m / 2 ^ (- e).
Definition dbl_eqb (a b : dbl) : bool :=
  let (m, e) := a in let (m', e') := b in
  let k := Z.min e e' in m * 2 ^ (e - k) =? m' * 2 ^ (e' - k).
(** static_cast<uint64_t>(v), static_cast<int64_t>(v): undefined if the value does not fit. *)
Definition to_u64 (v : dbl) : outcome Z := let t := dbl_trunc v in if t <? 2 ^ 64 then Ret t else UB.
Definition to_i64 (v : dbl) : outcome Z := let t := dbl_trunc v in if t <? 2 ^ 63 then Ret t else UB.
(** static_cast<double>(iv) for a non-negative int64_t: round to nearest even *)
Definition of_i64 (iv : Z) : dbl := match round_double iv 1 with Some v => v | None => (0, 0) end.

(** compiler_constants.cc:31-49, BuildIR(double, DType); the APInt of [bits] bits keeps the low bits. *)
Definition build_typed (v : dbl) (ty : numty) : outcome const :=
  if ty_integer ty then
    do! uiv <- to_u64 v;
    Ret (CInt ty (if ty_signed ty then wraps (ty_bits ty) uiv else wrapu (ty_bits ty) uiv))
  else Ret (CFloat ty v).

(** compiler_constants.cc:50-57, BuildIR(double) *)
Definition build_untyped (v : dbl) : outcome const :=
  do! iv <- to_i64 v;
  if dbl_eqb (of_i64 iv) v then build_typed v (if iv <=? 2 ^ 31 - 1 then I32 else I64)
  else Ret (CFloat F64 v).

(** compiler_constants.cc:24-30, BuildIR(ConstantNumber) *)
Definition build_const (c : dbl * option numty) : outcome const :=
  match snd c with Some ty => build_typed (fst c) ty | None => build_untyped (fst c) end.

(** A number token as a constant; a rejected literal is [Err]. *)
Definition literal (t : text) : outcome const :=
  match parse_number t with Some c => build_const c | None => Err end.
