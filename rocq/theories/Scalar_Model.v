(** What the instructions of the generated scalar code compute, on machine values. rapidudf chooses the
    instruction from the operator and the types (codegen_binary.cc, codegen_unary.cc, codegen_ternary.cc,
    codegen_cast.cc); the meaning of each instruction is that of the LLVM Language Reference.
    An integer is its bit pattern, read as a number from 0 to 2^w - 1; a floating value is one of Coq's
    SpecFloat (IEEE 754; NaN payloads and signs are left out). Intrinsics and library functions other than
    those below (pow, sin, exp, ...) are a parameter. *)
From Coq Require Import List Bool ZArith Floats.SpecFloat.
Import ListNotations.
From Verif Require Import Base Lexer_Model Op_Model Number_Model Ir_Model.
Local Open Scope Z_scope.

Inductive val : Type := VInt (bits : Z) | VFlt (f : spec_float).

(** LLVM integer instructions on w bits *)
Definition as_signed (w x : Z) : Z := if x <? 2 ^ (w - 1) then x else x - 2 ^ w.
Definition i_add (w x y : Z) : Z := (x + y) mod 2 ^ w.
Definition i_sub (w x y : Z) : Z := (x - y) mod 2 ^ w.
Definition i_mul (w x y : Z) : Z := (x * y) mod 2 ^ w.
(** sdiv and srem: division by zero and overflow are undefined *)
Definition i_sdiv (w x y : Z) : option Z :=
  let a := as_signed w x in let b := as_signed w y in
  if (b =? 0) || ((a =? - 2 ^ (w - 1)) && (b =? -1)) then None else Some ((Z.quot a b) mod 2 ^ w).
Definition i_srem (w x y : Z) : option Z :=
  let a := as_signed w x in let b := as_signed w y in
  if (b =? 0) || ((a =? - 2 ^ (w - 1)) && (b =? -1)) then None else Some ((Z.rem a b) mod 2 ^ w).
Definition i_udiv (w x y : Z) : option Z := if y =? 0 then None else Some (x / y).
Definition i_urem (w x y : Z) : option Z := if y =? 0 then None else Some (x mod y).
Definition i1 (b : bool) : Z := if b then 1 else 0.
(** xor with all ones *)
Definition i_not (w x : Z) : Z := 2 ^ w - 1 - x.
(** llvm.abs: the argument is read as a signed number; the most negative one stays. *)
Definition i_abs (w x : Z) : Z := Z.abs (as_signed w x) mod 2 ^ w.
Definition i_sext (w w' x : Z) : Z := as_signed w x mod 2 ^ w'.
Definition i_zext (w w' x : Z) : Z := x.
Definition i_trunc (w w' x : Z) : Z := x mod 2 ^ w'.

(** Formats: precision and exponent bound *)
Definition fmt_prec (n : numty) : Z := match n with F32 => 24 | F64 => 53 | _ => 64 end.
Definition fmt_emax (n : numty) : Z := match n with F32 => 128 | F64 => 1024 | _ => 16384 end.
(** The number m * 2^e in a format, rounded to nearest even *)
Definition to_fmt (n : numty) (m e : Z) (neg : bool) : spec_float := binary_normalize (fmt_prec n) (fmt_emax n) m e neg.
(** fptrunc, fpext *)
Definition f_round (n : numty) (f : spec_float) : spec_float :=
  match f with
  | S754_finite s m e => to_fmt n (if s then Z.neg m else Z.pos m) e s
  | _ => f
  end.
(** The integer part of a finite number; [None] for the others *)
Definition f_trunc (f : spec_float) : option Z :=
  match f with
  | S754_zero _ => Some 0
  | S754_finite s m e =>
      let a := if 0 <=? e then Z.pos m * 2 ^ e else Z.pos m / 2 ^ (- e) in Some (if s then - a else a)
  | _ => None
  end.
(** fcmp oeq, one, ogt, ... : false if an operand is a NaN *)
Definition f_cmp (test : comparison -> bool) (f g : spec_float) : bool :=
  match SFcompare f g with Some c => test c | None => false end.

(** frem, as C's fmod: what is left of the truncated quotient, exactly, with the sign of the dividend. The
    number [k] is the smaller exponent, so both operands are integer multiples of 2^k. NaN for an infinite
    dividend and for a zero divisor; the dividend for an infinite divisor. *)
Definition f_rem (n : numty) (f g : spec_float) : spec_float :=
  match f, g with
  | S754_nan, _ | _, S754_nan | S754_infinity _, _ | _, S754_zero _ => S754_nan
  | S754_zero _, _ | _, S754_infinity _ => f
  | S754_finite s m e, S754_finite _ m' e' =>
      let k := Z.min e e' in
      let r := (Z.pos m * 2 ^ (e - k)) mod (Z.pos m' * 2 ^ (e' - k)) in
      to_fmt n (if s then - r else r) k s
  end.
(** llvm.maximum and llvm.minimum: NaN if an operand is a NaN; -0 is below +0. *)
Definition f_max (f g : spec_float) : spec_float :=
  match SFcompare f g with
  | Some Lt => g
  | Some Gt => f
  | Some Eq => match f with S754_zero true => g | _ => f end
  | None => S754_nan
  end.
Definition f_min (f g : spec_float) : spec_float :=
  match SFcompare f g with
  | Some Lt => f
  | Some Gt => g
  | Some Eq => match f with S754_zero false => g | _ => f end
  | None => S754_nan
  end.

(** llvm.floor, ceil, trunc, round (halves away from zero) and rint (in the default rounding mode: halves to
    even). A number with a fraction is q + r / d without its sign; [up] says whether q + 1 is taken. A zero
    keeps the sign. *)
Definition f_whole (up : bool -> Z -> Z -> Z -> bool) (n : numty) (f : spec_float) : spec_float :=
  match f with
  | S754_finite s m e =>
      if 0 <=? e then f
      else
        let d := 2 ^ (- e) in
        let q := Z.pos m / d in
        let r := Z.pos m mod d in
        let v := if up s q r d then q + 1 else q in
        to_fmt n (if s then - v else v) 0 s
  | _ => f
  end.
Definition f_floor : numty -> spec_float -> spec_float := f_whole (fun s _ r _ => s && negb (r =? 0)).
Definition f_ceil : numty -> spec_float -> spec_float := f_whole (fun s _ r _ => negb s && negb (r =? 0)).
Definition f_toward_zero : numty -> spec_float -> spec_float := f_whole (fun _ _ _ _ => false).
Definition f_half_away : numty -> spec_float -> spec_float := f_whole (fun _ _ r d => d <=? 2 * r).
Definition f_half_even : numty -> spec_float -> spec_float := f_whole (fun _ q r d => (d <? 2 * r) || ((2 * r =? d) && Z.odd q)).
(** llvm.fma: one rounding. A finite number as sign, signed mantissa and exponent *)
Definition f_parts (f : spec_float) : option (bool * Z * Z) :=
  match f with
  | S754_zero s => Some (s, 0, 0)
  | S754_finite s m e => Some (s, (if s then Z.neg m else Z.pos m), e)
  | _ => None
  end.
Definition f_fma (n : numty) (f g h : spec_float) : spec_float :=
  match f_parts f, f_parts g, f_parts h with
  | Some (s, x, a), Some (t, y, b), Some (u, z, c) =>
      let k := Z.min (a + b) c in
      to_fmt n (x * y * 2 ^ (a + b - k) + z * 2 ^ (c - k)) k (xorb s t && u)
  | Some _, Some _, None => h
  | _, _, _ => SFadd (fmt_prec n) (fmt_emax n) (SFmul (fmt_prec n) (fmt_emax n) f g) h
  end.

(** dtype.cc:119-133, DType::IsSigned (f80 is not in the list; it matters for integers only) *)
Definition d_signed (n : numty) : bool := match n with I8 | I16 | I32 | I64 | F32 | F64 => true | _ => false end.

Section Oper.
(** Intrinsics and library functions: not modelled *)
Variable lib : optok -> vty -> list val -> option val.

(** codegen_binary.cc:52-259, integers: [b] the type's width, [s] whether it is signed *)
Definition int_binary (op : optok) (t : vty) (w : Z) (s : bool) (x y : Z) : option val :=
  let int o := option_map VInt o in
  match op with
  | OP_PLUS => int (Some (i_add w x y))
  | OP_MINUS => int (Some (i_sub w x y))
  | OP_MULTIPLY => int (Some (i_mul w x y))
  | OP_DIVIDE => int (if s then i_sdiv w x y else i_udiv w x y)
  | OP_MOD => int (if s then i_srem w x y else i_urem w x y)
  | OP_EQUAL => int (Some (i1 (x =? y)))
  | OP_NOT_EQUAL => int (Some (i1 (negb (x =? y))))
  | OP_GREATER => int (Some (i1 (if s then as_signed w y <? as_signed w x else y <? x)))
  | OP_GREATER_EQUAL => int (Some (i1 (if s then as_signed w y <=? as_signed w x else y <=? x)))
  | OP_LESS => int (Some (i1 (if s then as_signed w x <? as_signed w y else x <? y)))
  | OP_LESS_EQUAL => int (Some (i1 (if s then as_signed w x <=? as_signed w y else x <=? y)))
  | OP_MAX => int (Some (if s then if as_signed w x <? as_signed w y then y else x else if x <? y then y else x))
  | OP_MIN => int (Some (if s then if as_signed w y <? as_signed w x then y else x else if y <? x then y else x))
  | _ => lib op t [VInt x; VInt y]
  end.
(** The same file, floating point *)
Definition flt_binary (op : optok) (n : numty) (f g : spec_float) : option val :=
  let p := fmt_prec n in let e := fmt_emax n in
  match op with
  | OP_PLUS => Some (VFlt (SFadd p e f g))
  | OP_MINUS => Some (VFlt (SFsub p e f g))
  | OP_MULTIPLY => Some (VFlt (SFmul p e f g))
  | OP_DIVIDE => Some (VFlt (SFdiv p e f g))
  | OP_MOD => Some (VFlt (f_rem n f g))
  | OP_MAX => Some (VFlt (f_max f g))
  | OP_MIN => Some (VFlt (f_min f g))
  | OP_EQUAL => Some (VInt (i1 (f_cmp (fun c => match c with Eq => true | _ => false end) f g)))
  | OP_NOT_EQUAL => Some (VInt (i1 (f_cmp (fun c => match c with Eq => false | _ => true end) f g)))
  | OP_GREATER => Some (VInt (i1 (f_cmp (fun c => match c with Gt => true | _ => false end) f g)))
  | OP_GREATER_EQUAL => Some (VInt (i1 (f_cmp (fun c => match c with Lt => false | _ => true end) f g)))
  | OP_LESS => Some (VInt (i1 (f_cmp (fun c => match c with Lt => true | _ => false end) f g)))
  | OP_LESS_EQUAL => Some (VInt (i1 (f_cmp (fun c => match c with Gt => false | _ => true end) f g)))
  | _ => lib op (TNum n) [VFlt f; VFlt g]
  end.
(** Bits: instructions on i1. CreateLogicalAnd/Or are selects. IsSigned is false for bits. *)
Definition bit_binary (op : optok) (x y : Z) : option val :=
  match op with
  | OP_LOGIC_AND => Some (VInt (if x =? 1 then y else 0))
  | OP_LOGIC_OR => Some (VInt (if x =? 1 then 1 else y))
  | OP_LOGIC_XOR => Some (VInt (i1 (negb (x =? y))))
  | OP_EQUAL | OP_NOT_EQUAL | OP_GREATER | OP_GREATER_EQUAL | OP_LESS | OP_LESS_EQUAL | OP_MAX | OP_MIN =>
      lib op TBit [VInt x; VInt y]
  | _ => int_binary op TBit 1 false x y
  end.
(** codegen_unary.cc:46-222 *)
Definition unary (op : optok) (t : vty) (v : val) : option val :=
  match op, t, v with
  | OP_NEGATIVE, TBit, VInt x => Some (VInt (i_sub 1 0 x))
  | OP_NOT, TBit, VInt x => Some (VInt (i_not 1 x))
  | OP_ABS, TBit, VInt x => Some (VInt (i_abs 1 x))
  | OP_NEGATIVE, TNum n, VInt x => Some (VInt (i_sub (ty_bits n) 0 x))
  | OP_NOT, TNum n, VInt x => Some (VInt (i_not (ty_bits n) x))
  | OP_ABS, TNum n, VInt x => Some (VInt (i_abs (ty_bits n) x))
  | OP_NEGATIVE, TNum n, VFlt f => Some (VFlt (SFopp f))
  | OP_ABS, TNum n, VFlt f => Some (VFlt (SFabs f))
  | OP_SQRT, TNum n, VFlt f => Some (VFlt (SFsqrt (fmt_prec n) (fmt_emax n) f))
  | OP_FLOOR, TNum n, VFlt f => Some (VFlt (f_floor n f))
  | OP_CEIL, TNum n, VFlt f => Some (VFlt (f_ceil n f))
  | OP_TRUNC, TNum n, VFlt f => Some (VFlt (f_toward_zero n f))
  | OP_ROUND, TNum n, VFlt f => Some (VFlt (f_half_away n f))
  | OP_RINT, TNum n, VFlt f => Some (VFlt (f_half_even n f))
  | _, _, _ => lib op t [v]
  end.
(** An operator at a type; fma: codegen_ternary.cc:58-66 *)
Definition oper (op : optok) (t : vty) (vs : list val) : option val :=
  match vs with
  | [v] => unary op t v
  | [VInt x; VInt y] =>
      match t with
      | TBit => bit_binary op x y
      | TNum n => if ty_integer n then int_binary op t (ty_bits n) (d_signed n) x y else None
      | TVoid => None
      end
  | [VFlt f; VFlt g] => match t with TNum n => if ty_integer n then None else flt_binary op n f g | _ => None end
  | [VFlt f; VFlt g; VFlt h] => match op, t with OP_FMA, TNum n => Some (VFlt (f_fma n f g h)) | _, _ => lib op t vs end
  | [VInt c; a; b] =>
      if optok_eqb op OP_CONDITIONAL then Some (if c =? 1 then a else b) else lib op t vs
  | _ => lib op t vs
  end.
(** codegen_cast.cc:34-84, CastTo between number types; fptosi and fptoui are undefined (poison) if the
    integer part does not fit. *)
Definition cast (a b : vty) (v : val) : option val :=
  match a, b, v with
  | TNum m, TNum n, VInt x =>
      if ty_integer n then
        Some (VInt (if ty_bits m <? ty_bits n then
                      if d_signed m then i_sext (ty_bits m) (ty_bits n) x else i_zext (ty_bits m) (ty_bits n) x
                    else i_trunc (ty_bits m) (ty_bits n) x))
      else Some (VFlt (let z := if d_signed m then as_signed (ty_bits m) x else x in to_fmt n z 0 false))
  | TNum m, TNum n, VFlt f =>
      if ty_integer n then
        match f_trunc f with
        | Some z =>
            if d_signed n then if (- 2 ^ (ty_bits n - 1) <=? z) && (z <? 2 ^ (ty_bits n - 1)) then Some (VInt (z mod 2 ^ ty_bits n)) else None
            else if (0 <=? z) && (z <? 2 ^ ty_bits n) then Some (VInt z) else None
        | None => None
        end
      else Some (VFlt (f_round n f))
  | _, _, _ => None
  end.
End Oper.

(** compiler_constants.cc:24-57: APInt and APFloat constants; a double literal of type f32 is narrowed
    (ConstantFP::get). pi and e of meta/constants.h, as doubles. *)
Definition konst_val (k : konst) : val :=
  match k with
  | KNum (CInt t v) => VInt (v mod 2 ^ ty_bits t)
  | KNum (CFloat t (m, e)) => VFlt (to_fmt t m e false)
  | KBool b => VInt (i1 b)
  | KPi => VFlt (to_fmt F64 7074237752028440 (-51) false)
  | KE => VFlt (to_fmt F64 6121026514868073 (-51) false)
  end.
Definition truth (v : val) : bool := match v with VInt x => x =? 1 | VFlt _ => false end.
