(** Model of JSON arguments in scripts: functions/json.cc, the checks of comparisons (ast/expression.cc), and the code
    generated for them (compiler/codegen_binary.cc, codegen_cast.cc, codegen.cc). The accesses x["a"][1] are those of
    Access_Model, here with the functions that they call. JSON documents are nlohmann::json 3.11.3, an external
    library: its operator[] and get<T> are modelled from its documentation; what it asserts is undefined behaviour
    here (its assertions are compiled out with NDEBUG), its exceptions are [Err]. *)
From Coq Require Import Ascii String List Bool Arith ZArith Floats.SpecFloat.
Import ListNotations.
From Verif Require Import Base Lexer_Model DType_Spec DType_Model DynObject_Model Op_Model Number_Model Ir_Model Scalar_Model
  Function_Model Names_Model StringView_Model Access_Spec Access_Model Json_Spec.
Local Open Scope Z_scope.

Section Json.
Variable H : heap.

(** ** functions/json.cc *)
(** json.cc:33 json_member_get: const operator[](key). No such member: an assertion; not an object: type_error. *)
Definition json_member_get (a : Z) (key : text) : outcome Z :=
  match H a with
  | Some (NObject kids) => match find_text kids key with Some b => Ret b | None => UB end
  | Some _ => Err
  | None => UB
  end.
(** json.cc:34 json_array_get: const operator[](idx), without a check of the index *)
Definition json_array_get (a : Z) (i : Z) : outcome Z :=
  match H a with
  | Some (NArray kids) => if i <? Z.of_nat (length kids) then match nth_error kids (Z.to_nat i) with Some b => Ret b | None => UB end else UB
  | Some _ => Err
  | None => UB
  end.

(** Values of the script *)
Inductive sval : Type := SJson (a : Z) | SNum (n : numty) (v : val) | SBit (b : bool) | SStr (s : sv).
(** dtype_enums.h:44-61 *)
Definition num_code (n : numty) : Z :=
  match n with
  | U8 => DATA_U8 | I8 => DATA_I8 | U16 => DATA_U16 | I16 => DATA_I16 | U32 => DATA_U32 | I32 => DATA_I32
  | U64 => DATA_U64 | I64 => DATA_I64 | F32 => DATA_F32 | F64 => DATA_F64 | F80 => DATA_F80
  end.
Definition json_ptr : dtype := get_dtype (CPtr (CBase DATA_JSON)).
Definition type_of (v : sval) : dtype :=
  match v with
  | SJson _ => json_ptr
  | SNum n _ => get_dtype (CBase (num_code n))
  | SBit _ => get_dtype (CBase DATA_BIT)
  | SStr _ => get_dtype (CBase DATA_STRING_VIEW)
  end.
Definition num_of (d : dtype) : option numty :=
  find (fun n => is_data (num_code n) d) [U8; I8; U16; I16; U32; I32; U64; I64; F32; F64; F80].

(** static_cast between arithmetic types: modulo 2^w into integers, rounding into floating types, truncation from
    floating types to integers, undefined if the result does not fit *)
Definition static_int (n : numty) (z : Z) : val := if ty_integer n then VInt (z mod 2 ^ ty_bits n) else VFlt (to_fmt n z 0 false).
Definition static_flt (n : numty) (f : spec_float) : outcome val :=
  if ty_integer n then
    match f_trunc f with
    | Some z =>
        if (if d_signed n then (- 2 ^ (ty_bits n - 1) <=? z) && (z <? 2 ^ (ty_bits n - 1)) else (0 <=? z) && (z <? 2 ^ ty_bits n))
        then Ret (VInt (z mod 2 ^ ty_bits n)) else UB
    | None => UB
    end
  else Ret (VFlt (match n with F64 => f | _ => f_round n f end)).
(** json.get<T> for numbers: uint64_t, int64_t and double take numbers only, the other types take booleans too. *)
Definition get_number (n : numty) (x : node) : outcome val :=
  match x with
  | NUnsigned z | NInteger z => Ret (static_int n z)
  | NFloat f => static_flt n f
  | NBool b => match n with U64 | I64 | F64 => Err | _ => Ret (static_int n (if b then 1 else 0)) end
  | _ => Err
  end.
(** json.cc:88-97, json_extract<T>. [junk]: the uninitialised part of an empty StringView. *)
Variable junk : list Z.
Definition json_extract (d : dtype) (a : Z) : outcome sval :=
  match H a with
  | None => UB
  | Some x =>
      if is_bit d then match x with NBool b => Ret (SBit b) | _ => Err end
      else if is_string_view d then match x with NString s => do! v <- of_string junk (codes s); Ret (SStr v) | _ => Err end
      else match num_of d with
           | Some n => do! v <- get_number n x; Ret (SNum n v)
           | None => Err
           end
  end.

(** ** Accesses *)
(** json.cc:167-169: the functions that brackets call, at the addresses 1 (by name) and 2 (by index) *)
Definition getter (by_name : bool) : desc :=
  Desc (json_name by_name) json_ptr [json_ptr; get_dtype (CBase (if by_name then DATA_STRING_VIEW else DATA_U64))]
    (if by_name then 1 else 2) None false.
(** The text that a StringView word refers to *)
Variable text_of : Z -> option text.
Definition call_json (f : Z) (ws : list Z) (m : mem) : outcome (Z * mem) :=
  match ws with
  | [a; k] =>
      if f =? 1 then match text_of k with Some s => do! b <- json_member_get a s; Ret (b, m) | None => UB end
      else if f =? 2 then do! b <- json_array_get a k; Ret (b, m)
      else UB
  | _ => UB
  end.
(** codegen_cast.cc:88-112 for words of integer types. Simplified: other types are left out (Err). *)
Definition key_cast (src dst : dtype) (w : Z) (_ : mem) : outcome Z :=
  do! same <- dtype_eqb src dst;
  if same then Ret w
  else
    do! ok <- can_cast_to src dst;
    if negb ok then Err
    else match num_of src, num_of dst with
         | Some m, Some n => match cast (TNum m) (TNum n) (VInt w) with Some (VInt w) => Ret w | _ => Err end
         | _, _ => Err
         end.

(** ** Comparisons: checks *)
(** Functions that the code may call: the names that CheckFuncExist finds and remembers for the code generator *)
Inductive fname : Type := FExtract (d : dtype) | FStringCmp.
(** json.cc:171-172 *)
Definition extract_types : list Z :=
  [DATA_BIT; DATA_I8; DATA_U8; DATA_I16; DATA_U16; DATA_I32; DATA_U32; DATA_I64; DATA_U64; DATA_F32; DATA_F64; DATA_STRING_VIEW].
Definition registered (f : fname) : bool :=
  match f with
  | FExtract d => existsb (fun c => is_data c d) extract_types
  | FStringCmp => true
  end.
Definition exists_fun (f : fname) (rest : list fname) : outcome (list fname) := if registered f then Ret (f :: rest) else Err.
(** expression.cc:375-419, the part before the operators. Left out: vectors, new variables. *)
Definition check_operands (l r : dtype) : outcome (dtype * dtype) :=
  do! same <- dtype_eqb l r;
  do! jl <- is_ptr_to DATA_JSON l;
  do! jr <- is_ptr_to DATA_JSON r;
  if same then Ret (l, r)
  else if jl && is_primitive r then Ret (l, r)
  else if jr && is_primitive l then Ret (l, r)
  else
    do! lr <- can_cast_to l r;
    do! rl <- can_cast_to r l;
    if negb lr && negb rl then Err
    else if is_number l && is_number r then do! lt <- dtype_ltb l r; Ret (if lt then r else l, r)
    else if lr then Ret (r, r) else Ret (l, l).
(** expression.cc:478-537, comparisons. Left out: vectors. *)
Definition check_compare (l r : dtype) : outcome (list fname) :=
  do! (l, r) <- check_operands l r;
  do! jl <- is_ptr_to DATA_JSON l;
  do! jr <- is_ptr_to DATA_JSON r;
  if is_number l && is_number r then Ret []
  else if is_string_view l && is_string_view r then exists_fun FStringCmp []
  else if jl && is_primitive r then exists_fun (FExtract r) (if is_string_view r then [FStringCmp] else [])
  else if is_primitive l && jr then exists_fun (FExtract l) (if is_string_view l then [FStringCmp] else [])
  else if jl && jr then Ret []
  else Err.
(** expression.cc:436-448: the operands of + - * / % and of their assignments *)
Definition check_arithmetic (l r : dtype) : outcome unit :=
  do! (l, r) <- check_operands l r;
  if is_number (elem_of l) && is_number (elem_of r) then Ret tt else Err.

(** ** Comparisons: code *)
Definition fname_eqb (f g : fname) : outcome bool :=
  match f, g with
  | FExtract a, FExtract b => dtype_eqb a b
  | FStringCmp, FStringCmp => Ret true
  | _, _ => Ret false
  end.
Fixpoint declared (fs : list fname) (f : fname) : outcome bool :=
  match fs with
  | [] => Ret false
  | g :: fs => do! e <- fname_eqb f g; if e then Ret true else declared fs f
  end.
(** codegen.cc:194-213, NormalizeDType, for two types *)
Definition normalize_one (d : dtype) (acc : dtype) : outcome (dtype * bool) :=
  if is_number d then do! gt <- dtype_gtb d acc; Ret (if gt then d else acc, false)
  else
    do! s <- is_ptr_to DATA_STRING d;
    do! f <- is_ptr_to DATA_FLATBUFFERS_STRING d;
    if s || is_std_string_view d || f || is_string_view d then Ret (get_dtype (CBase DATA_STRING_VIEW), true)
    else Ret (acc, false).
Definition normalize (l r : dtype) : outcome dtype :=
  do! (n, stop) <- normalize_one l dtype_invalid;
  do! (n, _) <- (if stop then Ret (n, true) else normalize_one r n);
  do! a <- can_cast_to l n;
  do! b <- can_cast_to r n;
  if a && b then Ret n else Err.
(** codegen_cast.cc:88-130, CastTo. [fs]: the declared functions (codegen.cc:625-643: a call of another one fails).
    Left out: conversions of other strings. *)
Definition cast_to (fs : list fname) (v : sval) (d : dtype) : outcome sval :=
  do! same <- dtype_eqb (type_of v) d;
  if same then Ret v
  else
    do! ok <- can_cast_to (type_of v) d;
    if negb ok then Err
    else match v with
         | SJson a =>
             if is_primitive d then
               do! known <- declared fs (FExtract d);
               if known then json_extract d a else Err
             else Err
         | SNum m v =>
             match num_of d with
             | Some n => match cast (TNum m) (TNum n) v with Some v => Ret (SNum n v) | None => UB end
             | None => Err
             end
         | _ => Err
         end.
(** optype.h, is_compare_op; string_view.cc:20-54 *)
Definition string_op (op : optok) : option cmp_op :=
  match op with
  | OP_EQUAL => Some OpEqual | OP_NOT_EQUAL => Some OpNotEqual
  | OP_LESS => Some OpLess | OP_LESS_EQUAL => Some OpLessEqual
  | OP_GREATER => Some OpGreater | OP_GREATER_EQUAL => Some OpGreaterEqual
  | _ => None
  end.
(** codegen_binary.cc:296-348 for comparisons; 52-259 has no comparison of booleans or pointers, and no function is
    declared for one. *)
Definition code_compare (fs : list fname) (op : optok) (l r : sval) : outcome bool :=
  do! same <- dtype_eqb (type_of l) (type_of r);
  do! (l, r) <- (if same then Ret (l, r)
                 else
                   do! d <- normalize (type_of l) (type_of r);
                   do! l <- cast_to fs l d;
                   do! r <- cast_to fs r d;
                   Ret (l, r));
  match l, r with
  | SStr s, SStr t =>
      match string_op op with
      | Some o => do! known <- declared fs FStringCmp; if known then compare_string_view o s t else Err
      | None => Err
      end
  | SNum n v, SNum _ w =>
      match oper (fun _ _ _ => None) op (TNum n) [v; w] with Some (VInt b) => Ret (b =? 1) | _ => UB end
  | _, _ => Err
  end.
(** A comparison in a script: checks, then code. [fs]: functions declared because of the rest of the script. *)
Definition compare (fs : list fname) (op : optok) (l r : sval) : outcome bool :=
  do! fs' <- check_compare (type_of l) (type_of r);
  code_compare (fs' ++ fs) op l r.

(** ** Conversions: return values and arguments *)
(** statement.cc:75-91 with context.cc:146-165 (nothing is declared for JSON), then codegen.cc:462-471, Return *)
Definition check_return (v : sval) (d : dtype) : outcome bool := can_cast_to (type_of v) d.
Definition return_value (fs : list fname) (v : sval) (d : dtype) : outcome sval :=
  do! ok <- check_return v d;
  if ok then cast_to fs v d else Err.
End Json.
