(** Model of rapidudf/meta/dtype.{h,cc}: the encoding of C++ types, comparison, constructors and
    destructors, tuple queries and conversion of stored integers. *)
From Coq Require Import List ZArith Bool.
Import ListNotations.
From Verif Require Import Base DType_Spec.
Local Open Scope Z_scope.

(** ** dtype_enums.h *)
(** CollectionType (dtype_enums.h). *)
Definition COLLECTION_ARRAY : Z := 1.
Definition COLLECTION_VECTOR : Z := 2.
Definition COLLECTION_MAP : Z := 3.
Definition COLLECTION_SET : Z := 4.
Definition COLLECTION_UNORDERED_MAP : Z := 5.
Definition COLLECTION_UNORDERED_SET : Z := 6.
Definition COLLECTION_ABSL_SPAN : Z := 7.
Definition COLLECTION_TUPLE : Z := 8.
Definition COLLECTION_SIMD_VECTOR : Z := 9.
(** FundamentalType (dtype_enums.h). *)
Definition DATA_VOID : Z := 1.
Definition DATA_BIT : Z := 3.
Definition DATA_U8 : Z := 4.
Definition DATA_I8 : Z := 5.
Definition DATA_U16 : Z := 6.
Definition DATA_I16 : Z := 7.
Definition DATA_U32 : Z := 8.
Definition DATA_I32 : Z := 9.
Definition DATA_U64 : Z := 10.
Definition DATA_I64 : Z := 11.
Definition DATA_F16 : Z := 12.
Definition DATA_F32 : Z := 13.
Definition DATA_F64 : Z := 14.
Definition DATA_F80 : Z := 15.
Definition DATA_STD_STRING_VIEW : Z := 16.
Definition DATA_STRING_VIEW : Z := 17.
Definition DATA_STRING : Z := 18.
Definition DATA_COMPLEX_OBJECT : Z := 2 ^ 14 - 1.

(** union ControlValue, dtype.h:171-187: five bit-fields of one 64-bit word, lowest first. *)
Record ctrl := mk_ctrl { container : Z; ptr_bit : Z; t0 : Z; t1 : Z; fixed_size : Z }.

(** dtype.h:171-187, the same word read as control_ (x86-64: bit-fields are allocated from bit 0). *)
Definition control (c : ctrl) : Z :=
  container c + ptr_bit c * 2 ^ 6 + t0 c * 2 ^ 7 + t1 c * 2 ^ 21 + fixed_size c * 2 ^ 35.

(** class DType, dtype.h:56-189.  element_types_ is a shared vector of shared pointers: [None] for a
    null vector, [Some None] entries for null pointers.  Sharing is not modelled: vectors are
    immutable once the DType is built (SetElement is only called on fresh DTypes in this codebase). *)
Inductive dtype := DT (c : ctrl) (elems : option (list (option dtype))).

Definition ctrl_of (d : dtype) : ctrl := let (c, _) := d in c.
Definition elems_of (d : dtype) : option (list (option dtype)) := let (_, e) := d in e.

(** dtype.h:59-65: DType(t0, t1); stores to 14-bit fields truncate. *)
Definition dtype_of (a b : Z) : dtype := DT (mk_ctrl 0 0 (wrapu 14 a) (wrapu 14 b) 0) None.
(** dtype.h:58: DType() *)
Definition dtype_invalid : dtype := DT (mk_ctrl 0 0 0 0 0) None.

(** Bit-field stores (dtype.cc:149-231). *)
Definition set_container (k : Z) (c : ctrl) := mk_ctrl (wrapu 6 k) (ptr_bit c) (t0 c) (t1 c) (fixed_size c).
Definition set_ptr (b : Z) (c : ctrl) := mk_ctrl (container c) (wrapu 1 b) (t0 c) (t1 c) (fixed_size c).
Definition set_t0 (f : Z) (c : ctrl) := mk_ctrl (container c) (ptr_bit c) (wrapu 14 f) (t1 c) (fixed_size c).
Definition set_fixed (n : Z) (c : ctrl) := mk_ctrl (container c) (ptr_bit c) (t0 c) (t1 c) (wrapu 29 n).

(** dtype.cc:140-148 SetElement: resize with null pointers, then store. *)
Definition set_element (idx : nat) (e : dtype) (d : dtype) : dtype :=
  let l := match elems_of d with None => [] | Some l => l end in
  let l := if (length l <=? idx)%nat then l ++ repeat None (S idx - length l) else l in
  DT (ctrl_of d) (Some (firstn idx l ++ Some e :: skipn (S idx) l)).

(** dtype.h:69-107 *)
Definition is_ptr (d : dtype) : bool := ptr_bit (ctrl_of d) =? 1.
Definition is_collection (d : dtype) : bool := negb (container (ctrl_of d) =? 0).
Definition is_fundamental (d : dtype) : bool :=
  (ptr_bit (ctrl_of d) =? 0) && (container (ctrl_of d) =? 0).
Definition is_number (d : dtype) : bool :=
  is_fundamental d && ((DATA_U8 <=? t0 (ctrl_of d)) && (t0 (ctrl_of d) <=? DATA_F80)).
Definition is_tuple (d : dtype) : bool := container (ctrl_of d) =? COLLECTION_TUPLE.
Definition is_map (d : dtype) : bool := container (ctrl_of d) =? COLLECTION_MAP.
Definition is_unordered_map (d : dtype) : bool := container (ctrl_of d) =? COLLECTION_UNORDERED_MAP.
(** dtype.cc:78 *)
Definition is_complex (d : dtype) : bool := t0 (ctrl_of d) =? DATA_COMPLEX_OBJECT.

(** dtype.cc:159-200 *)
Definition to_ptr (d : dtype) : dtype := DT (set_ptr 1 (ctrl_of d)) (elems_of d).
Definition to_collection (k : Z) (d : dtype) : dtype := DT (set_container k (ctrl_of d)) (elems_of d).
Definition to_simd_vector : dtype -> dtype := to_collection COLLECTION_SIMD_VECTOR.
Definition to_vector : dtype -> dtype := to_collection COLLECTION_VECTOR.
Definition to_absl_span : dtype -> dtype := to_collection COLLECTION_ABSL_SPAN.
Definition to_array (n : Z) (d : dtype) : dtype :=
  DT (set_fixed n (set_container COLLECTION_ARRAY (ctrl_of d))) (elems_of d).

(** dtype.cc:149-158 PtrTo: dereferences element_types_ without a null check when t0 is the complex
    object marker, and element 0 without a null check. *)
Definition ptr_to (d : dtype) : outcome dtype :=
  let clear := DT (set_ptr 0 (ctrl_of d)) (elems_of d) in
  if is_complex d then
    match elems_of d with
    | None => UB
    | Some [] => Ret clear
    | Some (None :: _) => UB
    | Some (Some e :: _) => Ret e
    end
  else Ret clear.

(** dtype.cc:202-211 *)
Definition key_of (d : dtype) : dtype :=
  if is_map d || is_unordered_map d then
    match elems_of d with
    | Some (Some e :: _) => e
    | _ => DT (set_t0 (t0 (ctrl_of d)) (ctrl_of dtype_invalid)) None
    end
  else dtype_invalid.

(** dtype.cc:212-231: the fall-through keeps every field but the container (and t0 of maps);
    element_types_ is not copied. *)
Definition elem_of (d : dtype) : dtype :=
  let m := is_map d || is_unordered_map d in
  let base :=
    let c := if m then set_t0 (t1 (ctrl_of d)) (ctrl_of d) else ctrl_of d in
    DT (set_container 0 c) None in
  match elems_of d with
  | None | Some [] => base
  | Some l =>
      if m then
        match l with
        | [_; Some e] => e
        | _ => base
        end
      else match l with Some e :: _ => e | _ => base end
  end.

(** dtype.cc:96-109: the loop over element_types_, first difference wins; [cmp] is Compare itself. *)
Section CompareElems.
  Variable cmp : dtype -> dtype -> outcome Z.
  Fixpoint compare_elems (la lb : list (option dtype)) {struct la} : outcome Z :=
    match la, lb with
    | x :: la', y :: lb' =>
        do! r <-
          match x, y with
          | Some x, Some y => cmp x y
          | Some _, None => Ret 1
          | None, Some _ => Ret (-1)
          | None, None => Ret 0
          end;
        if negb (r =? 0) then Ret r else compare_elems la' lb'
    | _, _ => Ret 0
    end.
End CompareElems.

(** dtype.cc:87-94: element_types_size *)
Definition elems_size (e : option (list (option dtype))) : Z :=
  match e with None => 0 | Some l => Z.of_nat (length l) end.

(** dtype.cc:81-111 Compare.  The difference of the control words, an int64_t, is returned as int.
    Signed overflow of the difference is undefined behaviour. *)
Fixpoint compare (a b : dtype) {struct a} : outcome Z :=
  match a, b with
  | DT ca ea, DT cb eb =>
      let d := wraps 64 (control ca) - wraps 64 (control cb) in
      if (d <? - 2 ^ 63) || (2 ^ 63 <=? d) then UB
      else if negb (d =? 0) then Ret (wraps 32 d)
      else if negb (elems_size ea =? elems_size eb) then Ret (wraps 32 (elems_size ea - elems_size eb))
      else match ea, eb with
           | Some la, Some lb => compare_elems compare la lb
           | _, _ => Ret 0
           end
  end.

(** dtype.cc:112-117 *)
Definition dtype_eqb (a b : dtype) : outcome bool := do! r <- compare a b; Ret (r =? 0).
Definition dtype_ltb (a b : dtype) : outcome bool := do! r <- compare a b; Ret (r <? 0).
Definition dtype_gtb (a b : dtype) : outcome bool := do! r <- compare a b; Ret (0 <? r).

(** dtype.h:717-721: std::hash<DType> hashes the control word; the integer hash is the identity. *)
Definition dtype_hash (d : dtype) : Z := control (ctrl_of d).

(** dtype.h:263-538 get_dtype, one case per branch.  Qualifiers are dropped; a reference is treated
    as a pointer (dtype.h:270-300). *)
Definition wrap_unary (test_coll : bool) (k : dtype -> dtype) (v : dtype) : dtype :=
  if is_ptr v || (test_coll && is_collection v)
  then set_element 0 v (k (dtype_of DATA_COMPLEX_OBJECT 0))
  else k v.
(** dtype.h:301-367 *)
Definition seq_code (k : seq_kind) : Z :=
  match k with
  | KVector => COLLECTION_VECTOR | KSet => COLLECTION_SET | KUnorderedSet => COLLECTION_UNORDERED_SET
  | KAbslSpan => COLLECTION_ABSL_SPAN | KSimdVector => COLLECTION_SIMD_VECTOR
  end.
(** dtype.h:368-418 and 419-466: maps, pairs and tuples of at most two components. *)
Definition wrap_binary (k : Z) (a b : dtype) : dtype :=
  let code d := if is_ptr d || is_collection d then DATA_COMPLEX_OBJECT else t0 (ctrl_of d) in
  let v := dtype_of (code a) (code b) in
  let v := if code a =? DATA_COMPLEX_OBJECT then set_element 0 a v else v in
  let v := if code b =? DATA_COMPLEX_OBJECT then set_element 1 b v else v in
  to_collection k v.

Fixpoint get_dtype (t : cpptype) : dtype :=
  match t with
  | CBase f => dtype_of f 0
  | CPtr t => wrap_unary false to_ptr (get_dtype t)
  | CSeq k t => wrap_unary true (to_collection (seq_code k)) (get_dtype t)
  | CArray t n => to_array n (get_dtype t)
  | CMap o k v =>
      wrap_binary (if o then COLLECTION_MAP else COLLECTION_UNORDERED_MAP) (get_dtype k) (get_dtype v)
  | CPair a b => wrap_binary COLLECTION_TUPLE (get_dtype a) (get_dtype b)
  | CTuple1 a => wrap_binary COLLECTION_TUPLE (get_dtype a) dtype_invalid
  end.

(** dtype.cc:318-340 ExtractTupleDtypes *)
Definition extract_tuple_dtypes (d : dtype) : list dtype :=
  if negb (is_tuple d) then [d]
  else if t0 (ctrl_of d) =? 0 then []
  else if t1 (ctrl_of d) =? 0 then [dtype_of (t0 (ctrl_of d)) 0]
  else [dtype_of (t0 (ctrl_of d)) 0; dtype_of (t1 (ctrl_of d)) 0].

(** dtype.cc:342-359 TupleSize *)
Definition tuple_size (d : dtype) : Z :=
  if negb (is_tuple d) then 0
  else if t0 (ctrl_of d) =? 0 then 0
  else if t1 (ctrl_of d) =? 0 then 1
  else 4.

(** ** Conversion of stored integers *)
(** Type number of an integer type (dtype_enums.h). *)
Definition int_code (t : int_type) : Z :=
  match t with
  | U8 => DATA_U8 | I8 => DATA_I8 | U16 => DATA_U16 | I16 => DATA_I16
  | U32 => DATA_U32 | I32 => DATA_I32 | U64 => DATA_U64 | I64 => DATA_I64
  end.

(** get_dtype<T>() for an integer type T, dtype.h:468-494. *)
Definition int_dtype (t : int_type) : dtype := get_dtype (CBase (int_code t)).

(** A C++ integral conversion to [t]. *)
Definition to_int (t : int_type) (v : Z) : Z :=
  if int_signed t then wraps (int_bits t) v else wrapu (int_bits t) v.

(** dtype.cc:477-543 cast_to<T> for an integral T.  Case DATA_I8 has no break, so DATA_I16 overwrites
    its result (488-495).  The float sources (505-517) need a float-to-integer conversion, given by
    the parameter [of_float] (source type number, bits): it is not interpreted.  Other sources
    abort(), reported as [Err]. *)
Definition cast_to (of_float : Z -> Z -> Z) (T : int_type) (src : dtype) (val : Z) : outcome Z :=
  let bits r := Ret (wrapu (int_bits T) r) in
  let f := t0 (ctrl_of src) in
  if (f =? DATA_U8) || (f =? DATA_U16) || (f =? DATA_U32) || (f =? DATA_U64) then bits (to_int T val)
  else if f =? DATA_I8 then
    let iv := wraps 8 (wrapu 8 val) in
    let _ := to_int T iv in
    let iv := wraps 16 (wrapu 16 val) in bits (to_int T iv)
  else if f =? DATA_I16 then bits (to_int T (wraps 16 (wrapu 16 val)))
  else if f =? DATA_I32 then bits (to_int T (wraps 32 (wrapu 32 val)))
  else if f =? DATA_I64 then bits (to_int T (wraps 64 val))
  else if (f =? DATA_F32) || (f =? DATA_F64) then bits (to_int T (of_float f val))
  else Err.

(** dtype.cc:545-589 convert_to.  [to_float] stands for cast_to<double> / cast_to<float> (579-584). *)
Definition convert_to (of_float : Z -> Z -> Z) (to_float : Z -> dtype -> Z -> outcome Z)
    (val : Z) (src dst : dtype) : outcome Z :=
  do! same <- dtype_eqb src dst;
  if same then Ret val
  else if negb (is_fundamental src) || negb (is_fundamental dst) then Err
  else
    let f := t0 (ctrl_of dst) in
    if f =? DATA_U8 then cast_to of_float U8 src val
    else if f =? DATA_U16 then cast_to of_float U16 src val
    else if f =? DATA_U32 then cast_to of_float U32 src val
    else if f =? DATA_U64 then cast_to of_float U64 src val
    else if f =? DATA_I8 then cast_to of_float I8 src val
    else if f =? DATA_I16 then cast_to of_float I16 src val
    else if f =? DATA_I32 then cast_to of_float I32 src val
    else if f =? DATA_I64 then cast_to of_float I64 src val
    else if (f =? DATA_F64) || (f =? DATA_F32) then to_float f src val
    else Err.

(** dtype.h:664-696 FromPrimitiveValue<T> for an integral T (float destinations excluded by the
    caller: they need a float conversion). *)
Definition from_primitive (d : dtype) (v : Z) : option Z :=
  if is_number d then Some (wrapu 64 v) else None.

(** dtype.h:573-661 ToPrimitiveValue<T> for an integral T other than bool: only the exact type
    number yields a value. *)
Definition to_primitive (T : int_type) (d : dtype) (bin : Z) : option Z :=
  if negb (is_fundamental d) then None
  else if t0 (ctrl_of d) =? int_code T then Some (to_int T bin) else None.
