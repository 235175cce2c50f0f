(** Model of rapidudf/table/column.cc (reading a field of a row), of the type decisions of rapidudf/table/table_schema.cc
    and of Table::LoadColumn (table.cc:119-247). *)
From Coq Require Import List ZArith Bool.
Import ListNotations.
From Verif Require Import Base DType_Spec DType_Model DynObject_Model Column_Spec.
Local Open Scope Z_scope.

(** dtype.h:84-89 and 115-126 *)
Definition is_array (d : dtype) : bool := container (ctrl_of d) =? COLLECTION_ARRAY.
Definition is_vector (d : dtype) : bool := container (ctrl_of d) =? COLLECTION_VECTOR.
Definition is_absl_span (d : dtype) : bool := container (ctrl_of d) =? COLLECTION_ABSL_SPAN.
Definition is_string (d : dtype) : bool := is_fundamental d && (t0 (ctrl_of d) =? DATA_STRING).
Definition is_std_string_view (d : dtype) : bool := is_fundamental d && (t0 (ctrl_of d) =? DATA_STD_STRING_VIEW).
Definition is_string_ptr (d : dtype) : outcome bool :=
  if is_ptr d then do! p <- ptr_to d; Ret (is_string p) else Ret false.

(** dtype.cc:591-603, create_simd_vector_dtype *)
Definition create_simd_vector_dtype (d : dtype) : outcome dtype :=
  if is_primitive d then Ret (to_simd_vector d)
  else
    let e := elem_of d in
    do! sp <- is_string_ptr e;
    let e := if is_string e || sp || is_std_string_view e then dtype_of DATA_STRING_VIEW 0 else e in
    Ret (set_element 0 (to_absl_span e) (to_simd_vector (dtype_of DATA_COMPLEX_OBJECT 0))).

(** table_schema.h:97-107, AddColumn<T>: the column type for one value per row; [c] is the type number of T. *)
Definition scalar_dtype (c : Z) : dtype :=
  if (c =? DATA_STRING) || (c =? DATA_STD_STRING_VIEW) then get_dtype (CSeq KSimdVector (CBase DATA_STRING_VIEW))
  else get_dtype (CSeq KSimdVector (CBase c)).
(** get_dtype<Vector<absl::Span<T>>>() *)
Definition span_dtype (c : Z) : dtype := get_dtype (CSeq KSimdVector (CSeq KAbslSpan (CBase c))).

(** What the loops of AddColumns do with one field. *)
Inductive decision := AColumn (d : dtype) | Unsupported | Skipped.

(** table_schema.cc:124-206, protobuf fields *)
Definition decide_pb (f : pb_field) : outcome decision :=
  let col c span_c := Ret (AColumn (if pb_repeated f then span_dtype span_c else scalar_dtype c)) in
  match pb_ty f with
  | TYPE_BOOL => col DATA_BIT DATA_BIT
  | TYPE_DOUBLE => col DATA_F64 DATA_F64
  | TYPE_FLOAT => col DATA_F32 DATA_F32
  | TYPE_SINT64 | TYPE_SFIXED64 | TYPE_INT64 => col DATA_I64 DATA_I64
  | TYPE_FIXED64 | TYPE_UINT64 => col DATA_U64 DATA_U64
  | TYPE_SINT32 | TYPE_SFIXED32 | TYPE_INT32 => col DATA_I32 DATA_I32
  | TYPE_FIXED32 | TYPE_UINT32 => col DATA_U32 DATA_U32
  | TYPE_STRING | TYPE_BYTES => col DATA_STRING DATA_STRING_VIEW
  | _ => Ret Unsupported
  end.

(** table_schema.cc:241-353, FlatBuffers fields *)
Definition decide_fbs (f : fbs_field) : outcome decision :=
  let col c span_c := Ret (AColumn (if fbs_repeating f then span_dtype span_c else scalar_dtype c)) in
  match fbs_ty f with
  | ET_BOOL => col DATA_BIT DATA_BIT
  | ET_CHAR => col DATA_I8 DATA_I8
  | ET_UCHAR => col DATA_U8 DATA_U8
  | ET_SHORT => col DATA_I16 DATA_I16
  | ET_USHORT => col DATA_U16 DATA_U16
  | ET_INT => col DATA_I32 DATA_I32
  | ET_UINT => col DATA_U32 DATA_U32
  | ET_LONG => col DATA_I64 DATA_I64
  | ET_ULONG => col DATA_U64 DATA_U64
  | ET_FLOAT => col DATA_F32 DATA_F32
  | ET_DOUBLE => col DATA_F64 DATA_F64
  | ET_STRING => col DATA_STRING DATA_STRING_VIEW
  | _ => Ret Unsupported
  end.

(** table_schema.cc:423-483: the switch over the type numbers *)
Definition struct_code_ok (c : Z) : bool :=
  (c =? DATA_I8) || (c =? DATA_U8) || (c =? DATA_I16) || (c =? DATA_U16) || (c =? DATA_I32) || (c =? DATA_U32)
  || (c =? DATA_I64) || (c =? DATA_U64) || (c =? DATA_F32) || (c =? DATA_F64)
  || (c =? DATA_STRING) || (c =? DATA_STD_STRING_VIEW) || (c =? DATA_STRING_VIEW) || (c =? DATA_BIT).
(** [case DATA_STRING_VIEW] is AddColumn<std::string> too. *)
Definition struct_scalar_dtype (c : Z) : dtype := scalar_dtype (if c =? DATA_STRING_VIEW then DATA_STRING else c).

(** table_schema.cc:368-483, struct members.  Simplified: the test that the only argument of a function has the
    type "pointer to this struct" is a flag of the member. *)
Definition decide_struct (m : member) : outcome decision :=
  if m_function m && negb (m_only_this m) then Ret Skipped
  else
    let d := get_dtype (m_type m) in
    do! valid <-
      (if negb (is_fundamental d) || negb (is_primitive d) then
         do! sp <- (if is_string d then Ret true else is_string_ptr d);
         if sp then Ret true
         else if is_array d || is_vector d then
           let e := elem_of d in
           if is_primitive e || is_string e then Ret true else is_string_ptr e
         else Ret false
       else Ret true);
    if negb valid then Ret Unsupported
    else if is_array d || is_vector d then do! c <- create_simd_vector_dtype d; Ret (AColumn c)
    else if struct_code_ok (t0 (ctrl_of d)) then Ret (AColumn (struct_scalar_dtype (t0 (ctrl_of d))))
    else Ret Unsupported.

(** table_schema.cc:112-218, 220-366, 368-494: the loops, with the index of the field each column remembers.  Names,
    prefixes and name filters are in TableSchema_Model. *)
Section AddColumns.
  Context {D : Type}.
  Variable decide : D -> outcome decision.
  Variable ignore_unsupported : bool.
  Fixpoint add_columns (i : nat) (ds : list D) : outcome (list (nat * dtype)) :=
    match ds with
    | [] => Ret []
    | d :: ds =>
        do! x <- decide d;
        match x with
        | AColumn t => do! r <- add_columns (S i) ds; Ret ((i, t) :: r)
        | Unsupported => if ignore_unsupported then add_columns (S i) ds else Err
        | Skipped => add_columns (S i) ds
        end
    end.
End AddColumns.

(** ** Getters (column.cc); [None]: a null row pointer *)
(** Reading memory of the C++ type with number [c] through a pointer to the type with number [want]. *)
Definition read_number (want c : Z) (v : value) : outcome value :=
  if negb (want =? c) then UB else match v with VNum n => Ret (VNum n) | _ => UB end.
Definition read_text (v : value) : outcome value := match v with VStr s => Ret (VStr s) | _ => UB end.
(** [*ptr], an uint8_t, converted to bool: column.cc:79-81, 98 *)
Definition to_bool (v : value) : outcome value :=
  match v with VNum n => Ret (VNum (if n =? 0 then 0 else 1)) | _ => UB end.

(** Rows of structs.  column.cc:74-86, 103-115, ... (numbers; the accessor function has the type of the member). *)
Definition struct_number (want : Z) (m : member) (o : option value) : outcome value :=
  match o with
  | None => Ret (VNum 0)
  | Some v =>
      do! v <- read_number want (t0 (ctrl_of (get_dtype (m_type m)))) v;
      if want =? DATA_BIT then to_bool v else Ret v
  end.
(** column.cc:319-354, GetString *)
Definition struct_string (m : member) (o : option value) : outcome value :=
  match o with
  | None => Ret (VStr [])
  | Some v =>
      let d := get_dtype (m_type m) in
      if negb (m_function m) then
        if is_string d then read_text v else if is_std_string_view d then read_text v else Ret (VStr [])
      else
        do! sp <- is_string_ptr d;
        if sp then match v with VPtr v => read_text v | _ => UB end
        else if is_std_string_view d then read_text v else Ret (VStr [])
  end.
(** The elements of an array or vector in memory *)
Definition elements (v : value) : outcome (list value) := match v with VList l => Ret l | _ => UB end.
Fixpoint mapO {A B} (f : A -> outcome B) (l : list A) : outcome (list B) :=
  match l with [] => Ret [] | x :: l => do! y <- f x; do! r <- mapO f l; Ret (y :: r) end.
(** [n] elements from the start of an array; reading past its end is undefined. *)
Definition first_elements (n : Z) (v : value) : outcome (list value) :=
  do! l <- elements v; if Z.of_nat (length l) <? n then UB else Ret (firstn (Z.to_nat n) l).
(** dtype.h:134, FixedArraySize *)
Definition fixed_array_size (d : dtype) : Z := fixed_size (ctrl_of d).

(** column.cc:434-478, GetRepeatedElement<T>, structs; [want]: the type number of T. *)
Definition struct_numbers (want : Z) (m : member) (o : option value) : outcome (list (option value)) :=
  match o with
  | None => Ret []
  | Some v =>
      let d := get_dtype (m_type m) in
      let read l := do! l <- mapO (read_number want (t0 (ctrl_of (elem_of d)))) l; Ret (map Some l) in
      if negb (m_function m) then
        if is_array d then do! l <- first_elements (fixed_array_size d) v; read l
        else if is_vector d then if want =? DATA_BIT then Ret [] else do! l <- elements v; read l
        else Ret []
      else if is_ptr d then
        do! p <- ptr_to d;
        let target := match v with VPtr v => Ret v | _ => UB end in
        if is_array p then do! v <- target; do! l <- first_elements (fixed_array_size d) v; read l
        else if is_vector p then
          if want =? DATA_BIT then Ret [] else do! v <- target; do! l <- elements v; read l
        else Ret []
      else Ret []
  end.
(** column.cc:535-594, GetRepeatedString, structs *)
Definition struct_strings (m : member) (o : option value) : outcome (list (option value)) :=
  match o with
  | None => Ret []
  | Some v =>
      let d := get_dtype (m_type m) in
      let read l := do! l <- mapO read_text l; Ret (map Some l) in
      if negb (m_function m) then
        if is_array d then
          if is_std_string_view (elem_of d) then do! l <- first_elements (fixed_array_size d) v; read l
          else if is_string (elem_of d) then do! l <- first_elements (fixed_array_size d) v; read l
          else Ret []
        else if is_vector d then
          if is_std_string_view (elem_of d) then do! l <- elements v; read l
          else if is_string (elem_of d) then do! l <- elements v; read l
          else Ret []
        else Ret []
      else Ret []
  end.

(** Protobuf messages.  The Get functions of Reflection end the program when the field does not have the type asked
    for; modelled as undefined.  column.cc:87-90, 116, ...: the getters of 8 and 16 bit integers give 0. *)
Definition pb_getters : list Z := [DATA_BIT; DATA_U32; DATA_U64; DATA_I32; DATA_I64; DATA_F32; DATA_F64].
Definition pb_has (f : pb_field) (want : Z) (repeated : bool) : bool :=
  Bool.eqb (pb_repeated f) repeated && match pb_cpp (pb_ty f) with Some c => c =? want | None => false end.
Definition pb_number (want : Z) (f : pb_field) (o : option value) : outcome value :=
  match o with
  | None => Ret (VNum 0)
  | Some v =>
      if negb (existsb (Z.eqb want) pb_getters) then Ret (VNum 0)
      else if negb (pb_has f want false) then UB
      else read_number want want v
  end.
(** column.cc:355-364 *)
Definition pb_string (f : pb_field) (o : option value) : outcome value :=
  match o with
  | None => Ret (VStr [])
  | Some v => if negb (pb_has f DATA_STRING false) then UB else read_text v
  end.
(** column.cc:479-487: [auto ret] is a copy of the repeated field; the span points into it, and it is destroyed when the
    function returns. *)
Definition pb_numbers (want : Z) (f : pb_field) (o : option value) : outcome (list (option value)) :=
  match o with
  | None => Ret []
  | Some v =>
      if negb (existsb (Z.eqb want) pb_getters) then Ret []
      else if negb (pb_has f want true) then UB
      else do! l <- elements v; do! l <- mapO (read_number want want) l; Ret (map (fun _ => None) l)
  end.
(** types/string_view.h:48, kInlineSize: strings up to this length are stored in the view. *)
Definition inline_size : nat := 12.
(** A view of a string that is then destroyed. *)
Definition outlived (v : value) : option value :=
  match v with VStr s => if (length s <=? inline_size)%nat then Some v else None | _ => None end.
(** column.cc:595-603: the strings of the copy are destroyed too; the views are in the arena of the context. *)
Definition pb_strings (f : pb_field) (o : option value) : outcome (list (option value)) :=
  match o with
  | None => Ret []
  | Some v =>
      if negb (pb_has f DATA_STRING true) then UB
      else do! l <- elements v; do! l <- mapO read_text l; Ret (map outlived l)
  end.

(** FlatBuffers tables; the row has the field's value if it is stored.  column.cc:91-99, 117-125, ...: GetAddressOf is
    null when it is not. *)
Definition fbs_code (f : fbs_field) : Z := match fbs_cpp (fbs_ty f) with Some c => c | None => 0 end.
Definition fbs_number (want : Z) (f : fbs_field) (o : option (option value)) : outcome value :=
  match o with
  | None => Ret (VNum 0)
  | Some None => Ret (VNum 0)
  | Some (Some v) =>
      if fbs_repeating f then UB
      else do! v <- read_number want (fbs_code f) v;
           if want =? DATA_BIT then to_bool v else Ret v
  end.
(** column.cc:365-372: no test for null *)
Definition fbs_string (f : fbs_field) (o : option (option value)) : outcome value :=
  match o with
  | None => Ret (VStr [])
  | Some None => UB
  | Some (Some v) => if fbs_repeating f || negb (fbs_code f =? DATA_STRING) then UB else read_text v
  end.
(** column.cc:488-495 *)
Definition fbs_numbers (want : Z) (f : fbs_field) (o : option (option value)) : outcome (list (option value)) :=
  match o with
  | None => Ret []
  | Some None => UB
  | Some (Some v) =>
      if negb (fbs_repeating f) then UB
      else do! l <- elements v; do! l <- mapO (read_number want (fbs_code f)) l; Ret (map Some l)
  end.
(** column.cc:604-622 *)
Definition fbs_strings (f : fbs_field) (o : option (option value)) : outcome (list (option value)) :=
  match o with
  | None => Ret []
  | Some None => UB
  | Some (Some v) =>
      if negb (fbs_repeating f) || negb (fbs_code f =? DATA_STRING) then UB
      else do! l <- elements v; do! l <- mapO read_text l; Ret (map Some l)
  end.

(** ** Table::LoadColumn, table.cc:119-247 *)
Record getters (F O : Type) := Getters {
  get_number : Z -> F -> option O -> outcome value;
  get_string : F -> option O -> outcome value;
  get_numbers : Z -> F -> option O -> outcome (list (option value));
  get_strings : F -> option O -> outcome (list (option value)) }.
Arguments get_number {F O}.
Arguments get_string {F O}.
Arguments get_numbers {F O}.
Arguments get_strings {F O}.
Definition struct_getters : getters member value := Getters _ _ struct_number struct_string struct_numbers struct_strings.
Definition pb_getters_ : getters pb_field value := Getters _ _ pb_number pb_string pb_numbers pb_strings.
Definition fbs_getters : getters fbs_field (option value) := Getters _ _ fbs_number fbs_string fbs_numbers fbs_strings.

(** The numbers the two switches have a case for *)
Definition load_codes : list Z :=
  [DATA_F32; DATA_F64; DATA_U64; DATA_U32; DATA_U16; DATA_U8; DATA_I64; DATA_I32; DATA_I16; DATA_I8; DATA_BIT].
(** One turn of the loop.  Simplified: the element is a value instead of bytes at [column_mem]; bits are packed by
    bits_set (bit.h:67-75), which Vector_Model has. *)
Definition load_cell {F O} (g : getters F O) (f : F) (d : dtype) (o : option O) : outcome cell :=
  let e := elem_of d in
  let c := t0 (ctrl_of e) in
  if is_primitive e then
    if c =? DATA_STRING_VIEW then do! v <- get_string g f o; Ret (One v)
    else if existsb (Z.eqb c) load_codes then do! v <- get_number g c f o; Ret (One v)
    else Err
  else if is_absl_span e then
    if c =? DATA_STRING_VIEW then do! l <- get_strings g f o; Ret (Many l)
    else if existsb (Z.eqb c) load_codes then do! l <- get_numbers g c f o; Ret (Many l)
    else Err
  else Err.
(** The column knows its field by index; rows: null pointers or objects, whose [i]-th field the getters read. *)
Definition load_column {F X} (g : getters F X) (fs : list F) (col : nat * dtype) (rows : list (option (nat -> X)))
  : outcome (list cell) :=
  match nth_error fs (fst col) with
  | None => UB
  | Some f =>
      if negb (is_primitive (elem_of (snd col)) || is_absl_span (elem_of (snd col))) then Err
      else mapO (fun r => load_cell g f (snd col) (option_map (fun o => o (fst col)) r)) rows
  end.
