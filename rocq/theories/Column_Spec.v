(** Vocabulary of C87: the fields a row can have, and what a program sees in them without any table. *)
From Coq Require Import List ZArith Bool.
Import ListNotations.
From Verif Require Import DType_Spec.
Local Open Scope Z_scope.

(** ** Values *)
(** A C++ value: a number or bool (its bits), the bytes of a string of any kind, a pointer (or reference) with the
    value it leads to, the elements of an array or vector. *)
Inductive value := VNum (n : Z) | VStr (s : list Z) | VPtr (v : value) | VList (l : list value).

(** Type numbers (dtype_enums.h:60-90): 3 bool, 4-11 the integers, 12 half, 13 float, 14 double, 15 long double,
    16 std::string_view, 17 rapidudf::StringView, 18 std::string. *)
Definition number (c : Z) : bool := (3 <=? c) && (c <=? 15).
Definition stringy (c : Z) : bool := (16 <=? c) && (c <=? 18).

(** [v] is a value of the C++ type [t]; values of other types are not described. *)
Fixpoint has_type (t : cpptype) (v : value) {struct t} : Prop :=
  match t, v with
  | CBase c, VNum n => number c = true /\ (c = 3 -> n = 0 \/ n = 1)
  | CBase c, VStr _ => stringy c = true
  | CPtr t, VPtr v => has_type t v
  | CSeq KVector t, VList l => Forall (has_type t) l
  | CArray t n, VList l => Z.of_nat (length l) = n /\ Forall (has_type t) l
  | _, _ => False
  end.

(** ** Elements of a column *)
(** One value, or a span of values; [None]: the memory the element points at has been released. *)
Inductive cell := One (v : value) | Many (l : list (option value)).
(** What a program sees of the value [v] in a column: strings behind a reference are strings. *)
Definition show (v : value) : cell :=
  match v with
  | VList l => Many (map Some l)
  | VPtr (VStr s) => One (VStr s)
  | _ => One v
  end.
(** What a row that is a null pointer has in a column: 0, false, the empty string, no elements. *)
Definition zero_cell (many : bool) (c : Z) : cell :=
  if many then Many [] else One (if stringy c then VStr [] else VNum 0).

(** ** Protobuf *)
(** google/protobuf/descriptor.h, FieldDescriptor::Type *)
Inductive pb_type :=
| TYPE_DOUBLE | TYPE_FLOAT | TYPE_INT64 | TYPE_UINT64 | TYPE_INT32 | TYPE_FIXED64 | TYPE_FIXED32 | TYPE_BOOL
| TYPE_STRING | TYPE_GROUP | TYPE_MESSAGE | TYPE_BYTES | TYPE_UINT32 | TYPE_ENUM | TYPE_SFIXED32 | TYPE_SFIXED64
| TYPE_SINT32 | TYPE_SINT64.
(** A field: its type, and whether it is repeated. *)
Record pb_field := PbField { pb_ty : pb_type; pb_repeated : bool }.
(** The type number of the C++ type protobuf represents a field in (its "scalar value types" table); none for
    enumerations, messages and groups. *)
Definition pb_cpp (t : pb_type) : option Z :=
  match t with
  | TYPE_BOOL => Some 3
  | TYPE_UINT32 | TYPE_FIXED32 => Some 8
  | TYPE_INT32 | TYPE_SINT32 | TYPE_SFIXED32 => Some 9
  | TYPE_UINT64 | TYPE_FIXED64 => Some 10
  | TYPE_INT64 | TYPE_SINT64 | TYPE_SFIXED64 => Some 11
  | TYPE_FLOAT => Some 13
  | TYPE_DOUBLE => Some 14
  | TYPE_STRING | TYPE_BYTES => Some 18
  | TYPE_ENUM | TYPE_MESSAGE | TYPE_GROUP => None
  end.
(** A message, through the accessors protoc generates: the value of its [i]-th field. *)
Definition pb_message := nat -> value.
Definition pb_value_ok (f : pb_field) (v : value) : Prop :=
  match pb_cpp (pb_ty f) with
  | Some c => has_type (if pb_repeated f then CSeq KVector (CBase c) else CBase c) v
  | None => True
  end.
Definition pb_message_ok (fs : list pb_field) (m : pb_message) : Prop :=
  forall i f, nth_error fs i = Some f -> pb_value_ok f (m i).

(** ** FlatBuffers *)
(** flatbuffers/minireflect.h, ElementaryType *)
Inductive fbs_type :=
| ET_UTYPE | ET_BOOL | ET_CHAR | ET_UCHAR | ET_SHORT | ET_USHORT | ET_INT | ET_UINT | ET_LONG | ET_ULONG
| ET_FLOAT | ET_DOUBLE | ET_STRING | ET_SEQUENCE.
(** A field: its type, whether it is a vector, and for numbers the default the schema declares. *)
Record fbs_field := FbsField { fbs_ty : fbs_type; fbs_repeating : bool; fbs_default : Z }.
Definition fbs_cpp (t : fbs_type) : option Z :=
  match t with
  | ET_BOOL => Some 3 | ET_UCHAR => Some 4 | ET_CHAR => Some 5 | ET_USHORT => Some 6 | ET_SHORT => Some 7
  | ET_UINT => Some 8 | ET_INT => Some 9 | ET_ULONG => Some 10 | ET_LONG => Some 11
  | ET_FLOAT => Some 13 | ET_DOUBLE => Some 14 | ET_STRING => Some 18
  | ET_UTYPE | ET_SEQUENCE => None
  end.
(** A table: which fields are stored in it, and their values.  Numbers equal to the default are not stored. *)
Definition fbs_table := nat -> option value.
Definition fbs_value_ok (f : fbs_field) (v : value) : Prop :=
  match fbs_cpp (fbs_ty f) with
  | Some c => has_type (if fbs_repeating f then CSeq KVector (CBase c) else CBase c) v
  | None => True
  end.
Definition fbs_table_ok (fs : list fbs_field) (m : fbs_table) : Prop :=
  forall i f v, nth_error fs i = Some f -> m i = Some v -> fbs_value_ok f v.
(** The accessors flatc generates give the default for a number that is not stored, and a null pointer for a string
    or vector, which is the empty one. *)
Definition fbs_reads (f : fbs_field) (stored : option value) : value :=
  match stored with
  | Some v => v
  | None => if fbs_repeating f then VList [] else match fbs_ty f with ET_STRING => VStr [] | _ => VNum (fbs_default f) end
  end.

(** ** Structs *)
(** A member made known with RUDF_STRUCT_FIELDS or as an accessor function: its C++ type (what the function returns)
    and, for functions, whether the object is the only argument. *)
Record member := Member { m_type : cpptype; m_function : bool; m_only_this : bool }.
(** An object: the value of its [i]-th member, stored or returned. *)
Definition object := nat -> value.
Definition object_ok (ms : list member) (o : object) : Prop :=
  forall i m, nth_error ms i = Some m -> has_type (m_type m) (o i).

(** Members that become columns (names of types as in <string>, <vector>, <array>). *)
Definition scalar_column (c : Z) : bool := (3 <=? c) && (c <=? 18) && negb (c =? 12) && negb (c =? 15).
Definition becomes_column (t : cpptype) : bool :=
  match t with
  | CBase c => scalar_column c
  | CPtr (CBase c) => c =? 18                          (* std::string* *)
  | CSeq KVector (CBase c) | CArray (CBase c) _ => (3 <=? c) && (c <=? 18)
  | CSeq KVector (CPtr (CBase c)) => c =? 18           (* std::vector<std::string*> *)
  | CPtr (CSeq KVector (CBase c)) | CPtr (CArray (CBase c) _) => c =? 18
  | CPtr (CSeq KVector (CPtr (CBase c))) => c =? 18
  | _ => false
  end.
(** Members whose values reach the column. *)
Definition kept (m : member) : bool :=
  if m_function m then
    match m_type m with
    | CBase c => scalar_column c && (c <=? 16)
    | CPtr (CBase c) => c =? 18                        (* const std::string& *)
    | _ => false
    end
  else
    match m_type m with
    | CBase c | CArray (CBase c) _ => scalar_column c && negb (c =? 17)
    | CSeq KVector (CBase c) => scalar_column c && negb (c =? 17) && negb (c =? 3)
    | _ => false
    end.
(** Elements of repeated protobuf fields that are still there after loading: strings of at most 12 bytes. *)
Definition survives (v : value) : bool := match v with VStr s => (length s <=? 12)%nat | _ => false end.
(** Members whose column cannot be loaded: arrays and vectors of half or long double. *)
Definition unloadable (t : cpptype) : bool :=
  match t with
  | CSeq KVector (CBase c) | CArray (CBase c) _ => (c =? 12) || (c =? 15)
  | _ => false
  end.
Definition many (t : cpptype) : bool :=
  match t with CSeq _ _ | CArray _ _ | CPtr (CSeq _ _) | CPtr (CArray _ _) => true | _ => false end.

(** ** The type of a column: Vector<T>, or Vector<absl::Span<T>> *)
Definition view (c : Z) : Z := if stringy c then 17 else c.
Definition column_type (is_many : bool) (c : Z) : cpptype :=
  CSeq KSimdVector (if is_many then CSeq KAbslSpan (CBase (view c)) else CBase (view c)).
Definition pb_column (f : pb_field) : option cpptype :=
  match pb_cpp (pb_ty f) with Some c => Some (column_type (pb_repeated f) c) | None => None end.
Definition fbs_column (f : fbs_field) : option cpptype :=
  match fbs_cpp (fbs_ty f) with Some c => Some (column_type (fbs_repeating f) c) | None => None end.
Definition elem_code (t : cpptype) : Z :=
  match t with
  | CBase c | CPtr (CBase c) => c
  | CSeq _ (CBase c) | CArray (CBase c) _ => c
  | _ => 18
  end.
Definition struct_column (m : member) : option cpptype :=
  if m_function m && negb (m_only_this m) then None
  else if becomes_column (m_type m) then Some (column_type (many (m_type m)) (elem_code (m_type m))) else None.
(** The columns of fields [fs]: the indices of the fields that can be columns, in order, with the types. *)
Definition expected_columns {F} (ty : F -> option cpptype) (fs : list F) : list (nat * cpptype) :=
  flat_map (fun p => match ty (snd p) with Some t => [(fst p, t)] | None => [] end) (combine (seq 0 (length fs)) fs).

(** Rows of a table: null pointers, or objects as described. *)
Definition rows_ok {X} (ok : (nat -> X) -> Prop) (rows : list (option (nat -> X))) : Prop :=
  Forall (fun r => match r with Some o => ok o | None => True end) rows.
