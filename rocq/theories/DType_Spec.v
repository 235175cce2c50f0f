(** The C++ types that a rapidudf data type can describe, independently of how a DType encodes
    them, and the vocabulary used to state C07 - C10. *)
From Coq Require Import List ZArith Bool.
Import ListNotations.
Local Open Scope Z_scope.

(** Containers with one element type (dtype_enums.h, CollectionType). *)
Inductive seq_kind := KVector | KSet | KUnorderedSet | KAbslSpan | KSimdVector.

(** A C++ type in the shape [get_dtype<T>] dispatches on.  [CBase f] stands for a fundamental type
    or a registered class with type number [f].  References describe the same data type as pointers. *)
Inductive cpptype :=
| CBase (f : Z)
| CPtr (t : cpptype)
| CSeq (k : seq_kind) (t : cpptype)
| CArray (t : cpptype) (n : Z)
| CMap (ordered : bool) (key val : cpptype)
| CPair (a b : cpptype)
| CTuple1 (a : cpptype).

(** [supported lim t]: base types have numbers in [1, lim); array elements are base types (the source
    rejects pointers and containers by static_assert; arrays of arrays are treated separately);
    array lengths stay below 2^28. *)
Fixpoint supported (lim : Z) (t : cpptype) : Prop :=
  match t with
  | CBase f => 1 <= f < lim
  | CPtr t => supported lim t
  | CSeq _ t => supported lim t
  | CArray t n => (exists f, t = CBase f /\ 1 <= f < lim) /\ 0 <= n < 2 ^ 28
  | CMap _ k v => supported lim k /\ supported lim v
  | CPair a b => supported lim a /\ supported lim b
  | CTuple1 a => supported lim a
  end.

(** The type with every array length forgotten. *)
Fixpoint erase_lengths (t : cpptype) : cpptype :=
  match t with
  | CBase f => CBase f
  | CPtr t => CPtr (erase_lengths t)
  | CSeq k t => CSeq k (erase_lengths t)
  | CArray t n => CArray (erase_lengths t) 0
  | CMap o k v => CMap o (erase_lengths k) (erase_lengths v)
  | CPair a b => CPair (erase_lengths a) (erase_lengths b)
  | CTuple1 a => CTuple1 (erase_lengths a)
  end.

(** The type mentions no std::array. *)
Fixpoint no_arrays (t : cpptype) : Prop :=
  match t with
  | CBase _ => True
  | CPtr t => no_arrays t
  | CSeq _ t => no_arrays t
  | CArray _ _ => False
  | CMap _ k v => no_arrays k /\ no_arrays v
  | CPair a b => no_arrays a /\ no_arrays b
  | CTuple1 a => no_arrays a
  end.

(** Pointers and containers: the types that do not fit in a type number. *)
Definition compound (t : cpptype) : bool :=
  match t with CBase _ => false | _ => true end.

(** The first component a type is built from, if any, is a base type (a pointer counts as simple). *)
Definition first_simple (t : cpptype) : Prop :=
  match t with
  | CBase _ | CPtr _ | CArray _ _ => True
  | CSeq _ e => compound e = false
  | CMap _ k _ => compound k = false
  | CPair a _ => compound a = false
  | CTuple1 a => compound a = false
  end.

(** ** Integer types (C11) *)
Inductive int_type := U8 | I8 | U16 | I16 | U32 | I32 | U64 | I64.

Definition int_type_eq_dec (a b : int_type) : {a = b} + {a <> b}.
Proof. decide equality. Defined.

Definition int_bits (t : int_type) : Z :=
  match t with
  | U8 | I8 => 8 | U16 | I16 => 16 | U32 | I32 => 32 | U64 | I64 => 64
  end.
Definition int_signed (t : int_type) : bool :=
  match t with I8 | I16 | I32 | I64 => true | _ => false end.

(** The values of an integer type. *)
Definition int_value (t : int_type) (v : Z) : Prop :=
  if int_signed t then - 2 ^ (int_bits t - 1) <= v < 2 ^ (int_bits t - 1)
  else 0 <= v < 2 ^ int_bits t.

(** The 64-bit slot [s] holds the value [v] of type [t], extended according to its sign (what a C++
    conversion to uint64_t produces). *)
Definition slot_holds (t : int_type) (s v : Z) : Prop := int_value t v /\ s = v mod 2 ^ 64.

(** The low bits of the slot [s] are the value [v] of type [t]; the others are unspecified. *)
Definition slot_low_holds (t : int_type) (s v : Z) : Prop :=
  int_value t v /\ s mod 2 ^ int_bits t = v mod 2 ^ int_bits t.

(** C++ integral conversion: [w] is the value of [dst] congruent to [v]. *)
Definition converts (dst : int_type) (v w : Z) : Prop :=
  int_value dst w /\ (exists k, v = w + k * 2 ^ int_bits dst).
