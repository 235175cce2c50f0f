(** Model of rapidudf/meta/function.{h,cc}: function descriptions, the registry, argument checks. *)
From Coq Require Import List Bool Arith ZArith.
Import ListNotations.
From Verif Require Import Base Lexer_Model DType_Spec DType_Model DynObject_Model.
Local Open Scope Z_scope.

(** ** Questions about a data type (dtype.h) *)
(** dtype.h:94 *)
Definition is_absl_span (d : dtype) : bool := container (ctrl_of d) =? COLLECTION_ABSL_SPAN.
(** dtype.h:108-140 *)
Definition is_data (f : Z) (d : dtype) : bool := is_fundamental d && (t0 (ctrl_of d) =? f).
Definition is_integer (d : dtype) : bool :=
  is_fundamental d && ((DATA_U8 <=? t0 (ctrl_of d)) && (t0 (ctrl_of d) <=? DATA_I64)).
Definition is_bit (d : dtype) : bool := is_data DATA_BIT d.
Definition is_string_view (d : dtype) : bool := is_data DATA_STRING_VIEW d.
Definition is_std_string_view (d : dtype) : bool := is_data DATA_STD_STRING_VIEW d.
(** dtype.h:116: no test that the type is neither a pointer nor a container *)
Definition is_void (d : dtype) : bool := t0 (ctrl_of d) =? DATA_VOID.
(** dtype.h:125-139: IsPtr() && PtrTo().IsX(); 19, 20 and 21 are fbs_string, json and Context. *)
Definition is_ptr_to (f : Z) (d : dtype) : outcome bool :=
  if is_ptr d then do! e <- ptr_to d; Ret (is_data f e) else Ret false.
Definition DATA_FLATBUFFERS_STRING : Z := 19.
Definition DATA_JSON : Z := 20.
Definition DATA_CONTEXT : Z := 21.

(** dtype.cc:292-316, CanCastTo *)
Definition can_cast_to (d other : dtype) : outcome bool :=
  do! same <- dtype_eqb d other;
  if same then Ret true
  else if is_void d then Ret true
  else if is_simd_vector d && is_simd_vector_any other then Ret true
  else if is_number d && is_number other then Ret true
  else
    do! json <- is_ptr_to DATA_JSON d;
    if json && is_primitive other then Ret true
    else if is_string_view other then
      do! s <- is_ptr_to DATA_STRING d;
      do! f <- is_ptr_to DATA_FLATBUFFERS_STRING d;
      Ret (s || f)
    else Ret false.

(** ** Function descriptions *)
(** function.h:51-68. [d_context]: context_arg_idx, None for -1. [d_func]: the address. *)
Record desc : Type := Desc
  { d_name : text; d_return : dtype; d_args : list dtype; d_func : Z; d_context : option nat; d_vector : bool }.

(** function.cc:92-101, Init: the index of the first Context pointer (a second one is only logged). *)
Fixpoint find_context (i : nat) (args : list dtype) (found : option nat) : outcome (option nat) :=
  match args with
  | [] => Ret found
  | a :: args =>
      do! c <- is_ptr_to DATA_CONTEXT a;
      find_context (S i) args
        (if c then match found with Some _ => found | None => Some i end else found)
  end.
Definition init (d : desc) : outcome desc :=
  do! c <- find_context 0 (d_args d) (d_context d);
  Ret (Desc (d_name d) (d_return d) (d_args d) (d_func d) c (d_vector d)).

(** function.cc:103-112, a uint32_t *)
Definition operand_count (d : desc) : Z :=
  let n := wrapu 32 (Z.of_nat (length (d_args d))) in
  let n := match d_context d with Some _ => wrapu 32 (n - 1) | None => n end in
  if d_vector d then wrapu 32 (n - 1) else n.

(** function.cc:115-139, PassArgByValue *)
Definition request_registers (a : dtype) : Z :=
  if is_ptr a || is_integer a || is_bit a then 1
  else if is_absl_span a || is_string_view a || is_std_string_view a || is_simd_vector a then 2
  else 0.
Definition used_registers (args : list dtype) : Z :=
  fold_left (fun used a => wrapu 32 (used + request_registers a)) args 0.
Definition pass_arg_by_value (args : list dtype) (argno : nat) : bool :=
  match nth_error args argno with
  | None => false
  | Some a =>
      if is_simd_vector a || is_absl_span a || is_string_view a || is_std_string_view a
      then 6 <? used_registers (firstn (S argno) args)
      else false
  end.

(** function.cc:141-171, ValidateArgs; the arguments left to check against the parameters left.
    arg_types[i] of a vector function is a pointer. *)
Definition validate_one (vector : bool) (param given : dtype) : outcome bool :=
  if vector then
    do! p <- ptr_to param;
    if is_simd_vector given then dtype_eqb (elem_of given) p else can_cast_to given p
  else can_cast_to given param.
Fixpoint validate_from (vector : bool) (params given : list dtype) : outcome bool :=
  match given, params with
  | [], _ => Ret true
  | t :: given, p :: params =>
      do! ok <- validate_one vector p t;
      if ok then validate_from vector params given else Ret false
  | _ :: _, [] => UB
  end.
(** verify_arg_size is a size_t: with no parameters at all, the count of a vector function wraps. *)
Definition validate_args (d : desc) (ts : list dtype) : outcome bool :=
  let size := Z.of_nat (length (d_args d)) in
  let size := if d_vector d then wrapu 64 (size - 1) else size in
  if negb (Z.of_nat (length ts) =? size) then Ret false
  else validate_from (d_vector d) (d_args d) ts.

(** ** The registry *)
(** function.cc:23-25: g_regs, a hash map from names to descriptions: newest entry first here. absl::flat_hash_map
    keeps the descriptions in one array of slots, so an insertion into a full array moves them all: [r_epoch]
    counts these moves. *)
Record registry : Type := Registry { r_descs : list (text * desc); r_epoch : nat }.
Definition empty_registry : registry := Registry [] 0.
(** What GetFunction returns: which array of slots, and which description in it. *)
Record desc_ptr : Type := DescPtr { p_epoch : nat; p_name : text }.

Section Growth.
(** [grows n]: inserting into the array that holds [n] descriptions moves them (absl). *)
Variable grows : nat -> bool.

(** function.cc:188-199, Register. A used name: the registry stays, false. *)
Definition register (d : desc) (r : registry) : outcome (registry * bool) :=
  do! d <- init d;
  match find_text (r_descs r) (d_name d) with
  | Some _ => Ret (r, false)
  | None =>
      Ret (Registry ((d_name d, d) :: r_descs r)
             (if grows (length (r_descs r)) then S (r_epoch r) else r_epoch r), true)
  end.
(** function.cc:200-221, RegisterVectorFunction. [false]: an error. *)
Definition register_vector (d : desc) (r : registry) : outcome (registry * bool) :=
  if (length (d_args d) <? 2)%nat then Ret (r, false)
  else if negb (forallb is_ptr (d_args d)) then Ret (r, false)
  else register (Desc (d_name d) (d_return d) (d_args d) (d_func d) (d_context d) true) r.
End Growth.

(** function.cc:223-232, GetFunction *)
Definition get_function (name : text) (r : registry) : option desc_ptr :=
  match find_text (r_descs r) name with
  | Some _ => Some (DescPtr (r_epoch r) name)
  | None => None
  end.
(** Reading through the pointer: the old array is freed when the descriptions move. *)
Definition deref (p : desc_ptr) (r : registry) : outcome desc :=
  if (p_epoch p =? r_epoch r)%nat then
    match find_text (r_descs r) (p_name p) with Some d => Ret d | None => UB end
  else UB.
