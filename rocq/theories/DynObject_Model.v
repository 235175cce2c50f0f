(** Model of rapidudf/types/dyn_object_schema.cc, dyn_object_impl.h and the registry part of
    table/table_schema.cc. *)
From Coq Require Import List Bool Arith ZArith.
Import ListNotations.
From Verif Require Import Base Lexer_Model DType_Spec DType_Model.
Local Open Scope Z_scope.

(** dtype.h:75-86, IsSimdVector and IsSimdVectorAny (DATA_SIMD_VECTOR_ANY = 24), and dtype.h:103 IsPrimitive *)
Definition is_simd_vector_any (d : dtype) : bool := is_fundamental d && (t0 (ctrl_of d) =? 24).
Definition is_simd_vector (d : dtype) : bool := is_simd_vector_any d || (container (ctrl_of d) =? COLLECTION_SIMD_VECTOR).
Definition is_primitive (d : dtype) : bool :=
  is_fundamental d && (DATA_BIT <=? t0 (ctrl_of d)) && (t0 (ctrl_of d) <=? DATA_STRING_VIEW).
(** dtype.cc:361-399, ByteSize *)
Definition byte_size (d : dtype) : Z :=
  if is_ptr d then 8
  else if container (ctrl_of d) =? COLLECTION_ABSL_SPAN then 16
  else if is_simd_vector d then 16
  else let t := t0 (ctrl_of d) in
    if (t =? DATA_BIT) || (t =? DATA_U8) || (t =? DATA_I8) then 1
    else if (t =? DATA_U16) || (t =? DATA_I16) then 2
    else if (t =? DATA_U32) || (t =? DATA_I32) || (t =? DATA_F32) then 4
    else if (t =? DATA_VOID) || (t =? DATA_F64) || (t =? DATA_U64) || (t =? DATA_I64) then 8
    else if (t =? DATA_STD_STRING_VIEW) || (t =? DATA_STRING_VIEW) then 16
    else 0.

(** ** Schemas *)
(** reflect/struct.h:31-34 and dyn_object_schema.h:86-90. [fields]: the hash table, newest entry first. *)
Record field : Type := Field { f_dtype : dtype; f_offset : Z }.
Record schema : Type := Schema { s_fields : list (text * field); s_alloc : Z; s_table : bool }.
(** common/allign.h:46-48 *)
Definition align_to (n a : Z) : Z := Z.land (wrapu 64 (n + a - 1)) (Z.lxor (2 ^ 64 - 1) (a - 1)).
(** dyn_object_schema.cc:57-59 and 70-73; sizeof(DynObject) is 8, a pointer. *)
Definition new_schema (header : Z) (table : bool) : schema :=
  let header := if header =? 0 then 8 else header in
  Schema [] (wrapu 32 (align_to header 16)) table.
(** dyn_object_schema.cc:95-101 *)
Definition get_field (s : schema) (name : text) : option field := find_text (s_fields s) name.
(** dyn_object_schema.cc:102-122, Add. [None]: an error, and the schema stays. *)
Definition add (name : text) (d : dtype) (s : schema) : option schema :=
  if is_primitive d || is_simd_vector d then
    let size := if byte_size d <? 8 then 8 else byte_size d in
    match find_text (s_fields s) name with
    | Some _ => None
    | None => Some (Schema ((name, Field d (s_alloc s)) :: s_fields s) (wrapu 32 (s_alloc s + size)) (s_table s))
    end
  else None.

(** ** Objects: their bytes *)
Definition bytes : Type := list Z.
(** dyn_object_schema.cc:124-134, NewObject. Simplified: the schema pointer in the first eight bytes is not
    shown. *)
Definition new_object (s : schema) : bytes := repeat 0 (Z.to_nat (s_alloc s)).
Definition overwrite (at_ : nat) (v o : bytes) : bytes := firstn at_ o ++ v ++ skipn (at_ + length v) o.

(** dyn_object.h:42-46 and the two overloads of DoSet, dyn_object_impl.h:24-52: how the argument is passed decides
    the template argument: the overload for T&& is chosen for a modifiable variable, with T a reference, and the
    data type of a reference is that of a pointer (dtype.h:285-300). *)
Inductive passed : Type := Rvalue | Const_variable | Variable_.
Definition deduced (p : passed) (T : cpptype) : cpptype := match p with Variable_ => CPtr T | _ => T end.
(** [v]: the bytes of the value. Writing outside the object is undefined behaviour. *)
Definition set (s : schema) (name : text) (p : passed) (T : cpptype) (v : bytes) (o : bytes) : outcome bytes :=
  match get_field s name with
  | None => Err
  | Some f =>
      do! same <- dtype_eqb (get_dtype (deduced p T)) (f_dtype f);
      if negb same then Err
      else let a := Z.to_nat (f_offset f) in
        if (a + length v <=? length o)%nat then Ret (overwrite a v o) else UB
  end.
(** dyn_object_impl.h:54-68, Get of a type of [n] bytes *)
Definition get (s : schema) (name : text) (T : cpptype) (n : nat) (o : bytes) : outcome bytes :=
  match get_field s name with
  | None => Err
  | Some f =>
      do! same <- dtype_eqb (get_dtype T) (f_dtype f);
      if negb same then Err
      else let a := Z.to_nat (f_offset f) in
        if (a + n <=? length o)%nat then Ret (firstn n (skipn a o)) else UB
  end.

(** ** The registry *)
Definition set_nth {A} (i : nat) (x : A) (l : list A) : list A := firstn i l ++ x :: skipn (S i) l.
(** The initialiser of a schema: the fields it adds, and the schemas it asks for meanwhile. *)
Inductive act : Type :=
| A_add (name : text) (d : dtype)
| A_create (name : text) (header : Z) (table : bool) (init : list act).
(** The table of names, the schemas by their identity, and the names whose initialiser has run, newest first *)
Record registry : Type := Registry { r_table : list (text * nat); r_schemas : list schema; r_inits : list text }.
(** An initialiser runs while the mutex of the registry is held, dyn_object_schema.cc:75-83: asking the registry for
    a schema from there waits for ever. Errors of Add are left to the initialiser, which goes on. *)
Fixpoint run_init (init : list act) (s : schema) : outcome schema :=
  match init with
  | [] => Ret s
  | A_add name d :: init' => run_init init' (match add name d s with Some s' => s' | None => s end)
  | A_create _ _ _ _ :: _ => Hang
  end.
(** dyn_object_schema.cc:61-85 and table_schema.cc:84-97 *)
Definition get_or_create (name : text) (header : Z) (table : bool) (init : list act) (r : registry) : outcome (nat * registry) :=
  match find_text (r_table r) name with
  | Some id => Ret (id, r)
  | None =>
      do! s <- run_init init (new_schema header table);
      let id := length (r_schemas r) in
      Ret (id, Registry ((name, id) :: r_table r) (r_schemas r ++ [s]) (name :: r_inits r))
  end.
(** dyn_object_schema.cc:35-45 *)
Definition lookup (name : text) (r : registry) : option nat := find_text (r_table r) name.
(** table_schema.cc:36-45: the schema found is asked whether it is a table, without a test that there is one. *)
Definition table_lookup (name : text) (r : registry) : outcome (option nat) :=
  match lookup name r with
  | None => UB
  | Some id => match nth_error (r_schemas r) id with
               | None => UB
               | Some s => Ret (if s_table s then Some id else None)
               end
  end.
(** GetMutable(name)->AddField<T>(...) *)
Definition extend (name fname : text) (d : dtype) (r : registry) : outcome registry :=
  match lookup name r with
  | None => UB
  | Some id => match nth_error (r_schemas r) id with
               | None => UB
               | Some s => Ret (Registry (r_table r) (set_nth id (match add fname d s with Some s' => s' | None => s end) (r_schemas r)) (r_inits r))
               end
  end.
Inductive rcall : Type :=
| R_create (name : text) (header : Z) (table : bool) (init : list act)
| R_extend (name fname : text) (d : dtype).
Definition rexec (c : rcall) (r : registry) : outcome registry :=
  match c with
  | R_create name header table init => do! (_, r) <- get_or_create name header table init r; Ret r
  | R_extend name fname d => extend name fname d r
  end.
Fixpoint rexec_all (cs : list rcall) (r : registry) : outcome registry :=
  match cs with [] => Ret r | c :: cs' => do! r <- rexec c r; rexec_all cs' r end.
Definition empty_registry : registry := Registry [] [] [].
