(** Model of accesses to variables with a schema, dynamic objects and tables: what ast/expression.cc (FieldAccess::Validate)
    and compiler/compiler_expressions.cc do for them beside Access_Model, and the methods of tables
    (functions/simd_table.cc). *)
From Coq Require Import Ascii String List Bool Arith ZArith.
Import ListNotations.
From Verif Require Import Base Lexer_Model DType_Spec DType_Model DynObject_Model DynObject_Spec Function_Model Names_Model Members_Spec
  Members_Model Access_Spec Access_Model ObjField_Spec.
Local Open Scope Z_scope.

(** dtype_enums.h:63 and dtype.h:127-128, IsDynObjectPtr *)
Definition DATA_DYN_OBJECT : Z := 22.
Definition is_dyn_ptr (d : dtype) : outcome bool := is_ptr_to DATA_DYN_OBJECT d.

(** context.h:37-46, VarTag: the type of a variable or value, and its schema. Simplified: a schema is its contents at the
    time of compilation, not a pointer. *)
Record vtag : Type := Tag { g_ty : dtype; g_schema : option schema }.

Section Chains.
Context {E : Type}.
(** As in Access_Model. *)
Variable arg_ty : E -> option dtype.
Variable arg_value : E -> mem -> outcome (dtype * Z).
Variable var : text -> option (dtype * Z).
Variable text_word : text -> Z.
Variable conv : dtype -> dtype -> Z -> mem -> outcome Z.
Variable ext : Z -> list Z -> mem -> outcome (Z * mem).
Variable json : bool -> desc.
Variable F : factory.
Variable R : index.
Notation resolved := (@resolved E).

(** ** Checking *)
(** FieldAccess after its check: struct_member, and dyn_obj_schema (expression.h:113) *)
Definition sresolved : Type := (resolved * option schema)%type.
(** functions/names.h:33 *)
Definition get_column : text := lit "get_column".
(** expression.cc:221-246 and 258-274: a field. The function for a column is declared if there is one. *)
Definition svalidate_field (g : vtag) (n : text) : outcome (vtag * sresolved * list use) :=
  do! d <- is_dyn_ptr (g_ty g);
  match (if d then g_schema g else None) with
  | Some s =>
      match get_field s n with
      | None => Err
      | Some f =>
          do! us <- (if s_table s then
                       do! name <- function_name F get_column (elem_of (f_dtype f));
                       do! P <- ptr_to (g_ty g);
                       Ret (match get_member R P name with
                            | Some mb => match m_func mb with Some fd => [UMember P name fd] | None => [] end
                            | None => []
                            end)
                     else Ret []);
          Ret (Tag (f_dtype f) None, (RField (Member n None (Some (f_dtype f)) (f_offset f)), g_schema g), us)
      end
  | None => do! (T, r) <- validate_field R (g_ty g) n; Ret (Tag T None, (r, g_schema g), [])
  end.
(** expression.cc:247-264 and 275-284: a method. Its result gets the schema of its object. *)
Definition svalidate_call (g : vtag) (n : text) (es : list E) : outcome (vtag * sresolved * list use) :=
  do! d <- is_dyn_ptr (g_ty g);
  let is_table := d && match g_schema g with Some s => s_table s | None => false end in
  if forallb (fun e => match arg_ty e with Some _ => true | None => false end) es then
    do! n' <- (if is_table && (text_eqb n (lit "topk") || text_eqb n (lit "order_by")) then
                 match es with
                 | e :: _ :: _ => match arg_ty e with Some d => function_name F n (elem_of d) | None => Err end
                 | _ => Ret n
                 end
               else Ret n);
    do! (T, r, u) <- validate_call arg_ty R (g_ty g) n' es;
    Ret (Tag T (g_schema g), (r, g_schema g), [u])
  else Err.
(** expression.cc:659-751. Results of brackets have no schema. *)
Definition svalidate_access (g : vtag) (a : access E) : outcome (vtag * sresolved * list use * list text) :=
  match a with
  | AField n => do! (g', r, us) <- svalidate_field g n; Ret (g', r, us, [])
  | ACall n es => do! (g', r, us) <- svalidate_call g n es; Ret (g', r, us, [])
  | AIndex k => do! (T, r, u, name) <- validate_index var json F R (g_ty g) k; Ret (Tag T None, (r, None), [u], [name])
  end.
Fixpoint svalidate_chain (g : vtag) (l : list (access E)) : outcome (vtag * list sresolved * list use * list text) :=
  match l with
  | [] => Ret (g, [], [], [])
  | a :: l =>
      do! (g1, r, us, ns) <- svalidate_access g a;
      do! (g2, rs, us', ns') <- svalidate_chain g1 l;
      Ret (g2, r :: rs, us ++ us', ns ++ ns')
  end.

(** ** Code *)
(** compiler_expressions.cc:74-93: columns of tables are asked for by their offset; all else as in Access_Model. *)
Definition sbuild_access (X : list (text * desc)) (names : list text) (idx : nat) (v : value) (r : sresolved) (m : mem) : outcome (value * mem) :=
  match fst r with
  | RField mb =>
      if negb (is_ptr (v_ty v)) then Err
      else
        match m_field mb with
        | None => Err
        | Some f =>
            do! d <- is_dyn_ptr (v_ty v);
            if d && match snd r with Some s => s_table s | None => false end then
              do! P <- ptr_to (v_ty v);
              do! name <- function_name F get_column (elem_of f);
              do! name <- member_name F P name;
              call_function conv ext X name [(v_ty v, word v m); (get_dtype (CBase DATA_U32), m_offset mb)] m
            else build_access arg_value var text_word conv ext F X names idx v (fst r) m
        end
  | _ => build_access arg_value var text_word conv ext F X names idx v (fst r) m
  end.
Fixpoint sbuild_chain (X : list (text * desc)) (names : list text) (idx : nat) (v : value) (rs : list sresolved) (m : mem) : outcome (value * mem) :=
  match rs with
  | [] => Ret (v, m)
  | r :: rs => do! (v, m) <- sbuild_access X names idx v r m; sbuild_chain X names (S idx) v rs m
  end.
(** A chain on a variable of type [T] with a schema, at [w]. *)
Definition run_schain (T : dtype) (sch : option schema) (w : Z) (l : list (access E)) (m : mem) : outcome (dtype * value * mem) :=
  do! (g, rs, us, names) <- svalidate_chain (Tag T sch) l;
  do! X <- externs F us [];
  do! (v, m) <- sbuild_chain X names 0 (Val T (Imm w)) rs m;
  Ret (g_ty g, v, m).

(** ** Fields as the host and the UDF change them *)
(** The object of schema [s] at [w]. A call of Set that fails and a UDF that is refused change nothing. *)
Definition change_step (s : schema) (w : Z) (c : change) (m : mem) : outcome mem :=
  match c with
  | ByHost t =>
      let o := object_at w (Z.to_nat (s_alloc s)) m in
      match set s (t_name t) (t_how t) (t_type t) (t_value t) o with
      | Ret o => Ret (put_object w o m)
      | Err => Ret m
      | UB => UB
      | Hang => Hang
      end
  | ByUdf name T u =>
      match (do! (_, v, m) <- run_schain (get_dtype (CPtr dyn)) (Some s) w [AField name] m; assign v (get_dtype T) u m) with
      | Ret m => Ret m
      | Err => Ret m
      | UB => UB
      | Hang => Hang
      end
  end.
Fixpoint changes (s : schema) (w : Z) (cs : list change) (m : mem) : outcome mem :=
  match cs with [] => Ret m | c :: cs => do! m <- change_step s w c m; changes s w cs m end.
End Chains.

(** ** The methods of tables *)
(** simd_table.cc:88-126, Init; [addr]: the addresses of the functions. *)
Definition vector_of (f : Z) : cpptype := CSeq KSimdVector (CBase f).
Definition table : cpptype := CPtr dyn.
Definition table_method (addr : text -> Z) (n : text) (ret : cpptype) (args : list cpptype) : offer := OMethod dyn n true ret args (addr n).
Definition table_methods (addr : text -> Z) : list offer :=
  let M := table_method addr in
  [M (lit "column_count") (CBase DATA_U64) [];
   M (lit "filter") table [vector_of DATA_BIT];
   M (lit "head") table [CBase DATA_U32];
   M (lit "tail") table [CBase DATA_U32];
   M (lit "count") (CBase DATA_U32) [];
   M (lit "concat") table [table]]
  ++ map (fun f => M (lit "topk_" ++ fundamental_name f) table [vector_of f; CBase DATA_U32; CBase DATA_BIT])
       [DATA_F32; DATA_F64; DATA_U32; DATA_I32; DATA_U64; DATA_I64]
  ++ map (fun f => M (lit "order_by_" ++ fundamental_name f) table [vector_of f; CBase DATA_BIT])
       [DATA_F32; DATA_F64; DATA_U32; DATA_I32; DATA_U64; DATA_I64]
  ++ [M (lit "order_by") table [CBase DATA_STRING_VIEW; CBase DATA_BIT]]
  ++ map (fun f => M (lit "group_by_" ++ fundamental_name f) (CSeq KAbslSpan table) [vector_of f])
       [DATA_F32; DATA_F64; DATA_U8; DATA_I8; DATA_U16; DATA_I16; DATA_U32; DATA_I32; DATA_U64; DATA_I64; DATA_STRING_VIEW]
  ++ map (fun f => M (lit "get_column_" ++ fundamental_name f) (vector_of f) [CBase DATA_U32])
       [DATA_BIT; DATA_F32; DATA_F64; DATA_U8; DATA_I8; DATA_U16; DATA_I16; DATA_U32; DATA_I32; DATA_U64; DATA_I64; DATA_STRING_VIEW].
