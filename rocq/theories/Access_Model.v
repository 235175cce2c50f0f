(** Model of accesses  x.a.b(c)["k"] : their checks (ast/expression.cc, VarAccessor::Validate and
    FieldAccess::Validate) and the code generated for them (compiler/compiler_expressions.cc, compiler/codegen.cc and
    codegen_value.cc). Variables with a schema (dynamic objects and tables) are in ObjField_Model.
    The code of a chain is straight-line code: generating and running it are one step here. *)
From Coq Require Import Ascii String List Bool Arith ZArith.
Import ListNotations.
From Verif Require Import Base Lexer_Model DType_Spec DType_Model DynObject_Model Function_Model Names_Model Members_Spec
  Members_Model Access_Spec.
Local Open Scope Z_scope.

(** ** Questions about types *)
(** dtype.h:81, 91, 92, 121-123 *)
Definition is_vector (d : dtype) : bool := container (ctrl_of d) =? COLLECTION_VECTOR.
Definition is_float (d : dtype) : bool :=
  is_data DATA_F16 d || is_data DATA_F32 d || is_data DATA_F64 d || is_data DATA_F80 d.
Definition has_get (d : dtype) : outcome bool :=
  if is_ptr d then do! e <- ptr_to d; Ret (is_vector e || is_map e || is_unordered_map e) else Ret false.
(** type.cc:47-110, get_type: the size of the LLVM type; None: no such type *)
Definition llvm_size (d : dtype) : option nat :=
  if is_ptr d then Some 8%nat
  else if is_absl_span d then Some 16%nat
  else if is_simd_vector d then Some 16%nat
  else let t := t0 (ctrl_of d) in
    if t =? DATA_BIT then Some 1%nat
    else if (t =? DATA_U8) || (t =? DATA_I8) then Some 1%nat
    else if (t =? DATA_U16) || (t =? DATA_I16) || (t =? DATA_F16) then Some 2%nat
    else if (t =? DATA_U32) || (t =? DATA_I32) || (t =? DATA_F32) then Some 4%nat
    else if (t =? DATA_U64) || (t =? DATA_I64) || (t =? DATA_F64) then Some 8%nat
    else if t =? DATA_F80 then Some 10%nat
    else if (t =? DATA_STD_STRING_VIEW) || (t =? DATA_STRING_VIEW) then Some 16%nat
    else None.

(** ** Values of the code generator *)
(** value.h: a value in memory (ptr_element_type_ set) or in a register. [n]: the size of ptr_element_type_. *)
Inductive loc : Type := InMem (n : nat) (a : Z) | Imm (w : Z).
Record value : Type := Val { v_ty : dtype; v_loc : loc }.
(** value.cc:34-39, LoadValue *)
Definition word (v : value) (m : mem) : Z := match v_loc v with InMem n a => read n a m | Imm w => w end.

Section Chains.
Context {E : Type}.
(** Arguments of calls: their checked types, and their values. Simplified: arguments do not change the memory, so
    that loading them when they are built or right before the call is the same. *)
Variable arg_ty : E -> option dtype.
Variable arg_value : E -> mem -> outcome (dtype * Z).
(** Local variables used as keys; how text literals are passed (codegen_value.cc:83-151). *)
Variable var : text -> option (dtype * Z).
Variable text_word : text -> Z.
(** codegen_cast.cc:88-130, CastTo, for types that differ; calling a function of the host. *)
Variable conv : dtype -> dtype -> Z -> mem -> outcome Z.
Variable ext : Z -> list Z -> mem -> outcome (Z * mem).
(** functions/json.cc:33-34 and 167-169: the registered json getters, by name and by index. *)
Variable json : bool -> desc.
(** The names of types, and the registered members. *)
Variable F : factory.
Variable R : index.

(** ** Checking *)
(** What the checks leave in the syntax tree: FieldAccess::struct_member. *)
Inductive resolved : Type :=
| RField (m : member)
| RCall (name : text) (args : list E) (m : member)
| RIndex (k : key).
(** Functions to declare (ParseContext::AddMemberFuncCall, CheckFuncExist). *)
Inductive use : Type := UMember (d : dtype) (n : text) (f : desc) | UFunc (f : desc).
Definition json_name (by_name : bool) : text := if by_name then lit "rapidudf_json_member_get" else lit "rapidudf_json_array_get".

(** expression.cc:246-285, FieldAccess::Validate without a schema *)
Definition validate_field (T : dtype) (n : text) : outcome (dtype * resolved) :=
  do! P <- ptr_to T;
  match get_member R P n with
  | None => Err
  | Some mb =>
      match m_field mb with
      | None => Err
      | Some f =>
          Ret (if negb (is_primitive f) && negb (is_ptr f) && negb (is_simd_vector f) && negb (is_std_string_view f) &&
                  negb (is_string_view f) && negb (is_absl_span f)
               then to_ptr f else f, RField mb)
      end
  end.
Definition validate_call (T : dtype) (n : text) (es : list E) : outcome (dtype * resolved * use) :=
  if forallb (fun e => match arg_ty e with Some _ => true | None => false end) es then
    do! P <- ptr_to T;
    match get_member R P n with
    | None => Err
    | Some mb =>
        match m_func mb with
        | None => Err
        | Some f => Ret (d_return f, RCall n es mb, UMember P n f)
        end
    end
  else Err.
(** expression.cc:672-743, the brackets *)
Definition json_by_name (k : key) : outcome bool :=
  match k with
  | KNum _ => Ret false
  | KText _ => Ret true
  | KVar x =>
      match var x with
      | None => Err
      | Some (d, _) =>
          if is_integer d then Ret false
          else if is_string_view d || is_std_string_view d then Ret true
          else Err
      end
  end.
Definition validate_index (T : dtype) (k : key) : outcome (dtype * resolved * use * text) :=
  do! j <- is_ptr_to DATA_JSON T;
  do! g <- has_get T;
  if negb (j || g) then Err
  else if j then
    do! b <- json_by_name k;
    Ret (get_dtype (CPtr (CBase DATA_JSON)), RIndex k, UFunc (json b), json_name b)
  else
    do! P <- ptr_to T;
    match get_member R P (lit "get") with
    | None => Err
    | Some mb =>
        match m_func mb with
        | None => Err
        | Some f =>
            do! ret <- (if is_ptr (d_return f) then
                          do! p <- ptr_to (d_return f);
                          Ret (if is_integer p || is_float p then p else d_return f)
                        else Ret (d_return f));
            do! name <- member_name F P (lit "get");
            Ret (ret, RIndex k, UMember P (lit "get") f, name)
        end
    end.
(** expression.cc:659-751: one access after the other. The last component: access_func_names. *)
Definition validate_access (T : dtype) (a : access E) : outcome (dtype * resolved * list use * list text) :=
  match a with
  | AField n => do! (T', r) <- validate_field T n; Ret (T', r, [], [])
  | ACall n es => do! (T', r, u) <- validate_call T n es; Ret (T', r, [u], [])
  | AIndex k => do! (T', r, u, name) <- validate_index T k; Ret (T', r, [u], [name])
  end.
Fixpoint validate_chain (T : dtype) (l : list (access E)) : outcome (dtype * list resolved * list use * list text) :=
  match l with
  | [] => Ret (T, [], [], [])
  | a :: l =>
      do! (T1, r, us, ns) <- validate_access T a;
      do! (T2, rs, us', ns') <- validate_chain T1 l;
      Ret (T2, r :: rs, us ++ us', ns ++ ns')
  end.

(** ** Code *)
(** codegen.cc:306-360, DeclareExternFunctions: names to functions. Simplified: for two functions with one name, the
    last one here (there, the description of one and perhaps the address of the other). *)
Fixpoint externs (us : list use) (acc : list (text * desc)) : outcome (list (text * desc)) :=
  match us with
  | [] => Ret acc
  | UMember d n f :: us => do! name <- member_name F d n; externs us ((name, f) :: acc)
  | UFunc f :: us => externs us ((d_name f, f) :: acc)
  end.
(** codegen.cc:625-714, CallFunction. Neither members nor json getters have a context argument. *)
Fixpoint call_words (vs : list (dtype * Z)) (params : list dtype) (m : mem) : outcome (list Z) :=
  match vs, params with
  | [], [] => Ret []
  | (d, w) :: vs, p :: params =>
      do! same <- dtype_eqb d p;
      do! w <- (if same then Ret w else conv d p w m);
      do! ws <- call_words vs params m;
      Ret (w :: ws)
  | _, _ => Err
  end.
Definition call_function (X : list (text * desc)) (name : text) (vs : list (dtype * Z)) (m : mem) : outcome (value * mem) :=
  match find_text X name with
  | None => Err
  | Some f =>
      if negb (length vs =? length (d_args f))%nat then Err
      else
        do! ws <- call_words vs (d_args f) m;
        do! (x, m) <- ext (d_func f) ws m;
        Ret (Val (d_return f) (Imm x), m)
  end.
(** codegen_value.cc:194-207, GetStructField *)
Definition get_struct_field (v : value) (f : dtype) (offset : Z) (m : mem) : outcome value :=
  let a := wrapu 64 (word v m + wraps 32 offset) in
  if is_number f || is_string_view f || is_std_string_view f || is_simd_vector f || is_absl_span f || is_ptr f then
    match llvm_size f with
    | None => Err
    | Some n => Ret (Val f (InMem n a))
    end
  else Ret (Val (to_ptr f) (Imm a)).
(** compiler_expressions.cc:30-47: constants and variables as keys *)
Definition key_value (k : key) : outcome (dtype * Z) :=
  match k with
  | KNum n => Ret (get_dtype (CBase DATA_U32), wrapu 32 n)
  | KText s => Ret (get_dtype (CBase DATA_STRING_VIEW), text_word s)
  | KVar x => match var x with Some v => Ret v | None => Err end
  end.
Fixpoint arg_values (es : list E) (m : mem) : outcome (list (dtype * Z)) :=
  match es with
  | [] => Ret []
  | e :: es => do! v <- arg_value e m; do! vs <- arg_values es m; Ret (v :: vs)
  end.
(** compiler_expressions.cc:48-94, BuildIR(FieldAccess), and 116-140, the brackets: the function is number [idx] of
    access_func_names, where [idx] counts all accesses. *)
Definition build_access (X : list (text * desc)) (names : list text) (idx : nat) (v : value) (r : resolved) (m : mem) : outcome (value * mem) :=
  match r with
  | RField mb =>
      if negb (is_ptr (v_ty v)) then Err
      else
        match m_field mb with
        | None => Err
        | Some f => do! v <- get_struct_field v f (m_offset mb) m; Ret (v, m)
        end
  | RCall n es mb =>
      if negb (is_simd_vector (v_ty v)) && negb (is_ptr (v_ty v)) && negb (is_string_view (v_ty v)) && negb (is_std_string_view (v_ty v))
      then Err
      else
        match m_func mb with
        | None => Err
        | Some _ =>
            do! vs <- arg_values es m;
            do! P <- ptr_to (v_ty v);
            do! name <- member_name F P n;
            call_function X name ((v_ty v, word v m) :: vs) m
        end
  | RIndex k =>
      do! kv <- key_value k;
      match nth_error names idx with
      | None => Err
      | Some name => call_function X name [(v_ty v, word v m); kv] m
      end
  end.
Fixpoint build_chain (X : list (text * desc)) (names : list text) (idx : nat) (v : value) (rs : list resolved) (m : mem) : outcome (value * mem) :=
  match rs with
  | [] => Ret (v, m)
  | r :: rs => do! (v, m) <- build_access X names idx v r m; build_chain X names (S idx) v rs m
  end.

(** Checking a chain on an object at [w] of type [T], then running its code; the first component is the type that
    the checks give to the chain. *)
Definition run_chain (T : dtype) (w : Z) (l : list (access E)) (m : mem) : outcome (dtype * value * mem) :=
  do! (T', rs, us, names) <- validate_chain T l;
  do! X <- externs us [];
  do! (v, m) <- build_chain X names 0 (Val T (Imm w)) rs m;
  Ret (T', v, m).

(** ** Assignments to the value of a chain, or to a variable that takes it *)
(** codegen_binary.cc:261-362, OP_ASSIGN, and value.cc:50-80, CopyFrom: into a value in memory, of the same type *)
Definition assign (v : value) (src : dtype) (w : Z) (m : mem) : outcome mem :=
  do! same <- dtype_eqb (v_ty v) src;
  if negb same then Err
  else
    match v_loc v with
    | InMem n a => Ret (write n a w m)
    | Imm _ => Err
    end.
(** value.cc:50-62: a variable without a value takes the place of a value in memory; a value in a register is stored
    into a new slot of [n] bytes at [slot]. *)
Definition define_var (slot : Z) (v : value) (m : mem) : outcome (value * mem) :=
  match v_loc v with
  | InMem _ _ => Ret (v, m)
  | Imm w =>
      match llvm_size (v_ty v) with
      | None => Err
      | Some n => Ret (Val (v_ty v) (InMem n slot), write n slot w m)
      end
  end.
End Chains.
