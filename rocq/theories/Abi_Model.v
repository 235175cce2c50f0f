(** Model of how rapidudf declares, defines and calls functions for LLVM: compiler/type.cc get_type,
    compiler/codegen.cc GetFunctionType, DeclareExternFunctions, DefineFunction and CallFunction. *)
From Coq Require Import List Bool Arith ZArith.
Import ListNotations.
From Verif Require Import Base DType_Spec DType_Model DynObject_Model Function_Model Abi_Spec.
Local Open Scope Z_scope.

(** type.cc:46-110, get_type. Simplified: only what decides where a value of the type is passed. Pointers are
    opaque, so the type pointed to does not matter (but it is looked up). [None]: null, no such LLVM type. *)
Inductive llvm_type : Type := TVoid | TInt | TPtr | TFloat | TX86_fp80 | TStruct2 | TI128.
Definition get_type (d : dtype) : outcome (option llvm_type) :=
  if is_ptr d then do! _ <- ptr_to d; Ret (Some TPtr)
  else if is_absl_span d then Ret (Some TStruct2)
  else if is_simd_vector d then Ret (Some TStruct2)
  else Ret (let f := t0 (ctrl_of d) in
    if f =? DATA_VOID then Some TVoid
    else if (DATA_BIT <=? f) && (f <=? DATA_I64) then Some TInt
    else if (f =? DATA_F16) || (f =? DATA_F32) || (f =? DATA_F64) then Some TFloat
    else if f =? DATA_F80 then Some TX86_fp80
    else if f =? DATA_STD_STRING_VIEW then Some TStruct2
    else if f =? DATA_STRING_VIEW then Some TI128
    else None).

(** A parameter as LLVM sees it: a first-class value, or a pointer with the attribute byval(type): the callee gets
    a copy of [n] eightbytes on the stack, aligned to [al] eightbytes. *)
Inductive param : Type := PValue (t : llvm_type) | PByval (n al : nat).

(** codegen.cc:230-252, GetFunctionType: the parameter types. A void parameter is an assertion failure in LLVM. *)
Definition param_type (args : list dtype) (i : nat) (d : dtype) : outcome (llvm_type * llvm_type) :=
  do! t <- get_type d;
  match t with
  | None => Err
  | Some TVoid => UB
  | Some t => Ret (t, if pass_arg_by_value args i then TPtr else t)
  end.
(** Size of a type in eightbytes: only of those a byval parameter can have. *)
Definition eightbytes (t : llvm_type) : nat := match t with TStruct2 | TI128 => 2 | _ => 1 end.

(** Apply [f] to the arguments and their positions, in order. *)
Fixpoint map_args {A} (f : nat -> dtype -> outcome A) (i : nat) (l : list dtype) : outcome (list A) :=
  match l with
  | [] => Ret []
  | d :: l => do! a <- f i d; do! r <- map_args f (S i) l; Ret (a :: r)
  end.

(** codegen.cc:306-331: registered functions; the attributes byval and align(8) on what PassArgByValue selects.
    A call (codegen.cc:667-689) passes the address of the value for these, and the value otherwise. *)
Definition declare_function (args : list dtype) : outcome (list param) :=
  map_args (fun i d =>
    do! (t, pt) <- param_type args i d;
    Ret (if pass_arg_by_value args i then PByval (eightbytes t) 1 else PValue pt)) 0 args.
(** codegen.cc:333-348: member functions; the pointer type, but no attributes. *)
Definition declare_member (args : list dtype) : outcome (list param) :=
  map_args (fun i d => do! (t, pt) <- param_type args i d; Ret (PValue pt)) 0 args.

(** codegen.cc:359-418, DefineFunction: a UDF. byval where the type of the parameter is not the type of the data
    (without an alignment: LLVM takes that of the type, [i128_al] eightbytes for i128). The flag: a parameter that
    is a pointer and whose data type looks like a view is taken for the address of the value, so the value is read
    through it once more. *)
Definition llvm_type_eqb (a b : llvm_type) : bool :=
  match a, b with
  | TVoid, TVoid | TInt, TInt | TPtr, TPtr | TFloat, TFloat | TX86_fp80, TX86_fp80 | TStruct2, TStruct2
  | TI128, TI128 => true
  | _, _ => false
  end.
Definition type_align (i128_al : nat) (t : llvm_type) : nat := match t with TI128 => i128_al | _ => 1 end.
Definition define_function (i128_al : nat) (args : list dtype) : outcome (list (param * bool)) :=
  map_args (fun i d =>
    do! (t, pt) <- param_type args i d;
    do! ctx <- is_ptr_to DATA_CONTEXT d;
    Ret (if ctx then (PValue pt, false)
         else if negb (llvm_type_eqb t pt) then (PByval (eightbytes t) (type_align i128_al t), false)
         else if llvm_type_eqb pt TPtr &&
                 (is_simd_vector d || is_string_view d || is_std_string_view d || is_absl_span d)
         then (PValue pt, true)
         else (PValue pt, false))) 0 args.

(** The x86-64 back end of LLVM (a contract, not code of this repository). Integers and pointers take the next
    general purpose register, or an eightbyte of the stack; floats and doubles likewise; a pair of eightbytes goes
    to the next two registers when there are two: otherwise this contract says nothing ([None]), since versions
    differ. *)
Definition llvm_place (p : param) (u : used) : option (list place * used) :=
  match p with
  | PValue TInt | PValue TPtr =>
      if (gprs u <? 6)%nat then Some ([Gpr (gprs u)], Used (S (gprs u)) (xmms u) (slots u))
      else Some ([Stack (slots u)], Used (gprs u) (xmms u) (S (slots u)))
  | PValue TFloat =>
      if (xmms u <? 8)%nat then Some ([Xmm (xmms u)], Used (gprs u) (S (xmms u)) (slots u))
      else Some ([Stack (slots u)], Used (gprs u) (xmms u) (S (slots u)))
  | PValue TX86_fp80 =>
      let s := (slots u + slots u mod 2)%nat in
      Some ([Stack s; Stack (S s)], Used (gprs u) (xmms u) (s + 2))
  | PValue TStruct2 | PValue TI128 =>
      if (gprs u + 2 <=? 6)%nat
      then Some ([Gpr (gprs u); Gpr (S (gprs u))], Used (gprs u + 2) (xmms u) (slots u))
      else None
  | PValue TVoid => None
  | PByval n al =>
      let s := if (al =? 2)%nat then (slots u + slots u mod 2)%nat else slots u in
      Some (on_stack n s, Used (gprs u) (xmms u) (s + n))
  end.
Fixpoint llvm_places (ps : list param) (u : used) : option (list (list place)) :=
  match ps with
  | [] => Some []
  | p :: ps =>
      match llvm_place p u with
      | None => None
      | Some (l, u) => match llvm_places ps u with Some r => Some (l :: r) | None => None end
      end
  end.
