(** C54: where the arguments of functions are. [abi ts] is the System V x86-64 convention for a function with
    parameters [ts]; LLVM gets what [declare_function] and [define_function] say. *)
From Coq Require Import List Bool Arith ZArith.
Import ListNotations.
From Verif Require Import Base DType_Spec DType_Model DynObject_Model Function_Model Abi_Spec Abi_Model Abi_Proofs.
Local Open Scope Z_scope.

(** A view is passed "by value" (on the stack) exactly when the convention puts it on the stack, and otherwise the
    convention puts it in two consecutive registers. *)
Theorem C54_by_value_iff_on_stack :
  forall ts pl i t,
    Forall (supported (2 ^ 14 - 1)) ts -> abi ts = Some pl -> Z.of_nat (length ts) < 2 ^ 30 ->
    nth_error ts i = Some t -> view t = true ->
    if pass_arg_by_value (map get_dtype ts) i
    then exists s, nth_error pl i = Some [Stack s; Stack (S s)]
    else exists g, nth_error pl i = Some [Gpr g; Gpr (S g)].
Proof. exact by_value_iff. Qed.
Print Assumptions C54_by_value_iff_on_stack.

(** A registered function: every argument is where the C++ function expects it. The full claim: with pointers to
    views among the parameters too. *)
Theorem C54_registered_function_partial :
  forall ts pl,
    Forall (supported (2 ^ 14 - 1)) ts -> abi ts = Some pl -> Z.of_nat (length ts) < 2 ^ 30 ->
    Forall (fun t => pointer_to_view t = false) ts ->
    exists ps, declare_function (map get_dtype ts) = Ret ps /\ llvm_places ps none_used = Some pl.
Proof. intros ts pl H1 H2 H3 H4. exact (declare_ok ts pl H1 H2 H4 H3). Qed.
Print Assumptions C54_registered_function_partial.

(** (i32, i32, i32, i32, i32, StringView, i32, double, Vector<f32>, long double): the StringView and the vector are
    on the stack, the sixth integer is in the last register, the long double is aligned. *)
Definition ten_params : list cpptype :=
  [CBase 9; CBase 9; CBase 9; CBase 9; CBase 9; CBase 17; CBase 9; CBase 14; CSeq KSimdVector (CBase 13); CBase 15].
Example C54_example :
  Forall (supported (2 ^ 14 - 1)) ten_params /\ Forall (fun t => pointer_to_view t = false) ten_params /\
  abi ten_params = Some [[Gpr 0]; [Gpr 1]; [Gpr 2]; [Gpr 3]; [Gpr 4]; [Stack 0; Stack 1]; [Gpr 5]; [Xmm 0];
                         [Stack 2; Stack 3]; [Stack 4; Stack 5]] /\
  (exists ps, declare_function (map get_dtype ten_params) = Ret ps /\
    ps = [PValue TInt; PValue TInt; PValue TInt; PValue TInt; PValue TInt; PByval 2 1; PValue TInt; PValue TFloat;
          PByval 2 1; PValue TX86_fp80]).
Proof.
  split; [repeat constructor; cbn; discriminate|]. split; [repeat constructor|]. split; [reflexivity|].
  eexists. split; reflexivity.
Qed.

(** The full claim is false: a pointer to a vector after five integers and a StringView is in the last register by
    the convention, but is passed on the stack. *)
Theorem C54_registered_pointer_to_view_refuted :
  exists ts pl ps,
    Forall (supported (2 ^ 14 - 1)) ts /\ abi ts = Some pl /\ declare_function (map get_dtype ts) = Ret ps /\
    llvm_places ps none_used <> Some pl.
Proof.
  exists [CBase 9; CBase 9; CBase 9; CBase 9; CBase 9; CBase 17; CPtr (CSeq KSimdVector (CBase 13))].
  do 2 eexists. split; [repeat constructor; cbn; discriminate|]. split; [reflexivity|]. split; [reflexivity|].
  vm_compute. discriminate.
Qed.
Print Assumptions C54_registered_pointer_to_view_refuted.

(** A UDF called from C++: every parameter is read from where the caller puts it, and is what the caller passed.
    The full claim: for all lists of parameters, and whatever alignment LLVM gives to i128. *)
Theorem C54_udf_partial :
  forall i128_al ts pl,
    Forall (supported (2 ^ 14 - 1)) ts -> abi ts = Some pl -> Z.of_nat (length ts) < 2 ^ 30 ->
    Forall (fun t => pointer_to_view t = false) ts -> i128_al = 1%nat \/ ~ In (CBase 17) ts ->
    exists ps, define_function i128_al (map get_dtype ts) = Ret ps /\
      llvm_places (map fst ps) none_used = Some pl /\ Forall (fun q => snd q = false) ps.
Proof. intros al ts pl H1 H2 H3 H4 H5. exact (define_ok al ts pl H1 H2 H4 H3 H5). Qed.
Print Assumptions C54_udf_partial.

Example C54_example_udf :
  exists ps, define_function 1 (map get_dtype ten_params) = Ret ps /\ length ps = 10%nat /\
    llvm_places (map fst ps) none_used = abi ten_params.
Proof. eexists. split; [reflexivity|]. split; reflexivity. Qed.

(** The full claim is false. With i128 aligned to 16 bytes (LLVM 18 and later), a StringView behind an odd number
    of eightbytes is read from the wrong place. *)
Theorem C54_udf_string_view_refuted :
  exists ts pl ps,
    Forall (supported (2 ^ 14 - 1)) ts /\ Forall (fun t => pointer_to_view t = false) ts /\ abi ts = Some pl /\
    define_function 2 (map get_dtype ts) = Ret ps /\ llvm_places (map fst ps) none_used <> Some pl.
Proof.
  exists (repeat (CBase 9) 7 ++ [CBase 17]).
  do 2 eexists. split; [repeat constructor; cbn; discriminate|]. split; [repeat constructor|].
  split; [reflexivity|]. split; [reflexivity|]. vm_compute. discriminate.
Qed.
Print Assumptions C54_udf_string_view_refuted.

(** Every parameter of a UDF that is a pointer or reference to a vector or span is read once too often: its value is
    taken from the object it points to. *)
Theorem C54_udf_pointer_to_view_refuted :
  forall i128_al ts ps i t,
    Forall (supported (2 ^ 14 - 1)) ts -> nth_error ts i = Some t -> pointer_to_view t = true ->
    define_function i128_al (map get_dtype ts) = Ret ps -> exists q, nth_error ps i = Some (q, true).
Proof. exact define_pointer_bad. Qed.
Print Assumptions C54_udf_pointer_to_view_refuted.

Example C54_example_pointer :
  define_function 1 (map get_dtype [CBase 9; CPtr (CSeq KSimdVector (CBase 13))]) =
    Ret [(PValue TInt, false); (PValue TPtr, true)].
Proof. reflexivity. Qed.

(** A member function of a registered class gets its arguments right while no view is on the stack, *)
Theorem C54_member_function_partial :
  forall ts pl,
    Forall (supported (2 ^ 14 - 1)) ts -> abi ts = Some pl -> Z.of_nat (length ts) < 2 ^ 30 ->
    Forall (fun t => pointer_to_view t = false) ts ->
    (forall i t s, nth_error ts i = Some t -> view t = true -> nth_error pl i <> Some [Stack s; Stack (S s)]) ->
    exists ps, declare_member (map get_dtype ts) = Ret ps /\ llvm_places ps none_used = Some pl.
Proof. intros ts pl H1 H2 H3 H4 H5. exact (member_ok ts pl H1 H2 H4 H3 H5). Qed.
Print Assumptions C54_member_function_partial.

Example C54_example_member :
  let ts := [CPtr (CBase 70); CBase 17; CBase 9; CSeq KAbslSpan (CBase 9)] in
  abi ts = Some [[Gpr 0]; [Gpr 1; Gpr 2]; [Gpr 3]; [Gpr 4; Gpr 5]] /\
  declare_member (map get_dtype ts) = Ret [PValue TPtr; PValue TI128; PValue TInt; PValue TStruct2].
Proof. split; reflexivity. Qed.

(** and never when one is. *)
Theorem C54_member_function_refuted :
  forall ts pl ps i t s,
    Forall (supported (2 ^ 14 - 1)) ts -> abi ts = Some pl -> Z.of_nat (length ts) < 2 ^ 30 ->
    nth_error ts i = Some t -> view t = true -> nth_error pl i = Some [Stack s; Stack (S s)] ->
    declare_member (map get_dtype ts) = Ret ps -> llvm_places ps none_used <> Some pl.
Proof. exact member_bad. Qed.
Print Assumptions C54_member_function_refuted.

Example C54_example_member_spilled :
  let ts := [CPtr (CBase 70); CBase 17; CBase 17; CBase 17] in
  exists pl ps, abi ts = Some pl /\ nth_error pl 3 = Some [Stack 0; Stack 1] /\
    declare_member (map get_dtype ts) = Ret ps.
Proof. do 2 eexists. repeat split; reflexivity. Qed.
