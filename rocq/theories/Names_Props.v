(** C56: names of functions. C72: names of types. *)
From Coq Require Import Ascii String List Bool Arith ZArith Lia.
Import ListNotations.
From Verif Require Import Base Lexer_Model Op_Model DType_Spec DType_Model DType_Proofs DynObject_Model Names_Spec
  Names_Model Names_Proofs.
Local Open Scope Z_scope.

(** The name made from an operator and a built-in type or a vector of it determines the operator and the type,
    whatever user types are registered. Missing: other containers and user types, where it is false (below). *)
Theorem C56_operator_name_partial :
  forall F o v f o' v' f' n, an_operand v f -> an_operand v' f' ->
  function_name F (op_str o) (get_dtype (operand_type v f)) = Ret n ->
  function_name F (op_str o') (get_dtype (operand_type v' f')) = Ret n -> o = o' /\ operand_type v f = operand_type v' f'.
Proof. exact operators. Qed.
Print Assumptions C56_operator_name_partial.
Theorem C56_operator_has_name :
  forall F o v f, an_operand v f -> exists n, function_name F o (get_dtype (operand_type v f)) = Ret n.
Proof. exact one_named. Qed.
Print Assumptions C56_operator_has_name.
(** The same for names that are not operators (find, sort_kv, ... and those of users). *)
Theorem C56_function_name_partial :
  forall F o v f o' v' f' n, operator_name o -> operator_name o' -> an_operand v f -> an_operand v' f' ->
  function_name F o (get_dtype (operand_type v f)) = Ret n ->
  function_name F o' (get_dtype (operand_type v' f')) = Ret n -> o = o' /\ operand_type v f = operand_type v' f'.
Proof. exact one_type. Qed.
Print Assumptions C56_function_name_partial.
(** With two types, the name determines the operator, both element types and whether one of them is a vector. *)
Theorem C56_two_types_partial :
  forall F o v f w g o' v' f' w' g' n, operator_name o -> operator_name o' ->
  an_operand v f -> an_operand w g -> an_operand v' f' -> an_operand w' g' ->
  function_name2 F o (get_dtype (operand_type v f)) (get_dtype (operand_type w g)) = Ret n ->
  function_name2 F o' (get_dtype (operand_type v' f')) (get_dtype (operand_type w' g')) = Ret n ->
  o = o' /\ f = f' /\ g = g' /\ (is_a_vector v f || is_a_vector w g) = (is_a_vector v' f' || is_a_vector w' g').
Proof. exact two_types. Qed.
Print Assumptions C56_two_types_partial.
Example C56_names :
  function_name no_names (op_str OP_PLUS) (get_dtype (operand_type true 14)) = Ret (lit "simd_vector_add_f64") /\
  function_name no_names (op_str OP_PLUS) (get_dtype (operand_type false 9)) = Ret (lit "add_i32") /\
  function_name2 no_names (lit "filter") (get_dtype (operand_type true 14)) (get_dtype (operand_type true 3)) =
    Ret (lit "simd_vector_filter_f64_bit") /\
  an_operand true 14 /\ an_operand false 9 /\ operator_name (lit "filter").
Proof.
  repeat split; try (vm_compute; reflexivity); try (vm_compute; discriminate); try (now apply op_name_ok_spec).
Qed.
(** It is not determined which of two operands is the vector, ... *)
Theorem C56_two_types_refuted :
  forall F o f g, builtin f -> builtin g ->
  function_name2 F o (get_dtype (operand_type true f)) (get_dtype (operand_type false g)) =
  function_name2 F o (get_dtype (operand_type false f)) (get_dtype (operand_type true g)) \/ f = 24 \/ g = 24.
Proof.
  intros F o f g A B. destruct (Z.eq_dec f 24) as [->|N]; [auto|]. destruct (Z.eq_dec g 24) as [->|N']; [auto|]. left.
  rewrite !name_two by assumption. unfold is_a_vector. apply Z.eqb_neq in N. apply Z.eqb_neq in N'. rewrite N, N'. reflexivity.
Qed.
Print Assumptions C56_two_types_refuted.
(** ... a std::vector, set or span of T gets the name of T, ... *)
Theorem C56_containers_refuted :
  forall F o k f, k <> KSimdVector -> builtin f -> f <> 24 ->
  function_name F o (get_dtype (CSeq k (CBase f))) = function_name F o (get_dtype (CBase f)).
Proof. exact containers_alike. Qed.
Print Assumptions C56_containers_refuted.
(** ... all classes without a registered name get the same name, ... *)
Theorem C56_unnamed_types_refuted :
  forall F o f g, 25 <= f < LIM -> 25 <= g < LIM ->
  find_type (by_type F) (get_dtype (CBase f)) = None -> find_type (by_type F) (get_dtype (CBase g)) = None ->
  function_name F o (get_dtype (CBase f)) = function_name F o (get_dtype (CBase g)).
Proof. exact unnamed_alike. Qed.
Print Assumptions C56_unnamed_types_refuted.
(** ... and operators may not end in _std or _fbs. *)
Theorem C56_suffix_refuted :
  forall F o, function_name F (o ++ lit "_std") (get_dtype (CBase 17)) = function_name F o (get_dtype (CBase 16)) /\
              function_name F (o ++ lit "_fbs") (get_dtype (CBase 18)) = function_name F o (get_dtype (CBase 19)).
Proof.
  intros F o. pose proof (name_one F (o ++ lit "_std") false 17) as A. pose proof (name_one F o false 16) as B.
  pose proof (name_one F (o ++ lit "_fbs") false 18) as C. pose proof (name_one F o false 19) as D. cbn [operand_type] in *.
  unfold builtin in *. rewrite A, B, C, D by lia. cbn [prefix is_a_vector orb]. rewrite <- !app_assoc. split; reflexivity.
Qed.
Print Assumptions C56_suffix_refuted.

(** For every history of calls on one thread whose types have no pointer or container inside a container, the cached
    name is the computed one. Missing: nested types, where it is false. *)
Theorem C56_cached_name_partial :
  forall F calls, Forall (fun call => plain (snd call)) calls ->
  exists ns, cached_names F (map (fun call => (fst call, get_dtype (snd call))) calls) [] = Ret ns /\
    Forall2 (fun call n => function_name F (op_str (fst call)) (get_dtype (snd call)) = Ret n) calls ns.
Proof. exact cached_all. Qed.
Print Assumptions C56_cached_name_partial.
Example C56_cached_calls :
  Forall (fun call => plain (snd call))
    [(OP_PLUS, CBase 9); (OP_PLUS, CSeq KSimdVector (CBase 9)); (OP_PLUS, CBase 9); (OP_MINUS, CPtr (CMap true (CBase 9) (CBase 14)))].
Proof. repeat constructor; cbn; lia. Qed.
Theorem C56_cached_name_refuted :
  exists t u n m, supported 2047 t /\ supported 2047 u /\
  function_name no_names (op_str OP_PLUS) (get_dtype t) = Ret n /\
  function_name no_names (op_str OP_PLUS) (get_dtype u) = Ret m /\ n <> m /\
  cached_names no_names [(OP_PLUS, get_dtype t); (OP_PLUS, get_dtype u)] [] = Ret [n; n].
Proof.
  exists (CSeq KVector (CPtr (CBase 9))), (CSeq KVector (CPtr (CBase 8))), (lit "add_i32*"), (lit "add_u32*").
  repeat split; try (vm_compute; reflexivity); try (vm_compute; discriminate).
Qed.
Print Assumptions C56_cached_name_refuted.

(** Member functions: the name determines the type's name and the member if type names have no underscore ... *)
Theorem C56_member_name_partial :
  forall F t u m m' n a b,
  type_string F (get_dtype t) = Ret a -> type_string F (get_dtype u) = Ret b -> no_underscore a -> no_underscore b ->
  member_name F (get_dtype t) m = Ret n -> member_name F (get_dtype u) m' = Ret n -> a = b /\ m = m'.
Proof. exact member_names. Qed.
Print Assumptions C56_member_name_partial.
Example C56_member_names :
  let F := fst (add_names (given [(lit "Point", 1024); (lit "Line", 1025)]) no_names) in
  type_string F (get_dtype (CBase 1024)) = Ret (lit "Point") /\ no_underscore (lit "Point") /\
  member_name F (get_dtype (CBase 1025)) (lit "length") = Ret (lit "Line_length").
Proof. repeat split; try (vm_compute; reflexivity); discriminate. Qed.
(** ... and not otherwise. *)
Theorem C56_member_name_refuted :
  exists F t u m m' n, member_name F (get_dtype t) m = Ret n /\ member_name F (get_dtype u) m' = Ret n /\ t <> u /\ m <> m' /\
  exists a b, type_string F (get_dtype t) = Ret a /\ type_string F (get_dtype u) = Ret b /\ a <> b.
Proof.
  exists (fst (add_names (given [(lit "shape", 1024); (lit "shape_line", 1025)]) no_names)), (CBase 1024), (CBase 1025),
    (lit "line_length"), (lit "length"), (lit "shape_line_length").
  repeat split; try (vm_compute; reflexivity); try (vm_compute; discriminate).
  exists (lit "shape"), (lit "shape_line"). repeat split; try (vm_compute; reflexivity); try (vm_compute; discriminate).
Qed.
Print Assumptions C56_member_name_refuted.

(** ** C72: for every history of names given to types, a name is accepted iff it is new, it means the type it was
    first given to, and a user type is shown under the first accepted name it got. *)
Theorem C72_first_name_wins :
  forall l, Forall (fun e => 1 <= snd e < LIM) l ->
  let (F, ok) := add_names (given l) no_names in
  ok = accepted_names l [] /\
  (forall n, type_of_name F n = match first_type l n with Some f => get_dtype (CBase f) | None => dtype_invalid end) /\
  (forall f, 25 <= f < LIM -> name_of_type F (get_dtype (CBase f)) = match first_name l [] f with Some n => n | None => [] end).
Proof. exact names_kept. Qed.
Print Assumptions C72_first_name_wins.
(** The name shown for a user type leads back to this type. *)
Theorem C72_round_trip :
  forall l f n, Forall (fun e => 1 <= snd e < LIM) l -> 25 <= f < LIM -> n <> [] ->
  name_of_type (fst (add_names (given l) no_names)) (get_dtype (CBase f)) = n ->
  type_of_name (fst (add_names (given l) no_names)) n = get_dtype (CBase f).
Proof. exact name_round_trip. Qed.
Print Assumptions C72_round_trip.
Example C72_history :
  Forall (fun e : text * Z => 1 <= snd e < LIM) [(lit "Point", 1024); (lit "P", 1024); (lit "Point", 1025); (lit "i", 9)] /\
  snd (add_names (given [(lit "Point", 1024); (lit "P", 1024); (lit "Point", 1025); (lit "i", 9)]) no_names) =
    [true; true; false; true] /\
  name_of_type (fst (add_names (given [(lit "Point", 1024); (lit "P", 1024); (lit "Point", 1025); (lit "i", 9)]) no_names))
    (get_dtype (CBase 1024)) = lit "Point".
Proof. split; [|split; vm_compute; reflexivity]. repeat constructor; vm_compute; try discriminate; reflexivity. Qed.
