(** C07 - C11 and C62: data types. *)
From Coq Require Import List ZArith Bool.
Import ListNotations.
From Verif Require Import Base DType_Spec DType_Model DType_Proofs.
Local Open Scope Z_scope.

(** ** C07 *)
(** For types without std::array whose classes have numbers below 2047 (the full claim: all types),
    operator== never misbehaves and holds exactly for the same type. *)
Theorem C07_equal_iff_same_type_partial :
  forall a b, supported 2047 a -> supported 2047 b -> no_arrays a -> no_arrays b ->
    exists r, dtype_eqb (get_dtype a) (get_dtype b) = Ret r /\ (r = true <-> a = b).
Proof. exact eqb_iff_same. Qed.
Print Assumptions C07_equal_iff_same_type_partial.

Example C07_example_types :
  let a := CMap true (CBase 18) (CSeq KVector (CPtr (CBase 70))) in
  let b := CMap false (CBase 18) (CSeq KVector (CPtr (CBase 70))) in
  supported 2047 a /\ no_arrays a /\ supported 2047 b /\ no_arrays b /\
  dtype_eqb (get_dtype a) (get_dtype a) = Ret true /\ dtype_eqb (get_dtype a) (get_dtype b) = Ret false.
Proof. repeat split; vm_compute; congruence. Qed.

(** With arrays: operator== holds exactly for the types that are the same once every array length is
    forgotten. *)
Theorem C07_equal_iff_same_up_to_array_lengths :
  forall a b, supported 2047 a -> supported 2047 b ->
    exists r, dtype_eqb (get_dtype a) (get_dtype b) = Ret r /\
              (r = true <-> erase_lengths a = erase_lengths b).
Proof. exact eqb_iff_same_up_to_lengths. Qed.
Print Assumptions C07_equal_iff_same_up_to_array_lengths.

Example C07_example_arrays :
  let a := CSeq KVector (CArray (CBase 9) 3) in
  let b := CSeq KVector (CArray (CBase 9) 4) in
  supported 2047 a /\ supported 2047 b /\ erase_lengths a = erase_lengths b /\ a <> b.
Proof.
  repeat split; try (vm_compute; congruence); exists 9; repeat split; vm_compute; congruence.
Qed.

(** The full claim is false: arrays of different lengths are equal, *)
Theorem C07_array_lengths_refuted :
  exists a b, supported 2047 a /\ supported 2047 b /\ a <> b /\
              dtype_eqb (get_dtype a) (get_dtype b) = Ret true.
Proof.
  exists (CArray (CBase 9) 3), (CArray (CBase 9) 4).
  repeat split; try (vm_compute; congruence); exists 9; repeat split; vm_compute; congruence.
Qed.
Print Assumptions C07_array_lengths_refuted.

(** so are two maps whose value classes have numbers 2048 apart, *)
Theorem C07_many_classes_refuted :
  exists a b, supported (2 ^ 14 - 1) a /\ supported (2 ^ 14 - 1) b /\ no_arrays a /\ no_arrays b /\ a <> b /\
              dtype_eqb (get_dtype a) (get_dtype b) = Ret true.
Proof.
  exists (CMap true (CBase 9) (CBase 100)), (CMap true (CBase 9) (CBase 2148)).
  repeat split; vm_compute; congruence.
Qed.
Print Assumptions C07_many_classes_refuted.

(** an array of arrays has the data type of a plain array, *)
Theorem C07_array_of_arrays_refuted :
  exists a b, a <> b /\ get_dtype a = get_dtype b.
Proof. exists (CArray (CArray (CBase 9) 3) 4), (CArray (CBase 9) 4). split; [congruence|reflexivity]. Qed.
Print Assumptions C07_array_of_arrays_refuted.

(** and comparing with a very long array overflows a signed integer. *)
Theorem C07_compare_overflow_refuted :
  exists n m, 0 <= n < 2 ^ 29 /\ 0 <= m < 2 ^ 29 /\
    dtype_eqb (get_dtype (CArray (CBase 9) n)) (get_dtype (CArray (CBase 9) m)) = UB.
Proof. exists (2 ^ 28), (2 ^ 28 - 1). repeat split; vm_compute; congruence. Qed.
Print Assumptions C07_compare_overflow_refuted.

(** ** C08 *)
(** For classes with numbers below 1023 (the full claim: all types): operator< is irreflexive and
    transitive, *)
Theorem C08_less_irreflexive_partial :
  forall a, supported 1023 a -> dtype_ltb (get_dtype a) (get_dtype a) <> Ret true.
Proof. exact order_irreflexive. Qed.
Print Assumptions C08_less_irreflexive_partial.

Theorem C08_less_transitive_partial :
  forall a b c, supported 1023 a -> supported 1023 b -> supported 1023 c ->
    dtype_ltb (get_dtype a) (get_dtype b) = Ret true ->
    dtype_ltb (get_dtype b) (get_dtype c) = Ret true ->
    dtype_ltb (get_dtype a) (get_dtype c) = Ret true.
Proof. exact order_transitive. Qed.
Print Assumptions C08_less_transitive_partial.

(** and exactly one of a < b, b < a, a == b holds, with a > b the same as b < a. *)
Theorem C08_trichotomy_partial :
  forall a b, supported 1023 a -> supported 1023 b ->
  (dtype_ltb (get_dtype a) (get_dtype b) = Ret true /\ dtype_ltb (get_dtype b) (get_dtype a) = Ret false /\
   dtype_eqb (get_dtype a) (get_dtype b) = Ret false /\ dtype_gtb (get_dtype a) (get_dtype b) = Ret false) \/
  (dtype_ltb (get_dtype a) (get_dtype b) = Ret false /\ dtype_ltb (get_dtype b) (get_dtype a) = Ret true /\
   dtype_eqb (get_dtype a) (get_dtype b) = Ret false /\ dtype_gtb (get_dtype a) (get_dtype b) = Ret true) \/
  (dtype_ltb (get_dtype a) (get_dtype b) = Ret false /\ dtype_ltb (get_dtype b) (get_dtype a) = Ret false /\
   dtype_eqb (get_dtype a) (get_dtype b) = Ret true /\ dtype_gtb (get_dtype a) (get_dtype b) = Ret false).
Proof. exact order_trichotomy. Qed.
Print Assumptions C08_trichotomy_partial.

Example C08_example :
  let a := CSeq KSet (CBase 9) in
  let b := CSeq KUnorderedSet (CSeq KVector (CBase 100)) in
  let c := CPair (CBase 9) (CBase 1000) in
  supported 1023 a /\ supported 1023 b /\ supported 1023 c /\
  dtype_ltb (get_dtype a) (get_dtype b) = Ret true /\ dtype_ltb (get_dtype b) (get_dtype c) = Ret true /\
  dtype_ltb (get_dtype a) (get_dtype c) = Ret true.
Proof. repeat split; vm_compute; congruence. Qed.

(** The full claim is false: three types in a cycle, *)
Theorem C08_cycle_refuted :
  exists a b c, supported (2 ^ 14 - 1) a /\ supported (2 ^ 14 - 1) b /\ supported (2 ^ 14 - 1) c /\
    dtype_ltb (get_dtype a) (get_dtype b) = Ret true /\ dtype_ltb (get_dtype b) (get_dtype c) = Ret true /\
    dtype_ltb (get_dtype c) (get_dtype a) = Ret true.
Proof.
  exists (CPair (CBase 9) (CBase 9)), (CPair (CBase 9) (CBase 709)), (CPair (CBase 9) (CBase 1409)).
  repeat split; vm_compute; congruence.
Qed.
Print Assumptions C08_cycle_refuted.

(** and two types each less than the other. *)
Theorem C08_antisymmetry_refuted :
  exists a b, supported (2 ^ 14 - 1) a /\ supported (2 ^ 14 - 1) b /\
    dtype_ltb (get_dtype a) (get_dtype b) = Ret true /\ dtype_ltb (get_dtype b) (get_dtype a) = Ret true.
Proof.
  exists (CPair (CBase 9) (CBase 9)), (CPair (CBase 9) (CBase 1033)).
  repeat split; vm_compute; congruence.
Qed.
Print Assumptions C08_antisymmetry_refuted.

(** ** C09 *)
(** The element type of a sequence of T is T. *)
Theorem C09_sequence_element :
  forall k t, supported (2 ^ 14 - 1) t -> elem_of (get_dtype (CSeq k t)) = get_dtype t.
Proof. exact elem_seq. Qed.
Print Assumptions C09_sequence_element.

(** The element type of an array of T compares equal to T. *)
Theorem C09_array_element :
  forall t n, supported (2 ^ 14 - 1) (CArray t n) ->
    dtype_eqb (elem_of (get_dtype (CArray t n))) (get_dtype t) = Ret true.
Proof. exact elem_array. Qed.
Print Assumptions C09_array_element.

Theorem C09_map_key :
  forall o k v, supported (2 ^ 14 - 1) k -> supported (2 ^ 14 - 1) v ->
    key_of (get_dtype (CMap o k v)) = get_dtype k.
Proof. exact key_map. Qed.
Print Assumptions C09_map_key.

(** The mapped type, when it is a pointer or a container. *)
Theorem C09_map_element_partial :
  forall o k v, supported (2 ^ 14 - 1) k -> supported (2 ^ 14 - 1) v -> compound v = true ->
    elem_of (get_dtype (CMap o k v)) = get_dtype v.
Proof. exact elem_map_compound. Qed.
Print Assumptions C09_map_element_partial.

(** The pointee of T*, unless T is a container whose first component is a pointer or a container. *)
Theorem C09_pointee_partial :
  forall t, supported (2 ^ 14 - 1) t -> first_simple t ->
    ptr_to (get_dtype (CPtr t)) = Ret (get_dtype t).
Proof. exact ptr_to_CPtr. Qed.
Print Assumptions C09_pointee_partial.

Example C09_example :
  let t := CMap false (CBase 17) (CPtr (CPtr (CSeq KSet (CBase 66)))) in
  supported (2 ^ 14 - 1) t /\ first_simple t /\ ptr_to (get_dtype (CPtr t)) = Ret (get_dtype t) /\
  elem_of (get_dtype (CSeq KSimdVector t)) = get_dtype t /\
  supported (2 ^ 14 - 1) (CArray (CBase 9) 12) /\ compound (CPtr (CBase 9)) = true.
Proof. repeat split; try (vm_compute; congruence). exists 9. repeat split; vm_compute; congruence. Qed.

(** For the excluded containers PtrTo yields the element type instead of the container, always. *)
Theorem C09_pointee_refuted :
  forall k t, supported (2 ^ 14 - 1) t -> compound t = true ->
    ptr_to (get_dtype (CPtr (CSeq k t))) = Ret (get_dtype t).
Proof. exact ptr_to_compound_seq. Qed.
Print Assumptions C09_pointee_refuted.

(** For every simple mapped type Elem() of the map is not equal to it. *)
Theorem C09_map_element_refuted :
  forall o k f, supported (2 ^ 14 - 1) k -> 1 <= f < 2047 ->
    dtype_eqb (elem_of (get_dtype (CMap o k (CBase f)))) (get_dtype (CBase f)) = Ret false.
Proof. exact elem_map_base. Qed.
Print Assumptions C09_map_element_refuted.

(** ** C10 *)
Theorem C10_one_tuple_partial :
  forall f, 1 <= f < 2 ^ 14 - 1 ->
    tuple_size (get_dtype (CTuple1 (CBase f))) = 1 /\
    extract_tuple_dtypes (get_dtype (CTuple1 (CBase f))) = [get_dtype (CBase f)].
Proof. exact tuple1_base. Qed.
Print Assumptions C10_one_tuple_partial.

Theorem C10_one_tuple_arity : forall a, supported (2 ^ 14 - 1) a -> tuple_size (get_dtype (CTuple1 a)) = 1.
Proof. exact tuple1_size. Qed.
Print Assumptions C10_one_tuple_arity.

Theorem C10_pair_components_partial :
  forall f g, 1 <= f < 2 ^ 14 - 1 -> 1 <= g < 2 ^ 14 - 1 ->
    extract_tuple_dtypes (get_dtype (CPair (CBase f) (CBase g))) = [get_dtype (CBase f); get_dtype (CBase g)].
Proof. exact pair_extract. Qed.
Print Assumptions C10_pair_components_partial.

Theorem C10_pair_component_count :
  forall a b, supported (2 ^ 14 - 1) a -> supported (2 ^ 14 - 1) b ->
    length (extract_tuple_dtypes (get_dtype (CPair a b))) = 2%nat.
Proof. exact pair_extract_length. Qed.
Print Assumptions C10_pair_component_count.

Example C10_example :
  extract_tuple_dtypes (get_dtype (CPair (CBase 9) (CBase 70))) = [get_dtype (CBase 9); get_dtype (CBase 70)].
Proof. vm_compute. reflexivity. Qed.

(** TupleSize of every pair is 4. *)
Theorem C10_pair_arity_refuted :
  forall a b, supported (2 ^ 14 - 1) a -> supported (2 ^ 14 - 1) b -> tuple_size (get_dtype (CPair a b)) = 4.
Proof. exact pair_size. Qed.
Print Assumptions C10_pair_arity_refuted.

(** Pointer and container components are not returned. *)
Theorem C10_components_refuted :
  exists a b d0 d1, supported (2 ^ 14 - 1) a /\ supported (2 ^ 14 - 1) b /\
    extract_tuple_dtypes (get_dtype (CPair a b)) = [d0; d1] /\ dtype_eqb d0 (get_dtype a) = Ret false.
Proof.
  exists (CPtr (CBase 9)), (CBase 9). do 2 eexists. repeat split; try (vm_compute; congruence).
Qed.
Print Assumptions C10_components_refuted.

(** ** C11 *)
(** Every stored integer (extended by its sign, as FromPrimitiveValue stores it) converts to the C++
    conversion of its value, whatever the two integer types. *)
Theorem C11_conversion_preserves_value :
  forall oof tof src dst s v, slot_holds src s v ->
    exists r w, convert_to oof tof s (int_dtype src) (int_dtype dst) = Ret r /\
                converts dst v w /\ slot_low_holds dst r w.
Proof. exact convert_ok. Qed.
Print Assumptions C11_conversion_preserves_value.

(** Storing a value and reading it back with its type gives the value; reading it with another
    integer type gives nothing. *)
Theorem C11_store_and_load :
  forall T v, int_value T v ->
    exists s, from_primitive (int_dtype T) v = Some s /\ slot_holds T s v /\
              to_primitive T (int_dtype T) s = Some v.
Proof. exact primitive_roundtrip. Qed.
Print Assumptions C11_store_and_load.

Theorem C11_load_checks_type :
  forall T T' s, T <> T' -> to_primitive T (int_dtype T') s = None.
Proof. exact primitive_wrong_type. Qed.
Print Assumptions C11_load_checks_type.

(** Conversions chain, except through int8. *)
Theorem C11_conversions_chain_partial :
  forall oof tof src mid dst s v, slot_holds src s v -> mid <> I8 ->
  exists r1 r2 w1 w2,
    convert_to oof tof s (int_dtype src) (int_dtype mid) = Ret r1 /\
    convert_to oof tof r1 (int_dtype mid) (int_dtype dst) = Ret r2 /\
    converts mid v w1 /\ converts dst w1 w2 /\ slot_low_holds dst r2 w2.
Proof. exact convert_chain. Qed.
Print Assumptions C11_conversions_chain_partial.

Example C11_example : slot_holds I16 (2 ^ 64 - 300) (-300) /\ converts U8 (-300) 212 /\ I16 <> I8 /\
  convert_to (fun _ _ => 0) (fun _ _ _ => Err) (2 ^ 64 - 300) (int_dtype I16) (int_dtype U8) = Ret 212.
Proof.
  repeat split; try (vm_compute; congruence). exists (-2). reflexivity.
Qed.

(** int32 -1 converted to int8 and back is 255. *)
Theorem C11_conversion_through_int8_refuted :
  forall oof tof,
  slot_holds I32 (2 ^ 64 - 1) (-1) /\
  exists r1, convert_to oof tof (2 ^ 64 - 1) (int_dtype I32) (int_dtype I8) = Ret r1 /\
             slot_low_holds I8 r1 (-1) /\
             convert_to oof tof r1 (int_dtype I8) (int_dtype I32) = Ret 255.
Proof. exact convert_chain_i8. Qed.
Print Assumptions C11_conversion_through_int8_refuted.

(** ** C62 *)
(** Data types of array-free types that compare equal have equal hash codes. *)
Theorem C62_equal_types_hash_equally_partial :
  forall a b, supported 2047 a -> supported 2047 b -> no_arrays a -> no_arrays b ->
    dtype_eqb (get_dtype a) (get_dtype b) = Ret true -> dtype_hash (get_dtype a) = dtype_hash (get_dtype b).
Proof. exact equal_hash. Qed.
Print Assumptions C62_equal_types_hash_equally_partial.

Example C62_example :
  let a := CMap true (CBase 18) (CSeq KVector (CPtr (CBase 70))) in
  supported 2047 a /\ no_arrays a /\ dtype_eqb (get_dtype a) (get_dtype a) = Ret true.
Proof. repeat split; vm_compute; congruence. Qed.

(** The element type of every non-empty array type is equal to T but hashes differently. *)
Theorem C62_array_element_hash_refuted :
  forall t n, supported (2 ^ 14 - 1) (CArray t n) -> n <> 0 ->
    dtype_eqb (elem_of (get_dtype (CArray t n))) (get_dtype t) = Ret true /\
    dtype_hash (elem_of (get_dtype (CArray t n))) <> dtype_hash (get_dtype t).
Proof. exact array_elem_hash. Qed.
Print Assumptions C62_array_element_hash_refuted.
