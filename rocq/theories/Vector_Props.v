(** C13 (vector comparison of strings), C15, C16, C17, C58, C63. *)
From Coq Require Import List ZArith Bool.
Import ListNotations.
From Verif Require Import Base StringView_Spec StringView_Model StringView_Proofs.
From Verif Require Import Vector_Spec Vector_Model Vector_Proofs.
Local Open Scope Z_scope.

(** ** C13: the vectorised string comparison writes the scalar comparison of lane i into bit i, and
    touches no other bit. *)
Theorem C13_vector_comparison_is_lanewise_partial : forall op ls rs lv rv ret,
  byte_buffer ret -> 64 <= 8 * Z.of_nat (length ret) ->
  (64 <= length ls)%nat -> (64 <= length rs)%nat ->
  Forall2 (fun s v => bytes s /\ Z.of_nat (length s) < 2 ^ 31 /\ exists junk, of_string junk s = Ret v) ls lv ->
  Forall2 (fun s v => bytes s /\ Z.of_nat (length s) < 2 ^ 31 /\ exists junk, of_string junk s = Ret v) rs rv ->
  exists ret', compare_string_views op lv rv ret = Ret ret' /\
    byte_buffer ret' /\ length ret' = length ret /\
    (forall i, 0 <= i < 64 ->
       bit_of ret' i =
       match op, lex (nth (Z.to_nat i) ls []) (nth (Z.to_nat i) rs []) with
       | OpEqual, Eq | OpLessEqual, Eq | OpGreaterEqual, Eq => true
       | OpNotEqual, Lt | OpLess, Lt | OpLessEqual, Lt => true
       | OpNotEqual, Gt | OpGreater, Gt | OpGreaterEqual, Gt => true
       | _, _ => false
       end) /\
    (forall i, 64 <= i -> bit_of ret' i = bit_of ret i).
Proof. exact (fun op => compare_lanes_ok op 64). Qed.
Print Assumptions C13_vector_comparison_is_lanewise_partial.

(** ** C15 *)
(** Set returns, the element reads back, every other bit of the buffer is unchanged.
    Missing: clearing an element of a byte whose eight bits are all clear. *)
Theorem C15_set_is_local_partial : forall fuel mem v idx x,
  (2 <= fuel)%nat ->
  byte_buffer mem /\ 0 <= data_ v /\ 8 * data_ v + size_ v <= 8 * Z.of_nat (length mem) ->
  writable_ v = true -> 0 <= idx < size_ v ->
  (x = true \/ exists j, 0 <= j /\ j / 8 = (8 * data_ v + idx) / 8 /\ bit_of mem j = true) ->
  exists mem', bit_vec_set fuel mem v idx x = Ret mem' /\ length mem' = length mem /\ byte_buffer mem' /\
    bit_of mem' (8 * data_ v + idx) = x /\
    forall j, 0 <= j -> j <> 8 * data_ v + idx -> bit_of mem' j = bit_of mem j.
Proof. exact bit_set_ok. Qed.
Print Assumptions C15_set_is_local_partial.

(** operator[] reads the element. *)
Theorem C15_get_reads_element : forall mem v i,
  byte_buffer mem /\ 0 <= data_ v /\ 8 * data_ v + size_ v <= 8 * Z.of_nat (length mem) ->
  0 <= i < size_ v -> bit_get mem v i = Ret (bit_of mem (8 * data_ v + i)).
Proof. exact bit_get_ok. Qed.
Print Assumptions C15_get_reads_element.

(** Clearing an element of a byte whose bits are all clear never returns, whatever the number of
    loop iterations. *)
Theorem C15_clear_in_zero_byte_hangs_refuted : forall fuel mem v idx,
  byte_buffer mem /\ 0 <= data_ v /\ 8 * data_ v + size_ v <= 8 * Z.of_nat (length mem) ->
  writable_ v = true -> 0 <= idx < size_ v ->
  (forall j, 0 <= j -> j / 8 = (8 * data_ v + idx) / 8 -> bit_of mem j = false) ->
  bit_vec_set fuel mem v idx false = Hang.
Proof. exact bit_set_hang. Qed.
Print Assumptions C15_clear_in_zero_byte_hangs_refuted.

(** An index past the end is reported. *)
Theorem C15_set_out_of_range_fails : forall fuel mem v idx x,
  size_ v <= idx -> bit_vec_set fuel mem v idx x = Err.
Proof. exact bit_set_range. Qed.
Print Assumptions C15_set_out_of_range_fails.

(** The other element types: Set writes that element and nothing else. *)
Theorem C15_element_set_is_local : forall (A : Type) (mem : list A) v idx x d,
  writable_ v = true -> 0 <= data_ v -> data_ v + size_ v <= Z.of_nat (length mem) -> 0 <= idx < size_ v ->
  exists mem', elem_set mem v idx x = Ret mem' /\ length mem' = length mem /\
    elem_get mem' v idx = Ret x /\
    forall j, 0 <= j -> j <> data_ v + idx -> nth (Z.to_nat j) mem' d = nth (Z.to_nat j) mem d.
Proof. exact @elem_set_ok. Qed.
Print Assumptions C15_element_set_is_local.

Example C15_example :
  let v := mk_vec 1 12 12 true in let mem := [255; 0; 8] in
  byte_buffer mem /\ 8 * data_ v + size_ v <= 8 * Z.of_nat (length mem) /\
  bit_vec_set 2 mem v 5 true = Ret [255; 32; 8] /\ bit_vec_set 2 mem v 11 false = Ret [255; 0; 0] /\
  bit_vec_set 1000 mem v 5 false = Hang.
Proof. repeat split; repeat constructor; discriminate. Qed.

(** ** C16 *)
(** Any number of threads, any schedule: once all have returned, every update is visible and nothing
    else changed - provided no two of the elements share a byte.  Missing: elements that share a
    byte. *)
Theorem C16_updates_of_distinct_bytes_partial : forall mem (jobs : list (Z * bool)) sched,
  byte_buffer mem ->
  (forall i v, In (i, v) jobs -> 0 <= i < 8 * Z.of_nat (length mem)) ->
  (forall a b i v j w, nth_error jobs a = Some (i, v) -> nth_error jobs b = Some (j, w) -> a <> b ->
     i / 8 <> j / 8) ->
  exists mem' ts', run sched mem (map (fun p => mk_thread (fst p) (snd p) PLoad) jobs) = Ret (mem', ts') /\
    (Forall (fun t => t_pc t = PDone) ts' ->
     (forall i v, In (i, v) jobs -> bit_of mem' i = v) /\
     (forall j, 0 <= j -> (forall v, ~ In (j, v) jobs) -> bit_of mem' j = bit_of mem j)).
Proof. exact concurrent_ok. Qed.
Print Assumptions C16_updates_of_distinct_bytes_partial.

(** Two threads that set elements 0 and 1: both return and one update is lost. *)
Theorem C16_update_lost_refuted : exists mem sched mem' ts',
  byte_buffer mem /\ bit_of mem 0 = false /\ bit_of mem 1 = false /\
  run sched mem [mk_thread 0 true PLoad; mk_thread 1 true PLoad] = Ret (mem', ts') /\
  Forall (fun t => t_pc t = PDone) ts' /\ bit_of mem' 0 = false /\ bit_of mem' 1 = true.
Proof. exact lost_update. Qed.
Print Assumptions C16_update_lost_refuted.

(** An interleaved run of two threads on different bytes that completes (thread 0 needs two rounds,
    its byte being zero). *)
Example C16_example :
  run [0;1;0;1;1;0;0;0;0]%nat [0; 4] (map (fun p => mk_thread (fst p) (snd p) PLoad) [(3, true); (10, false)])
  = Ret ([8; 0], [mk_thread 3 true PDone; mk_thread 10 false PDone]).
Proof. reflexivity. Qed.

(** ** C17 *)
(** Slice(pos, len) is the window [pos, pos+len) when it lies inside the vector and fails otherwise.
    Missing: pos + len >= 2^32. *)
Theorem C17_slice_is_the_window_partial : forall (A : Type) (mem : list A) v pos len,
  0 <= data_ v -> data_ v + size_ v <= Z.of_nat (length mem) ->
  0 <= pos -> 0 <= len -> 0 <= size_ v < 2 ^ 30 -> size_ v <= capacity_ v < 2 ^ 30 -> pos + len < 2 ^ 32 ->
  (pos + len <= size_ v ->
     exists w, Slice false v pos len = Ret w /\ Size w = len /\ Size w <= capacity_ w /\
       forall i d, 0 <= i < len -> elem_get mem w i = Ret (nth (Z.to_nat (data_ v + (pos + i))) mem d)) /\
  (size_ v < pos + len -> Slice false v pos len = Err).
Proof. exact @slice_elems. Qed.
Print Assumptions C17_slice_is_the_window_partial.

(** Bit vectors: the same for byte-aligned positions; the others are refused. *)
Theorem C17_bit_slice_is_the_window_partial : forall mem v pos len,
  byte_buffer mem /\ 0 <= data_ v /\ 8 * data_ v + size_ v <= 8 * Z.of_nat (length mem) ->
  0 <= pos -> 0 <= len -> 0 <= size_ v < 2 ^ 30 -> size_ v <= capacity_ v < 2 ^ 30 -> pos + len < 2 ^ 32 ->
  (pos + len <= size_ v -> pos mod 8 = 0 ->
     exists w, Slice true v pos len = Ret w /\ Size w = len /\ Size w <= capacity_ w /\
       forall i, 0 <= i < len -> bit_get mem w i = bit_get mem v (pos + i)) /\
  (size_ v < pos + len \/ pos mod 8 <> 0 -> Slice true v pos len = Err).
Proof. exact slice_bits. Qed.
Print Assumptions C17_bit_slice_is_the_window_partial.

(** For every vector there is an out-of-range position that Slice accepts, returning a non-empty
    vector outside the buffer. *)
Theorem C17_slice_outside_refuted : forall (A : Type) (mem : list A) v,
  0 <= size_ v < 2 ^ 30 -> 0 <= data_ v -> Z.of_nat (length mem) < 2 ^ 32 ->
  exists pos w, size_ v < pos < 2 ^ 32 /\ Slice false v pos 1 = Ret w /\ Size w = 1 /\ elem_get mem w 0 = UB.
Proof. exact @slice_wraps. Qed.
Print Assumptions C17_slice_outside_refuted.

(** Resize(2^32) silently returns an empty vector. *)
Theorem C17_resize_wraps_refuted : forall b v, 0 <= size_ v ->
  exists w, Resize b v (2 ^ 32) = Ret w /\ Size w = 0.
Proof. exact resize_wraps. Qed.
Print Assumptions C17_resize_wraps_refuted.

Example C17_example : Slice false (mk_vec 2 5 5 true) 1 3 = Ret (mk_vec 3 3 4 true) /\
  Slice true (mk_vec 0 20 20 true) 8 10 = Ret (mk_vec 1 10 12 true) /\
  Slice true (mk_vec 0 20 20 true) 4 10 = Err.
Proof. repeat split. Qed.

(** ** C58 *)
(** Get(i) of a jagged collection does not return the i-th added vector: Get(0) is empty and Get(i+1)
    is the i-th one. *)
Theorem C58_jagged_get_is_off_by_one_refuted : forall (A : Type) (xs : list (list A)) i,
  Z.of_nat (length (concat xs)) < 2 ^ 32 -> (i < length xs)%nat ->
  jagged_get (fold_left jagged_add xs jagged_empty) (Z.of_nat i) =
  Ret (match i with O => [] | S k => nth k xs [] end).
Proof. exact @jagged_get_prev. Qed.
Print Assumptions C58_jagged_get_is_off_by_one_refuted.

(** A fixed-size collection returns the i-th accepted vector and counts them. *)
Theorem C58_fixed_size_get_partial : forall (A : Type) k (xs : list (list A)) i,
  0 < k ->
  let accepted := filter (fun x => Z.of_nat (length x) =? k) xs in
  Z.of_nat (length (concat accepted)) < 2 ^ 64 -> (i < length accepted)%nat ->
  let f := fold_left (fun f x => snd (fixed_add f x)) xs (mk_fixed k []) in
  fixed_get f (Z.of_nat i) = Ret (nth i accepted []) /\
  fixed_count f = Ret (Z.of_nat (length accepted)).
Proof. exact @fixed_get_ok. Qed.
Print Assumptions C58_fixed_size_get_partial.
(** Add reports whether the vector had the size. *)
Theorem C58_fixed_size_add : forall (A : Type) k (xs : list (list A)) x,
  fst (fixed_add (fold_left (fun f x => snd (fixed_add f x)) xs (mk_fixed k [])) x) = true <-> Z.of_nat (length x) = k.
Proof. exact @fixed_add_reports. Qed.
Print Assumptions C58_fixed_size_add.

Example C58_example :
  jagged_get (fold_left jagged_add [[1;2];[3]] jagged_empty) 0 = Ret [] /\
  jagged_get (fold_left jagged_add [[1;2];[3]] jagged_empty) 1 = Ret [1;2] /\
  fixed_get (fold_left (fun f x => snd (fixed_add f x)) [[1;2];[3];[4;5]] (mk_fixed 2 [])) 1 = Ret [4;5].
Proof. repeat split. Qed.

(** ** C63 *)
(** A vector built over n elements has n elements.  Missing: n >= 2^30. *)
Theorem C63_vector_has_the_given_size_partial : forall data n cap ro,
  0 <= n < 2 ^ 30 -> Size (make_vec data n cap ro) = n.
Proof. exact make_vec_ok. Qed.
Print Assumptions C63_vector_has_the_given_size_partial.

(** From 2^30 elements on the size is silently truncated. *)
Theorem C63_large_vectors_truncated_refuted : forall data n cap ro,
  n mod 2 ^ 30 <> n -> Size (make_vec data n cap ro) <> n.
Proof. exact make_vec_wraps. Qed.
Print Assumptions C63_large_vectors_truncated_refuted.

(** SizeByBytes of a Bit vector is the number of bytes its elements need. *)
Theorem C63_bit_vector_bytes : forall v, 0 <= size_ v ->
  8 * (SizeByBytes true 1 v - 1) < size_ v <= 8 * SizeByBytes true 1 v \/
  (size_ v = 0 /\ SizeByBytes true 1 v = 0).
Proof. exact size_by_bytes. Qed.
Print Assumptions C63_bit_vector_bytes.
