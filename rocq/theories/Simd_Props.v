(** C18 - C23, C64, C65: the SIMD functions on vectors. *)
From Coq Require Import List ZArith Bool.
Import ListNotations.
From Verif Require Import Base StringView_Spec StringView_Model StringView_Proofs.
From Verif Require Import Vector_Spec Vector_Model Simd_Spec Simd_Model Simd_Proofs.
Local Open Scope Z_scope.

(** ** C18 *)
(** Every element of the result is the Boolean operation of the inputs, for every lane count N and
    every size n; nothing past the last byte is written.  [alias]: the result is the left operand's
    own buffer.  Missing: the unused bits of the last byte are not always zero. *)
Theorem C18_not_is_pointwise_partial : forall N (alias : bool) src dst n,
  1 <= N -> 0 <= n ->
  let source := if alias then dst else src in
  (n + 7) / 8 <= Z.of_nat (length source) -> (n + 7) / 8 <= Z.of_nat (length dst) ->
  exists out, bits_not N alias src dst n = Ret out /\ length out = length dst /\
    (forall i, 0 <= i < n -> bit_of out i = negb (bit_of source i)) /\
    (forall i, 8 * ((n + 7) / 8) <= i -> bit_of out i = bit_of dst i).
Proof. exact bits_not_pointwise. Qed.
Print Assumptions C18_not_is_pointwise_partial.

Theorem C18_binary_is_pointwise_partial : forall N op (alias : bool) left right dst n,
  1 <= N -> 0 <= n ->
  let source := if alias then dst else left in
  byte_buffer source -> byte_buffer right ->
  (n + 7) / 8 <= Z.of_nat (length source) -> (n + 7) / 8 <= Z.of_nat (length right) ->
  (n + 7) / 8 <= Z.of_nat (length dst) ->
  exists out, bits_binary N op alias left right dst n = Ret out /\ length out = length dst /\
    (forall i, 0 <= i < n -> bit_of out i =
       match op with
       | LAnd => andb (bit_of source i) (bit_of right i)
       | LOr => orb (bit_of source i) (bit_of right i)
       | LXor => xorb (bit_of source i) (bit_of right i)
       end) /\
    (forall i, n <= i < 8 * ((n + 7) / 8) -> bit_of source i = false -> bit_of right i = false ->
       bit_of out i = false) /\
    (forall i, 8 * ((n + 7) / 8) <= i -> bit_of out i = bit_of dst i).
Proof. exact bits_binary_pointwise. Qed.
Print Assumptions C18_binary_is_pointwise_partial.

(** not turns every clear unused bit of the last byte into a set one: for every size that is not a
    multiple of eight the result of not on a clean vector is dirty. *)
Theorem C18_not_sets_padding_refuted : forall N (alias : bool) src dst n,
  1 <= N -> 0 <= n ->
  let source := if alias then dst else src in
  (n + 7) / 8 <= Z.of_nat (length source) -> (n + 7) / 8 <= Z.of_nat (length dst) ->
  (forall i, n <= i < 8 * ((n + 7) / 8) -> bit_of source i = false) ->
  exists out, bits_not N alias src dst n = Ret out /\
    (forall i, n <= i < 8 * ((n + 7) / 8) -> bit_of out i = true).
Proof. exact bits_not_padding. Qed.
Print Assumptions C18_not_sets_padding_refuted.

(** and/or/xor keep the unused bits too: of a one-element vector all eight stay set. *)
Theorem C18_binary_keeps_padding_refuted : forall N op, 1 <= N ->
  exists out, bits_binary N op false [255] [match op with LXor => 0 | _ => 255 end] [0] 1 = Ret out /\
    forall i, 0 <= i < 8 -> bit_of out i = true.
Proof. exact bits_binary_dirty. Qed.
Print Assumptions C18_binary_keeps_padding_refuted.

Example C18_ex : bits_not 2 false [1; 2; 3; 4; 5] [0; 0; 0; 0; 0] 37 = Ret [254; 253; 252; 251; 250]
  /\ bits_binary 4 LXor false [1; 2; 3; 4; 5] [1; 1; 1; 1; 1] [0; 0; 0; 0; 0] 37 = Ret [0; 3; 2; 5; 4]
  /\ bits_binary 4 LAnd true [] [1; 1; 1; 1; 1] [1; 2; 3; 4; 5] 37 = Ret [1; 0; 1; 0; 1].
Proof. repeat split; vm_compute; reflexivity. Qed.

(** ** C19 *)
(** Below 32 byte lanes (SSE4, NEON) the count is exact for every size and content, whatever the
    unused bits hold.  Missing: 32 and 64 lanes (AVX2, AVX-512), see the refutation. *)
Theorem C19_count_true_partial : forall N src n,
  1 <= N < 32 -> 0 <= n < 2 ^ 62 -> byte_buffer src -> (n + 7) / 8 <= Z.of_nat (length src) ->
  count_true N src n = Ret (count_true_spec (bits_of src (Z.to_nat n))).
Proof. exact count_true_exact. Qed.
Print Assumptions C19_count_true_partial.

Theorem C19_count_false_partial : forall N src n,
  1 <= N < 32 -> 0 <= n < 2 ^ 62 -> byte_buffer src -> (n + 7) / 8 <= Z.of_nat (length src) ->
  count_false N src n = Ret (count_true_spec (map negb (bits_of src (Z.to_nat n)))).
Proof. exact count_false_exact. Qed.
Print Assumptions C19_count_false_partial.

(** For any lane count it is exact if no register-sized block has 256 true bits. *)
Theorem C19_count_true_sparse_partial : forall N src n,
  1 <= N -> 0 <= n < 2 ^ 62 -> byte_buffer src -> (n + 7) / 8 <= Z.of_nat (length src) ->
  (forall a len, 0 <= a -> 0 <= len <= N -> (N | a) -> a + len <= (n + 7) / 8 ->
     count_true_spec (bits_of (window src a len) (Z.to_nat (8 * len))) < 256) ->
  count_true N src n = Ret (count_true_spec (bits_of src (Z.to_nat n))).
Proof. exact count_true_sparse. Qed.
Print Assumptions C19_count_true_sparse_partial.

(** With 32 or more byte lanes the count is wrong for the vector that is all true: the 8-bit lane sum
    wraps. *)
Theorem C19_count_true_wide_refuted : forall N, 32 <= N ->
  exists src, byte_buffer src /\ length src = Z.to_nat N /\
    count_true N src (8 * N) <> Ret (count_true_spec (bits_of src (Z.to_nat (8 * N)))).
Proof. exact count_true_wide_wrong. Qed.
Print Assumptions C19_count_true_wide_refuted.

Example C19_ex : count_true 2 [255; 1; 3; 255] 27 = Ret 14 /\ count_false 2 [255; 1; 3; 255] 27 = Ret 13
  /\ count_true 32 (repeat 255 32) 256 = Ret 0.
Proof. repeat split; vm_compute; reflexivity. Qed.

(** ** C20 *)
(** Numbers and pointers, for every lane count the hardware has.  Missing, for more than 8 lanes: masks whose buffer does
    not hold whole groups of N bits. *)
Theorem C20_filter_numbers_partial : forall (A : Type) (zero junk : A) N (inp : list A) mask fresh,
  In N [1; 2; 4; 8; 16; 32; 64] -> byte_buffer mask ->
  Z.of_nat (length inp) <= 8 * Z.of_nat (length mask) -> (N < 8 \/ Z.of_nat (length mask) mod (N / 8) = 0) ->
  Z.of_nat (length inp) <= Z.of_nat (length fresh) ->
  filter_num zero junk N inp mask fresh = Ret (select (bits_of mask (length inp)) inp).
Proof. exact @filter_num_ok. Qed.
Print Assumptions C20_filter_numbers_partial.

Theorem C20_filter_strings : forall (A : Type) (data : list A) mask fresh,
  byte_buffer mask -> Z.of_nat (length data) <= 8 * Z.of_nat (length mask) ->
  Z.of_nat (length data) <= Z.of_nat (length fresh) ->
  filter_string data mask fresh = Ret (select (bits_of mask (length data)) data).
Proof. exact @filter_string_ok. Qed.
Print Assumptions C20_filter_strings.

Theorem C20_filter_bits : forall data mask n,
  byte_buffer data -> byte_buffer mask -> 0 <= n ->
  n <= 8 * Z.of_nat (length data) -> n <= 8 * Z.of_nat (length mask) ->
  let sel := select (bits_of mask (Z.to_nat n)) (bits_of data (Z.to_nat n)) in
  exists out, filter_bit data mask n = Ret (out, Z.of_nat (length sel)) /\ bits_of out (length sel) = sel.
Proof. exact filter_bit_ok. Qed.
Print Assumptions C20_filter_bits.

(** With eight or more lanes per register, a mask holding just enough bytes for its elements is read
    past its end. *)
Theorem C20_filter_reads_past_mask_refuted : forall (A : Type) (zero junk : A) N (inp : list A) mask fresh,
  0 < N -> N mod 8 = 0 -> 0 < Z.of_nat (length inp) < N -> Z.of_nat (length mask) < N / 8 ->
  filter_num zero junk N inp mask fresh = UB.
Proof. exact @filter_mask_overrun. Qed.
Print Assumptions C20_filter_reads_past_mask_refuted.

Example C20_ex :
  filter_num 0 (-1) 4 [10; 11; 12; 13; 14; 15] [43; 0; 0; 0; 0; 0; 0; 0] (repeat 99 6) = Ret [10; 11; 13; 15]
  /\ filter_num 0 (-1) 8 [10; 11; 12; 13; 14; 15; 16; 17; 18; 19] [43; 2; 0; 0; 0; 0; 0; 0] (repeat 99 10) = Ret [10; 11; 13; 15; 19]
  /\ filter_num 0 (-1) 16 [10; 11; 12] [7] (repeat 99 3) = UB.
Proof. repeat split; vm_compute; reflexivity. Qed.

(** ** C21 *)
Theorem C21_find_number : forall N op data v,
  1 <= N -> Z.of_nat (length data) < 2 ^ 31 ->
  exists r, vector_find N op data v = Ret r /\
    first_index (fun x => match op with
                          | FEq => x =? v | FNe => negb (x =? v)
                          | FGt => v <? x | FGe => v <=? x | FLt => x <? v | FLe => x <=? v
                          end) data r.
Proof. exact vector_find_ok. Qed.
Print Assumptions C21_find_number.

Theorem C21_find_string : forall op data texts w t jt,
  bytes t -> Z.of_nat (length t) < 2 ^ 31 -> of_string jt t = Ret w ->
  Forall2 (fun v s => exists j, of_string j s = Ret v) data texts ->
  Forall bytes texts -> Forall (fun s => Z.of_nat (length s) < 2 ^ 31) texts ->
  Z.of_nat (length data) < 2 ^ 31 ->
  exists r, vector_find_string op data w = Ret r /\
    first_index (fun s => match op, lex s t with
       | OpEqual, Eq | OpLessEqual, Eq | OpGreaterEqual, Eq => true
       | OpNotEqual, Lt | OpLess, Lt | OpLessEqual, Lt => true
       | OpNotEqual, Gt | OpGreater, Gt | OpGreaterEqual, Gt => true
       | _, _ => false end) texts r.
Proof. exact find_string_props. Qed.
Print Assumptions C21_find_string.

Example C21_ex : vector_find 4 FGt [1; 2; 3; 4; 5; 6; 7] 5 = Ret 5 /\ vector_find 4 FEq [1; 2; 3] 0 = Ret (-1).
Proof. split; vm_compute; reflexivity. Qed.

(** ** C22 *)
(** 8- and 16-bit elements, strings, Bit: full statement. *)
Theorem C22_gather_small : forall (A : Type) (zero : A) data indices fresh,
  length fresh = length indices ->
  gather_small zero data indices fresh = Ret (map (index_or zero data) indices).
Proof. exact @gather_small_ok. Qed.
Print Assumptions C22_gather_small.

Theorem C22_gather_bits : forall data size indices,
  byte_buffer data -> 0 <= size <= 8 * Z.of_nat (length data) ->
  exists out, gather_bit data size indices = Ret out /\
    bits_of out (length indices) = map (index_or false (bits_of data (Z.to_nat size))) indices.
Proof. exact gather_bit_ok. Qed.
Print Assumptions C22_gather_bits.

(** 32- and 64-bit elements: only if the indices in full SIMD blocks are in range. *)
Theorem C22_gather_wide_partial : forall (A : Type) (zero : A) N data indices fresh,
  1 <= N -> length fresh = length indices ->
  (forall p i, nth_error indices p = Some i -> Z.of_nat p < N * (Z.of_nat (length indices) / N) ->
     0 <= i < Z.of_nat (length data)) ->
  gather_impl zero N data indices fresh = Ret (map (index_or zero data) indices).
Proof. exact @gather_impl_ok. Qed.
Print Assumptions C22_gather_wide_partial.

(** Otherwise the gather reads outside the vector. *)
Theorem C22_gather_wide_reads_outside_refuted : forall (A : Type) (zero : A) N data indices fresh p i,
  1 <= N -> length fresh = length indices ->
  nth_error indices p = Some i -> Z.of_nat p < N * (Z.of_nat (length indices) / N) ->
  (i < 0 \/ Z.of_nat (length data) <= i) ->
  gather_impl zero N data indices fresh = UB.
Proof. exact @gather_impl_bad. Qed.
Print Assumptions C22_gather_wide_reads_outside_refuted.

Example C22_ex : gather_small 0 [7; 8; 9] [2; 5; -1; 0] [1; 1; 1; 1] = Ret [9; 0; 0; 7]
  /\ gather_impl 0 2 [7; 8; 9] [2; 1; 5] [1; 1; 1] = Ret [9; 8; 0]
  /\ gather_impl 0 2 [7; 8; 9] [2; 5; 0] [1; 1; 1] = UB
  /\ gather_bit [5] 3 [2; 1; 9; 0] = Ret [9; 0; 0; 0; 0; 0; 0; 0].
Proof. repeat split; vm_compute; reflexivity. Qed.

(** ** C23 *)
(** sum modulo 2^width for unsigned and for 8- and 16-bit elements, for every lane count. *)
Theorem C23_sum_wraps_partial : forall t N data,
  wf_itype t -> 1 <= N -> (signed t = false \/ bits t < 32) ->
  vector_sum t N data = Ret (wrap t (sum_list data)).
Proof. exact vector_sum_wraps. Qed.
Print Assumptions C23_sum_wraps_partial.

(** Every integer type: exact if the sum of the absolute values fits. *)
Theorem C23_sum_exact_partial : forall t N data,
  wf_itype t -> 1 <= N -> Forall (in_type t) data -> sum_list (map Z.abs data) <= highest t ->
  vector_sum t N data = Ret (sum_list data).
Proof. exact vector_sum_exact. Qed.
Print Assumptions C23_sum_exact_partial.

(** When it returns at all, the result is the sum modulo 2^width. *)
Theorem C23_sum_never_wrong_partial : forall t N data,
  wf_itype t -> 1 <= N ->
  vector_sum t N data = UB \/ vector_sum t N data = Ret (wrap t (sum_list data)).
Proof. exact vector_sum_ub_or. Qed.
Print Assumptions C23_sum_never_wrong_partial.

(** Signed 32- and 64-bit sums overflow (undefined behaviour) instead of wrapping. *)
Theorem C23_signed_sum_overflows_refuted : forall b N, b = 32 \/ b = 64 -> 1 <= N ->
  let t := mk_itype b true in
  vector_sum t N ((highest t :: repeat 0 (Z.to_nat (N - 1))) ++ [1]) = UB.
Proof. exact vector_sum_overflow. Qed.
Print Assumptions C23_signed_sum_overflows_refuted.

Theorem C23_max : forall t N data,
  wf_itype t -> 1 <= N -> data <> [] -> Forall (in_type t) data ->
  exists m, vector_max t N data = Ret m /\ In m data /\ forall x, In x data -> x <= m.
Proof. exact vector_max_ok. Qed.
Print Assumptions C23_max.

Theorem C23_min : forall t N data,
  wf_itype t -> 1 <= N -> data <> [] -> Forall (in_type t) data ->
  exists m, vector_min t N data = Ret m /\ In m data /\ forall x, In x data -> m <= x.
Proof. exact vector_min_ok. Qed.
Print Assumptions C23_min.

Theorem C23_extrema_of_empty : forall t N, 1 <= N ->
  vector_max t N [] = Ret (lowest t) /\ vector_min t N [] = Ret (highest t).
Proof. exact (fun t N H => conj (max_empty t N H) (min_empty t N H)). Qed.
Print Assumptions C23_extrema_of_empty.

Theorem C23_iota : forall t N start n fresh,
  wf_itype t -> 1 <= N -> 0 <= n -> Z.of_nat (length fresh) = n ->
  vector_iota t N start n fresh = Ret (map (fun i => wrap t (start + Z.of_nat i)) (seq 0 (Z.to_nat n))).
Proof. exact vector_iota_ok. Qed.
Print Assumptions C23_iota.

Example C23_ex :
  vector_sum (mk_itype 8 true) 2 [100; 100; 100] = Ret 44
  /\ vector_sum (mk_itype 32 true) 4 [1; -2; 3; 4; 5] = Ret 11
  /\ vector_max (mk_itype 32 true) 4 [1; -2; 3; 4; 5] = Ret 5
  /\ vector_min (mk_itype 32 true) 4 [1; -2; 3; 4; 5] = Ret (-2)
  /\ vector_iota (mk_itype 8 false) 4 253 6 [0; 0; 0; 0; 0; 0] = Ret [253; 254; 255; 0; 1; 2].
Proof. repeat split; vm_compute; reflexivity. Qed.

(** ** C64 *)
(** The average truncates sum / size, if the sum of the absolute values and the size fit the element
    type; the empty vector has average 0. *)
Theorem C64_avg_partial : forall t N data,
  wf_itype t -> 1 <= N -> data <> [] -> Forall (in_type t) data ->
  sum_list (map Z.abs data) <= highest t -> Z.of_nat (length data) <= highest t ->
  vector_avg t N data = Ret (Z.quot (sum_list data) (Z.of_nat (length data))).
Proof. exact vector_avg_ok. Qed.
Print Assumptions C64_avg_partial.

Theorem C64_avg_empty : forall t N, vector_avg t N [] = Ret 0.
Proof. exact avg_empty. Qed.
Print Assumptions C64_avg_empty.

(** The average of two u32 (u64) numbers can be below both. *)
Theorem C64_avg_below_minimum_refuted : forall b N, b = 32 \/ b = 64 -> 1 <= N ->
  let top := 2 ^ b - 1 in
  exists a, vector_avg (mk_itype b false) N [top; top] = Ret a /\ a < top.
Proof. exact avg_wraps. Qed.
Print Assumptions C64_avg_below_minimum_refuted.

Example C64_ex : vector_avg (mk_itype 32 true) 4 [1; 2; -9; 4; 5; 6] = Ret 1.
Proof. vm_compute. reflexivity. Qed.

(** ** C65 *)
(** The mask of the first min(64, size) elements; missing: with value 0 the bits above are set. *)
Theorem C65_match_partial : forall N data cmp, In N [1; 2; 4; 8; 16; 32; 64] ->
  let len := Z.min 64 (Z.of_nat (length data)) in
  exists mask, match_impl N data (Z.of_nat (length data)) cmp = Ret (len, mask) /\ length mask = 8%nat /\
    (forall j, 0 <= j < len -> bit_of mask j = (nth (Z.to_nat j) data 0 =? cmp)) /\
    (cmp <> 0 -> forall j, len <= j < 64 -> bit_of mask j = false).
Proof. exact match_positive. Qed.
Print Assumptions C65_match_partial.

Theorem C65_match_zero_refuted : forall N data, In N [1; 2; 4; 8; 16; 32; 64] ->
  let len := Z.min 64 (Z.of_nat (length data)) in
  exists mask, match_impl N data (Z.of_nat (length data)) 0 = Ret (len, mask) /\
    (forall j, len <= j < N * ((len + N - 1) / N) -> bit_of mask j = true).
Proof. exact match_zero. Qed.
Print Assumptions C65_match_zero_refuted.

Example C65_ex : match_impl 4 [7; 0; 7; 7; 7; 1] 6 7 = Ret (6, [29; 0; 0; 0; 0; 0; 0; 0])
  /\ match_impl 4 [7; 0; 7; 7; 7; 1] 6 0 = Ret (6, [194; 0; 0; 0; 0; 0; 0; 0]).
Proof. split; vm_compute; reflexivity. Qed.

Example C21_string_ex : exists v1 v2, of_string [0; 0; 0; 0; 0; 0; 0; 0] [97; 98] = Ret v1
  /\ of_string [0; 0; 0; 0; 0; 0; 0; 0] [99; 100] = Ret v2
  /\ vector_find_string OpGreater [v1; v2] v1 = Ret 1.
Proof. eexists. eexists. repeat split; vm_compute; reflexivity. Qed.
