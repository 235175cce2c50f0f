(** Model of rapidudf/functions/simd/bits.cc and vector_misc.cc.
    Highway (hn::) is an external library; each of its operations used here is modelled by its
    documented lane-wise meaning.  [N] is the number of lanes, a parameter: the code is compiled for
    several.  Buffers are lists; accesses outside them are undefined behaviour. *)
From Coq Require Import List ZArith Bool.
Import ListNotations.
From Verif Require Import Base StringView_Model Vector_Spec Vector_Model Simd_Spec.
Local Open Scope Z_scope.

Definition zlen {A} (l : list A) : Z := Z.of_nat (length l).

(** ** Highway memory operations *)
(** hn::LoadU(d, p + i) *)
Definition loadU {A} (mem : list A) (i N : Z) : outcome (list A) :=
  if (0 <=? i) && (i + N <=? zlen mem) then Ret (window mem i N) else UB.
(** hn::LoadN(d, p + i, n): lanes past n are zero. *)
Definition loadN {A} (zero : A) (mem : list A) (i n N : Z) : outcome (list A) :=
  if (0 <=? i) && (i + n <=? zlen mem) then Ret (window mem i n ++ repeat zero (Z.to_nat (N - n))) else UB.
(** Overwrite [length v] cells from [i]. *)
Definition overwrite {A} (mem : list A) (i : Z) (v : list A) : outcome (list A) :=
  if (0 <=? i) && (i + zlen v <=? zlen mem)
  then Ret (firstn (Z.to_nat i) mem ++ v ++ skipn (Z.to_nat (i + zlen v)) mem) else UB.
(** hn::StoreU(v, d, p + i), hn::StoreN(v, d, p + i, n) *)
Definition storeU {A} := @overwrite A.
Definition storeN {A} (mem : list A) (i : Z) (v : list A) (n : Z) : outcome (list A) :=
  overwrite mem i (firstn (Z.to_nat n) v).

(** The loop `if (count >= N) { for (; idx <= count - N; idx += N) body }` that every function here
    uses: returns the final idx and state.  [fuel] bounds the iterations. *)
Fixpoint simd_loop {S : Type} (fuel : nat) (idx count N : Z) (body : Z -> S -> outcome S) (s : S)
  : outcome (Z * S) :=
  match fuel with
  | O => Hang
  | Datatypes.S fuel =>
      if idx + N <=? count then
        do! s' <- body idx s; simd_loop fuel (idx + N) count N body s'
      else Ret (idx, s)
  end.
Definition fuel_for (count : Z) : nat := Datatypes.S (Z.to_nat count).

(** The same loop when the body may return from the function (inr). *)
Fixpoint simd_search {R : Type} (fuel : nat) (idx count N : Z) (body : Z -> outcome (option R))
  : outcome (Z + R) :=
  match fuel with
  | O => Hang
  | Datatypes.S fuel =>
      if idx + N <=? count then
        do! r <- body idx;
        match r with Some r => Ret (inr r) | None => simd_search fuel (idx + N) count N body end
      else Ret (inl idx)
  end.

(** ** bits.cc *)
(** bits.cc:66-71: count, byte_count, padding_bits *)
Definition byte_count_of (count : Z) : Z :=
  let byte_count := count / 8 in if 0 <? count mod 8 then byte_count + 1 else byte_count.
Definition padding_bits_of (count : Z) : Z := (8 - count mod 8) mod 8.

(** bits.cc:83-84, 92-94, 123-124, 131-134: `out[byte_count - 1] &= (uint8_t)(~0 >> padding_bits)`;
    ~0 is an int, so the shift is arithmetic. *)
Definition clear_padding (out : list Z) (byte_count padding : Z) : outcome (list Z) :=
  if 0 <? padding then
    do! b <- load out (byte_count - 1);
    store out (byte_count - 1) (Z.land b (wrapu 8 (Z.shiftr (-1) padding)))
  else Ret out.

(** hn::Not on a uint8_t lane *)
Definition not8 (b : Z) : Z := wrapu 8 (Z.lnot b).

(** bits.cc:60-95, simd_vector_bits_not_impl.  [src] is read from [out] when the two vectors share
    their buffer ([alias]). *)
Definition bits_not (N : Z) (alias : bool) (src dst : list Z) (count : Z) : outcome (list Z) :=
  let byte_count := byte_count_of count in
  let padding := padding_bits_of count in
  let from out := if alias then out else src in
  do! (idx, out) <- simd_loop (fuel_for byte_count) 0 byte_count N
    (fun idx out => do! v <- loadU (from out) idx N; storeU out idx (map not8 v)) dst;
  if idx =? byte_count then clear_padding out byte_count padding
  else
    let remaining := byte_count - idx in
    do! v <- loadN 0 (from out) idx remaining N;
    do! out <- storeN out idx (map not8 v) remaining;
    clear_padding out byte_count padding.

(** bits.cc:46-58, do_simd_binary_op *)
Inductive logic_op := LAnd | LOr | LXor.
Definition op8 (op : logic_op) (a b : Z) : Z :=
  match op with LAnd => Z.land a b | LOr => Z.lor a b | LXor => Z.lxor a b end.
Fixpoint zip2 {A B C} (f : A -> B -> C) (a : list A) (b : list B) : list C :=
  match a, b with x :: a', y :: b' => f x y :: zip2 f a' b' | _, _ => [] end.

(** bits.cc:97-135, simd_vector_bits_binary_impl; [alias]: dst is left (as in table.cc:658). *)
Definition bits_binary (N : Z) (op : logic_op) (alias : bool) (left right dst : list Z) (count : Z)
  : outcome (list Z) :=
  let byte_count := byte_count_of count in
  let padding := padding_bits_of count in
  let from out := if alias then out else left in
  do! (idx, out) <- simd_loop (fuel_for byte_count) 0 byte_count N
    (fun idx out =>
       do! v1 <- loadU (from out) idx N; do! v2 <- loadU right idx N;
       storeU out idx (zip2 (op8 op) v1 v2)) dst;
  if idx =? byte_count then clear_padding out byte_count padding
  else
    let remaining := byte_count - idx in
    do! v1 <- loadN 0 (from out) idx remaining N;
    do! v2 <- loadN 0 right idx remaining N;
    do! out <- storeN out idx (zip2 (op8 op) v1 v2) remaining;
    clear_padding out byte_count padding.

(** hn::PopulationCount / __builtin_popcount of a byte *)
Definition popcount (b : Z) : Z :=
  sum_list (map (fun k => if Z.testbit b (Z.of_nat k) then 1 else 0) (seq 0 8)).

(** hn::ReduceSum on uint8_t lanes returns a uint8_t. *)
Definition reduce_sum_u8 (v : list Z) : Z := wrapu 8 (sum_list v).

(** bits.cc:148-154, 163-167: subtract the set padding bits. *)
Definition subtract_padding (src : list Z) (byte_count padding n : Z) : outcome Z :=
  if 0 <? padding then
    do! last <- load src (byte_count - 1);
    let mask := wrapu 8 (Z.shiftl (-1) (8 - padding)) in
    Ret (wrapu 64 (n - popcount (Z.land last mask)))
  else Ret n.

(** bits.cc:137-170, simd_vector_count_true_impl *)
Definition count_true (N : Z) (src : list Z) (count : Z) : outcome Z :=
  let byte_count := byte_count_of count in
  let padding := padding_bits_of count in
  do! (idx, n) <- simd_loop (fuel_for byte_count) 0 byte_count N
    (fun idx n => do! v <- loadU src idx N; Ret (wrapu 64 (n + reduce_sum_u8 (map popcount v)))) 0;
  if idx =? byte_count then subtract_padding src byte_count padding n
  else
    let remaining := byte_count - idx in
    do! v <- loadN 0 src idx remaining N;
    let n := wrapu 64 (n + reduce_sum_u8 (map popcount v)) in
    subtract_padding src byte_count padding n.

(** vector.h:224-226, CountFalse() *)
Definition count_false (N : Z) (src : list Z) (count : Z) : outcome Z :=
  do! n <- count_true N src count; Ret (wrapu 64 (count - n)).

(** ** vector_misc.cc: filter *)
(** hn::LoadMaskBits(d, p): reads (N + 7) / 8 bytes and uses their low N bits. *)
Definition load_mask_bits (bytes : list Z) (off N : Z) : outcome (list bool) :=
  if (0 <=? off) && (off + (N + 7) / 8 <=? zlen bytes)
  then Ret (map (fun k => bit_of bytes (8 * off + Z.of_nat k)) (seq 0 (Z.to_nat N))) else UB.

(** vector_misc.cc:323-332, get_mask_bits: the (up to) 16 bits starting at byte idx / 8, shifted so
    that bit 0 is bit idx.  The result is an 8-byte temporary; here its value. *)
Definition get_mask_bits (bytes : list Z) (idx byte_count : Z) : outcome Z :=
  let off := idx / 8 in
  let cursor := idx mod 8 in
  do! b0 <- load bytes off;
  do! two <- (if off + 1 <? byte_count then
                do! b1 <- load bytes (off + 1); Ret (wrapu 16 (Z.lor b0 (Z.shiftl b1 8)))
              else Ret b0);
  Ret (Z.shiftr two cursor).
Definition mask_of_word (w N : Z) : list bool := map (fun k => Z.testbit w (Z.of_nat k)) (seq 0 (Z.to_nat N)).

(** hn::CompressBlendedStore: writes exactly the selected lanes; returns their number. *)
Definition compress_blended_store {A} (out : list A) (off : Z) (mask : list bool) (v : list A)
  : outcome (list A * Z) :=
  let sel := select mask v in
  do! out <- overwrite out off sel; Ret (out, zlen sel).
(** hn::CompressBitsStore: writes all N lanes, the ones after the selected being unspecified
    ([junk]). *)
Definition compress_bits_store {A} (junk : A) (N : Z) (out : list A) (off : Z) (mask : list bool) (v : list A)
  : outcome (list A * Z) :=
  let sel := select mask v in
  do! out <- overwrite out off (sel ++ repeat junk (Z.to_nat (N - zlen sel))); Ret (out, zlen sel).

(** hn::And(hn::FirstN(d, remaining), mask) *)
Definition first_n (mask : list bool) (n : Z) : list bool :=
  firstn (Z.to_nat n) mask ++ repeat false (length mask - Z.to_nat n).

(** vector_misc.cc:370-415, simd_vector_filter_impl: returns the output buffer and out_offset. *)
Definition filter_impl {A} (zero junk : A) (N : Z) (inp : list A) (bytes : list Z) (out : list A) (count : Z)
  : outcome (list A * Z) :=
  let byte_count := (count + 7) / 8 in
  if negb (N mod 8 =? 0) then
    do! (idx, (out, off)) <- simd_loop (fuel_for count) 0 count N
      (fun idx st => let (out, off) := (st : list A * Z) in
         do! v <- loadU inp idx N;
         do! w <- get_mask_bits bytes idx byte_count;
         do! (out, n) <- compress_blended_store out off (mask_of_word w N) v;
         Ret (out, off + n)) (out, 0);
    if idx =? count then Ret (out, off)
    else
      let remaining := count - idx in
      do! v <- loadN zero inp idx remaining N;
      do! w <- get_mask_bits bytes idx byte_count;
      do! (out, n) <- compress_blended_store out off (first_n (mask_of_word w N) remaining) v;
      Ret (out, off + n)
  else
    do! (idx, (out, off)) <- simd_loop (fuel_for count) 0 count N
      (fun idx st => let (out, off) := (st : list A * Z) in
         do! v <- loadU inp idx N;
         do! mask <- load_mask_bits bytes (idx / 8) N;
         do! (out, n) <- compress_bits_store junk N out off mask v;
         Ret (out, off + n)) (out, 0);
    if idx =? count then Ret (out, off)
    else
      let remaining := count - idx in
      do! v <- loadN zero inp idx remaining N;
      do! mask <- load_mask_bits bytes (idx / 8) N;
      do! (out, n) <- compress_blended_store out off (first_n mask remaining) v;
      Ret (out, off + n).

(** vector_misc.cc:499-547, simd_vector_filter for numbers and pointers: [fresh] is the buffer
    NewEmptyVector gives (data.Size() elements); the result vector has the selected length. *)
Definition filter_num {A} (zero junk : A) (N : Z) (data : list A) (bytes : list Z) (fresh : list A)
  : outcome (list A) :=
  do! (out, n) <- filter_impl zero junk N data bytes fresh (zlen data);
  Ret (firstn (Z.to_nat n) out).

(** vector_misc.cc:529-534, simd_vector_filter for StringView: [bytes] is read by operator[]. *)
Definition bit_at (bytes : list Z) (i : Z) : outcome bool := bit_get bytes (mk_vec 0 0 0 false) i.
Fixpoint filter_strings {A} (i : nat) (data : list A) (bytes : list Z) (raw : list A) (cursor : Z)
  : outcome (list A * Z) :=
  match data with
  | [] => Ret (raw, cursor)
  | x :: data' =>
      do! b <- bit_at bytes (Z.of_nat i);
      if b then
        do! raw' <- store raw cursor x; filter_strings (Datatypes.S i) data' bytes raw' (cursor + 1)
      else filter_strings (Datatypes.S i) data' bytes raw cursor
  end.
Definition filter_string {A} (data : list A) (bytes : list Z) (fresh : list A) : outcome (list A) :=
  do! (raw, n) <- filter_strings 0 data bytes fresh 0; Ret (firstn (Z.to_nat n) raw).

(** bit.h:54-55, bits64_set / bits64_clear *)
Definition bits64_set (w i : Z) : Z := wrapu 64 (Z.lor w (Z.shiftl 1 i)).
Definition bits64_clear (w i : Z) : Z := wrapu 64 (Z.land w (Z.lnot (Z.shiftl 1 i))).

(** The [n] bytes of an integer in memory (little-endian); an array of 64-bit words as bytes. *)
Definition word_bytes (w n : Z) : list Z :=
  map (fun k => Z.shiftr w (8 * Z.of_nat k) mod 256) (seq 0 (Z.to_nat n)).
Definition words_bytes (ws : list Z) : list Z := flat_map (fun w => word_bytes w 8) ws.

(** vector_misc.cc:506-521, simd_vector_filter for Bit: the output is an array of zeroed 64-bit words
    (bytes_capacity = (n + 63) / 64 * 8 bytes), seen as the byte buffer of the result vector. *)
Fixpoint filter_bits_loop (n : nat) (i : nat) (data bytes : list Z) (words : list Z) (cursor : Z)
  : outcome (list Z * Z) :=
  match n with
  | O => Ret (words, cursor)
  | Datatypes.S n =>
      do! b <- bit_at bytes (Z.of_nat i);
      if b then
        do! x <- bit_at data (Z.of_nat i);
        do! w <- load words (cursor / 64);
        do! words' <- store words (cursor / 64) (if x then bits64_set w (cursor mod 64) else bits64_clear w (cursor mod 64));
        filter_bits_loop n (Datatypes.S i) data bytes words' (cursor + 1)
      else filter_bits_loop n (Datatypes.S i) data bytes words cursor
  end.
Definition filter_bit (data bytes : list Z) (count : Z) : outcome (list Z * Z) :=
  do! (words, n) <- filter_bits_loop (Z.to_nat count) 0 data bytes (repeat 0 (Z.to_nat ((count + 63) / 64))) 0;
  Ret (words_bytes words, n).

(** ** gather *)
(** vector_misc.cc:553-562 and 258-267: the bounds-checked scalar loop from index [i]. *)
Fixpoint gather_loop {A} (zero : A) (data : list A) (i : nat) (indices : list Z) (dst : list A) : outcome (list A) :=
  match indices with
  | [] => Ret dst
  | ix :: indices' =>
      do! x <- (if (0 <=? ix) && (ix <? zlen data) then load data ix else Ret zero);
      do! dst' <- store dst (Z.of_nat i) x;
      gather_loop zero data (Datatypes.S i) indices' dst'
  end.
(** hn::GatherIndex(d, base, indices): reads base[index] for every lane. *)
Fixpoint gather_index {A} (base : list A) (idx : list Z) : outcome (list A) :=
  match idx with
  | [] => Ret []
  | i :: idx' => do! x <- load base i; do! r <- gather_index base idx'; Ret (x :: r)
  end.
(** vector_misc.cc:224-269, simd_vector_gather_impl (32- and 64-bit elements) *)
Definition gather_impl {A} (zero : A) (N : Z) (data : list A) (indices : list Z) (fresh : list A) : outcome (list A) :=
  let count := zlen indices in
  do! (idx, dst) <- simd_loop (fuel_for count) 0 count N
    (fun idx dst => do! ix <- loadU indices idx N; do! v <- gather_index data ix; storeU dst idx v) fresh;
  if idx =? count then Ret dst
  else gather_loop zero data (Z.to_nat idx) (skipn (Z.to_nat idx) indices) dst.
(** vector_misc.cc:551-563, simd_vector_gather for 8- and 16-bit elements and strings *)
Definition gather_small {A} (zero : A) (data : list A) (indices : list Z) (fresh : list A) : outcome (list A) :=
  gather_loop zero data 0 indices fresh.
(** vector_misc.cc:564-581, simd_vector_gather for Bit: zeroed words, bits set. *)
Fixpoint gather_bits_loop (data : list Z) (size : Z) (i : nat) (indices : list Z) (words : list Z) : outcome (list Z) :=
  match indices with
  | [] => Ret words
  | ix :: indices' =>
      if (ix <? 0) || (size <=? ix) then gather_bits_loop data size (Datatypes.S i) indices' words
      else
        do! x <- bit_at data ix;
        if x then
          let k := Z.of_nat i in
          do! w <- load words (k / 64);
          do! words' <- store words (k / 64) (bits64_set w (k mod 64));
          gather_bits_loop data size (Datatypes.S i) indices' words'
        else gather_bits_loop data size (Datatypes.S i) indices' words
  end.
Definition gather_bit (data : list Z) (size : Z) (indices : list Z) : outcome (list Z) :=
  do! words <- gather_bits_loop data size 0 indices (repeat 0 (Z.to_nat ((zlen indices + 63) / 64)));
  Ret (words_bytes words).

(** ** find *)
(** hn::FindFirstTrue *)
Fixpoint find_first_true (mask : list bool) : option Z :=
  match mask with
  | [] => None
  | true :: _ => Some 0
  | false :: m => match find_first_true m with Some i => Some (i + 1) | None => None end
  end.
(** hwy/contrib/algo/find-inl.h: hn::Find and hn::FindIf with the comparison [p]. *)
Definition hwy_find {A} (zero : A) (N : Z) (p : A -> bool) (data : list A) : outcome Z :=
  let count := zlen data in
  do! r <- simd_search (fuel_for count) 0 count N
    (fun idx => do! v <- loadU data idx N;
       Ret (match find_first_true (map p v) with Some pos => Some (idx + pos) | None => None end));
  match r with
  | inr i => Ret i
  | inl idx =>
      if negb (idx =? count) then
        let remaining := count - idx in
        do! v <- loadN zero data idx remaining N;
        match find_first_true (first_n (map p v) remaining) with
        | Some pos => Ret (idx + pos)
        | None => Ret count
        end
      else Ret count
  end.
(** vector_misc.cc:594-612, simd_vector_find for numbers; vector_misc.cc:272-295 selects hn::Find or
    hn::FindIf with the comparison of the operator. *)
Inductive find_op := FEq | FNe | FGt | FGe | FLt | FLe.
Definition find_cmp (op : find_op) (v x : Z) : bool :=
  match op with
  | FEq => x =? v | FNe => negb (x =? v) | FGt => v <? x | FGe => v <=? x | FLt => x <? v | FLe => x <=? v
  end.
Definition vector_find (N : Z) (op : find_op) (data : list Z) (v : Z) : outcome Z :=
  do! n <- hwy_find 0 N (find_cmp op v) data;
  if n =? zlen data then Ret (-1) else Ret (wraps 32 n).

(** vector_misc.cc:596-602, simd_vector_find for StringView *)
Fixpoint find_string_loop (op : cmp_op) (i : nat) (data : list sv) (v : sv) : outcome Z :=
  match data with
  | [] => Ret (-1)
  | x :: data' =>
      do! b <- compare_string_view op x v;
      if b then Ret (wraps 32 (Z.of_nat i)) else find_string_loop op (Datatypes.S i) data' v
  end.
Definition vector_find_string (op : cmp_op) (data : list sv) (v : sv) : outcome Z := find_string_loop op 0 data v.

(** ** Reductions *)
(** `a += b` on T: 8- and 16-bit operands are promoted to int and the result converted back; signed
    overflow of 32- and 64-bit operands is undefined. *)
Definition add_assign (t : itype) (a b : Z) : outcome Z :=
  if signed t && (32 <=? bits t) then
    if (lowest t <=? a + b) && (a + b <=? highest t) then Ret (a + b) else UB
  else Ret (wrap t (a + b)).
(** hn::ReduceSum: lanes wrap around. *)
Definition reduce_sum (t : itype) (v : list Z) : Z := wrap t (sum_list v).
(** The scalar loop over the rest. *)
Fixpoint sum_rest (t : itype) (l : list Z) (sum : Z) : outcome Z :=
  match l with [] => Ret sum | x :: l' => do! s <- add_assign t sum x; sum_rest t l' s end.
(** vector_misc.cc:140-157, simd_vector_sum_impl *)
Definition vector_sum (t : itype) (N : Z) (data : list Z) : outcome Z :=
  let count := zlen data in
  do! (i, sum) <- simd_loop (fuel_for count) 0 count N
    (fun i sum => do! v <- loadU data i N; add_assign t sum (reduce_sum t v)) 0;
  sum_rest t (skipn (Z.to_nat i) data) sum.
(** vector_misc.cc:489-496, simd_vector_avg: the size is converted to T; the quotient of 8- and 16-bit
    operands is computed in int. *)
Definition vector_avg (t : itype) (N : Z) (data : list Z) : outcome Z :=
  if zlen data =? 0 then Ret 0
  else
    do! sum <- vector_sum t N data;
    let n := wrap t (zlen data) in
    if n =? 0 then UB
    else if signed t && (32 <=? bits t) && (sum =? lowest t) && (n =? -1) then UB
    else Ret (wrap t (Z.quot sum n)).

(** hn::ReduceMax / hn::ReduceMin of N >= 1 lanes *)
Definition reduce_max (v : list Z) : Z := fold_right Z.max (hd 0 v) v.
Definition reduce_min (v : list Z) : Z := fold_right Z.min (hd 0 v) v.
Definition take_max (m x : Z) : Z := if m <? x then x else m.
Definition take_min (m x : Z) : Z := if x <? m then x else m.
(** vector_misc.cc:159-180, simd_vector_reduce_max_impl *)
Definition vector_max (t : itype) (N : Z) (data : list Z) : outcome Z :=
  let count := zlen data in
  do! (i, m) <- simd_loop (fuel_for count) 0 count N
    (fun i m => do! v <- loadU data i N; Ret (take_max m (reduce_max v))) (lowest t);
  Ret (fold_left take_max (skipn (Z.to_nat i) data) m).
(** vector_misc.cc:182-203, simd_vector_reduce_min_impl *)
Definition vector_min (t : itype) (N : Z) (data : list Z) : outcome Z :=
  let count := zlen data in
  do! (i, m) <- simd_loop (fuel_for count) 0 count N
    (fun i m => do! v <- loadU data i N; Ret (take_min m (reduce_min v))) (highest t);
  Ret (fold_left take_min (skipn (Z.to_nat i) data) m).

(** hn::Iota(d, first): lane k is first + k, wrapping. *)
Definition iota_vec (t : itype) (N first : Z) : list Z :=
  map (fun k => wrap t (wrap t first + Z.of_nat k)) (seq 0 (Z.to_nat N)).
(** vector_misc.cc:205-222, simd_vector_iota_impl: start + i is computed on 64 bits. *)
Definition vector_iota (t : itype) (N start n : Z) (fresh : list Z) : outcome (list Z) :=
  let full := n / N * N in
  do! (i, out) <- simd_loop (fuel_for n) 0 full N
    (fun i out => storeU out i (iota_vec t N (wrapu 64 (start + i)))) fresh;
  if i <? n then storeN out i (iota_vec t N (wrapu 64 (start + i))) (n - i) else Ret out.

(** ** match *)
(** vector_misc.cc:334-351, store_mask_bits into the 16-byte buffer; hn::StoreMaskBits writes
    (N + 7) / 8 bytes holding the N mask bits. *)
Definition mask_word (mask : list bool) : Z :=
  fold_right (fun (b : bool) w => (if b then 1 else 0) + 2 * w) 0 mask.
Definition store_mask_bits (N : Z) (mask : list bool) (bytes : list Z) (idx : Z) : outcome (list Z) :=
  let off := idx / 8 in
  let cursor := idx mod 8 in
  if N <? 8 then
    do! b0 <- load bytes off;
    let v := wrapu 16 (Z.lor b0 (Z.shiftl (wrapu 8 (mask_word mask)) cursor)) in
    do! bytes <- store bytes off (wrapu 8 v);
    do! b1 <- load bytes (off + 1);
    store bytes (off + 1) (wrapu 8 (Z.lor b1 (wrapu 8 (Z.shiftr v 8))))
  else overwrite bytes off (word_bytes (mask_word mask) ((N + 7) / 8)).
(** vector_misc.cc:417-449, simd_vector_match_impl for OP_EQUAL: returns max_match_len and the low
    64-bit word of the mask buffer (as its 8 bytes). *)
Definition match_impl (N : Z) (data : list Z) (len cmp : Z) : outcome (Z * list Z) :=
  let max_match_len := if 64 <? len then 64 else len in
  do! (idx, tmp) <- (if N <=? len then
      simd_loop (fuel_for max_match_len) 0 max_match_len N
        (fun idx tmp => do! v <- loadU data idx N;
           store_mask_bits N (map (fun x => x =? cmp) v) tmp idx) (repeat 0 16)
    else Ret (0, repeat 0 16));
  if idx =? max_match_len then Ret (max_match_len, firstn 8 tmp)
  else
    let remaining := max_match_len - idx in
    do! v <- loadN 0 data idx remaining N;
    do! tmp <- store_mask_bits N (map (fun x => x =? cmp) v) tmp idx;
    Ret (max_match_len, firstn 8 tmp).
