(** Model of rapidudf/types/vector.h, rapidudf/types/bit.h, rapidudf/types/vector2d.h and the
    string-comparison lanes of rapidudf/functions/strings.cc. *)
From Coq Require Import List ZArith Bool.
Import ListNotations.
From Verif Require Import Base StringView_Model.
Local Open Scope Z_scope.

(** bit.h:44-45, on uint8_t *)
Definition bit_set (number n : Z) : Z := wrapu 8 (Z.lor number (Z.shiftl 1 n)).
Definition bit_clear (number n : Z) : Z := wrapu 8 (Z.land number (Z.lnot (Z.shiftl 1 n))).

(** A buffer cell; accesses outside the buffer are undefined. *)
Definition load {A} (mem : list A) (i : Z) : outcome A :=
  if i <? 0 then UB
  else match nth_error mem (Z.to_nat i) with Some x => Ret x | None => UB end.
Fixpoint upd {A} (l : list A) (n : nat) (x : A) : list A :=
  match l, n with
  | [], _ => []
  | _ :: l', O => x :: l'
  | y :: l', S n' => y :: upd l' n' x
  end.
Definition store {A} (mem : list A) (i : Z) (x : A) : outcome (list A) :=
  if (i <? 0) || (Z.of_nat (length mem) <=? i) then UB else Ret (upd mem (Z.to_nat i) x).

(** vector.h:124-134: the members.  [data_] is an offset (in elements; in bytes for Bit) into the
    buffer the vector points at. *)
Record vec := mk_vec { data_ : Z; size_ : Z; capacity_ : Z; writable_ : bool }.

(** vector.h:66-79, VectorBase(data, size, capacity, readonly): size_ and capacity_ are 30-bit
    fields. *)
Definition make_vec (data size capacity : Z) (readonly : bool) : vec :=
  let size_ := wrapu 30 size in
  let cap := if capacity =? 0 then size_ else wrapu 30 capacity in
  mk_vec data size_ cap (negb readonly).

(** vector.h:257, Size(); int32_t then size_t, both exact on 30 bits. *)
Definition Size (v : vec) : Z := size_ v.

(** vector.h:172-182, operator[] for Bit: no bounds check. *)
Definition bit_get (mem : list Z) (v : vec) (idx : Z) : outcome bool :=
  do! bits <- load mem (data_ v + idx / 8);
  Ret (0 <? Z.land (Z.shiftr bits (idx mod 8)) 1).

(** vector.h:172-182, operator[] for the other element types. *)
Definition elem_get {A} (mem : list A) (v : vec) (idx : Z) : outcome A := load mem (data_ v + idx).

(** vector.h:195-200: the byte with the element's bit replaced. *)
Definition new_byte (v : bool) (byte cursor : Z) : Z :=
  if v then bit_set byte cursor else bit_clear byte cursor.

(** vector.h:193-204, the loop of Set for Bit on one byte, executed without interference:
    __sync_val_compare_and_swap returns the old value, and the loop leaves iff that is nonzero.
    [fuel] bounds the iterations; running out of it is [Hang]. *)
Fixpoint set_loop (fuel : nat) (byte cursor : Z) (v : bool) : outcome Z :=
  match fuel with
  | O => Hang
  | S fuel =>
      let current := byte in
      let byte' := new_byte v byte cursor in   (* the CAS succeeds: nobody else writes *)
      if negb (current =? 0) then Ret byte' else set_loop fuel byte' cursor v
  end.

(** vector.h:183-206, Set for Bit.  MutableData() is null for a read-only vector. *)
Definition bit_vec_set (fuel : nat) (mem : list Z) (v : vec) (idx : Z) (x : bool) : outcome (list Z) :=
  if Size v <=? idx then Err
  else if negb (writable_ v) then UB
  else
    let byte_idx := data_ v + idx / 8 in
    do! byte <- load mem byte_idx;
    do! byte' <- set_loop fuel byte (idx mod 8) x;
    store mem byte_idx byte'.

(** vector.h:183-206, Set for the other element types. *)
Definition elem_set {A} (mem : list A) (v : vec) (idx : Z) (x : A) : outcome (list A) :=
  if Size v <=? idx then Err
  else if negb (writable_ v) then UB
  else store mem (data_ v + idx) x.

(** vector.h:229-253, Slice(pos, len): pos + len is computed on 32 bits; capacity_ is a 30-bit
    field. *)
Definition Slice (is_bit : bool) (v : vec) (pos len : Z) : outcome vec :=
  if Size v <? wrapu 32 (pos + len) then Err
  else if is_bit then
    if pos mod 8 =? 0 then
      Ret (mk_vec (data_ v + pos / 8) (wrapu 30 len) (wrapu 30 (capacity_ v - pos)) (writable_ v))
    else Err
  else
    Ret (mk_vec (data_ v + pos) (wrapu 30 len) (wrapu 30 (capacity_ v - pos)) (writable_ v)).

(** vector.h:255, Resize(n) = Slice(0, n); n is a size_t converted to uint32_t. *)
Definition Resize (is_bit : bool) (v : vec) (n : Z) : outcome vec := Slice is_bit v 0 (wrapu 32 n).

(** vector.h:261-273, SizeByBytes() *)
Definition SizeByBytes (is_bit : bool) (elem_size : Z) (v : vec) : Z :=
  if is_bit then
    let bytes_n := Size v / 8 in
    if negb (Size v mod 8 =? 0) then bytes_n + 1 else bytes_n
  else Size v * elem_size.

(** ** Concurrent Set calls (vector.h:183-206), one shared byte buffer. *)
(** Where a thread is in the loop body: before line 194; after it (holding current_byte_v); after
    lines 195-200 (which read the byte again); returned. *)
Inductive pc := PLoad | PCompute (cur : Z) | PCas (cur new : Z) | PDone.
(** A thread: the element it sets, the value, and its position. *)
Record thread := mk_thread { t_idx : Z; t_val : bool; t_pc : pc }.

(** One atomic step of one thread. *)
Definition thread_step (mem : list Z) (t : thread) : outcome (list Z * thread) :=
  let b := t_idx t / 8 in
  do! byte <- load mem b;
  match t_pc t with
  | PLoad => Ret (mem, mk_thread (t_idx t) (t_val t) (PCompute byte))
  | PCompute cur =>
      Ret (mem, mk_thread (t_idx t) (t_val t) (PCas cur (new_byte (t_val t) byte (t_idx t mod 8))))
  | PCas cur new =>
      do! mem' <- (if byte =? cur then store mem b new else Ret mem);
      Ret (mem', mk_thread (t_idx t) (t_val t) (if negb (byte =? 0) then PDone else PLoad))
  | PDone => Ret (mem, t)
  end.

(** A schedule is a list of thread numbers; naming a thread that does not exist does nothing. *)
Fixpoint run (sched : list nat) (mem : list Z) (ts : list thread) : outcome (list Z * list thread) :=
  match sched with
  | [] => Ret (mem, ts)
  | n :: sched =>
      match nth_error ts n with
      | None => run sched mem ts
      | Some t => do! (mem', t') <- thread_step mem t; run sched mem' (upd ts n t')
      end
  end.

(** ** functions/strings.cc:39-52, compare_string_views: one unit of string comparisons. *)
Fixpoint compare_lanes (n : nat) (op : cmp_op) (left right : list sv) (ret : list Z) : outcome (list Z) :=
  match n with
  | O => Ret ret
  | S n' =>
      do! ret <- compare_lanes n' op left right ret;
      let i := Z.of_nat n' in
      do! l <- load left i;
      do! r <- load right i;
      do! v <- compare_string_view op l r;
      do! byte <- load ret (i / 8);
      store ret (i / 8) (if v then bit_set byte (i mod 8) else bit_clear byte (i mod 8))
  end.
(** vector.h:32 *)
Definition kVectorUnitSize : nat := 64.
Definition compare_string_views := compare_lanes kVectorUnitSize.

(** ** vector2d.h *)
(** vector2d.h:22-46, JaggedVectors: offsets_ holds uint32_t. *)
Record jagged (A : Type) := mk_jagged { offsets_ : list Z; content_ : list A }.
Arguments mk_jagged {A}. Arguments offsets_ {A}. Arguments content_ {A}.
Definition jagged_empty {A} : jagged A := mk_jagged [] [].
(** vector2d.h:25-28 *)
Definition jagged_add {A} (j : jagged A) (c : list A) : jagged A :=
  mk_jagged (offsets_ j ++ [wrapu 32 (Z.of_nat (length (content_ j)))]) (content_ j ++ c).
(** vector2d.h:37-43, GetOffset *)
Definition jagged_offset {A} (j : jagged A) (index : Z) : outcome Z :=
  if index =? 0 then Ret 0 else load (offsets_ j) (index - 1).
(** vector2d.h:36, GetLength: uint32_t minus size_t, a size_t. *)
Definition jagged_length {A} (j : jagged A) (index : Z) : outcome Z :=
  do! a <- load (offsets_ j) index;
  do! b <- jagged_offset j index;
  Ret (wrapu 64 (a - b)).
(** absl::Span::subspan(pos, len): throws when pos > size(), else len is clipped. *)
Definition subspan {A} (l : list A) (pos len : Z) : outcome (list A) :=
  if Z.of_nat (length l) <? pos then Err
  else Ret (firstn (Z.to_nat (Z.min (Z.of_nat (length l) - pos) len)) (skipn (Z.to_nat pos) l)).
(** vector2d.h:29-31, Get *)
Definition jagged_get {A} (j : jagged A) (index : Z) : outcome (list A) :=
  do! off <- jagged_offset j index;
  do! len <- jagged_length j index;
  subspan (content_ j) off len.
(** vector2d.h:32 *)
Definition jagged_size {A} (j : jagged A) : Z := Z.of_nat (length (offsets_ j)).

(** vector2d.h:48-68, FixedSizeVectors *)
Record fixedv (A : Type) := mk_fixed { f_size : Z; f_content : list A }.
Arguments mk_fixed {A}. Arguments f_size {A}. Arguments f_content {A}.
(** vector2d.h:52-58 *)
Definition fixed_add {A} (f : fixedv A) (c : list A) : bool * fixedv A :=
  if negb (Z.of_nat (length c) =? f_size f) then (false, f)
  else (true, mk_fixed (f_size f) (f_content f ++ c)).
(** vector2d.h:59-61 *)
Definition fixed_get {A} (f : fixedv A) (index : Z) : outcome (list A) :=
  subspan (f_content f) (wrapu 64 (index * f_size f)) (f_size f).
(** vector2d.h:62: an integer division. *)
Definition fixed_count {A} (f : fixedv A) : outcome Z :=
  if f_size f =? 0 then UB else Ret (Z.of_nat (length (f_content f)) / f_size f).
