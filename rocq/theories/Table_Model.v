(** Model of rapidudf/table/{table.h,table.cc,row.h,row.cc,column.h,column.cc,visitor.h}.

    A table refers to row objects of the user, one array of pointers for each row type ("row set"), and keeps for
    each column a vector that is filled from the row objects when it is first read.  Row counts are below 2^30, the limit
    of the vector type (C15). *)
From Coq Require Import List Bool Arith ZArith.
Import ListNotations.
From Verif Require Import Base Vector_Model Simd_Model.
Local Open Scope Z_scope.

Section Table.
(** Column elements. *)
Context {V : Type}.
(** Lanes of uint64_t and uint8_t in a SIMD register (see Simd_Model), and what fresh memory holds. *)
Variables (lanes64 lanes8 : Z) (garbage : Z).
(** operator== of the element type; [hashable]: DType::Hash of the element is defined (dtype.cc:437-480 converts a
    floating-point number to size_t, which is undefined for negative and for large numbers). *)
Variable veq : V -> V -> bool.
Variable hashable : V -> bool.
(** x86simdsort::keyvalue_qsort and keyvalue_partial_sort: the order they arrive at, as a list of positions. *)
Variable sort_order : list V -> bool -> list nat.
Variable partial_order : list V -> nat -> bool -> list nat.
(** Iteration order of absl::flat_hash_map. *)
Variable shuffle : forall A : Type, list A -> list A.

(** table_schema.h, column.h:31-41: a column is field number [cf_field] of the row type [cf_schema].  [cf_bit]: element type
    Bit; otherwise elements have [cf_width] bytes.  [cf_sortable]: float, double and 32- and 64-bit integers. [cf_plain]: a
    data member of a struct.  Simplified: the element types LoadColumn (table.cc:120-247) supports; types and row
    schemas are numbers. *)
Record col_field := mk_field {
  cf_schema : nat; cf_field : nat; cf_bit : bool; cf_width : Z; cf_sortable : bool; cf_write_back : bool; cf_plain : bool }.
Record schema := mk_schema { sc_id : nat; sc_rows : list nat; sc_columns : list col_field }.

(** Row objects: the field of an object (Column::GetF32 and so on, column.cc; a null pointer has default values). *)
Definition heap : Type := Z -> nat -> V.

(** column.h:86-91 with the vector in the table.  The vector always points at memory_ (column.cc:46, 60, 69); memory_ is
    null ([None]) or has room for [memory_size] bytes, of which the elements in the list have been written.  It belongs to the
    column or is memory of the user, who passed a vector to Set. *)
Inductive owner := Mine | User (u : nat).
Record column := mk_column {
  memory : option (list V); memory_size : Z; owned_by : owner; vec_size : nat; writable : bool }.
Definition new_column : column := mk_column None 0 Mine 0 false.

(** table.h:743-747.  Simplified: indices_ is always a prefix of 0, 1, 2, ... and left out. *)
Record table := mk_table { t_schema : schema; t_rows : list (nat * list Z); t_columns : list column }.
Definition with_rows (rs : list (nat * list Z)) (t : table) : table := mk_table (t_schema t) rs (t_columns t).
Definition with_columns (cs : list column) (t : table) : table := mk_table (t_schema t) (t_rows t) cs.

(** table.cc:64-74. *)
Definition new_table (sc : schema) : table :=
  mk_table sc (map (fun s => (s, [])) (sc_rows sc)) (map (fun _ => new_column) (sc_columns sc)).

(** table.cc:388-394.  Simplified: 0 for a table without row types (it has no columns either). *)
Definition Count (t : table) : nat :=
  match t_rows t with [] => 0%nat | (_, objs) :: _ => length objs end.

(** column.cc:31-43: bytes for [n] elements. *)
Definition bytes_for (f : col_field) (n : nat) : Z :=
  if cf_bit f then (Z.of_nat n + 7) / 8 else cf_width f * Z.of_nat n.
(** column.cc:31-51. *)
Definition ReserveMemory (f : col_field) (n : nat) (c : column) : column :=
  if memory_size c <? bytes_for f n then mk_column (Some []) (bytes_for f n) Mine 0 true else c.
(** column.cc:72. *)
Definition Unload (c : column) : column := mk_column (memory c) (memory_size c) (owned_by c) 0 (writable c).
(** column.cc:63-71. *)
Definition Clear (c : column) : column := mk_column None 0 (owned_by c) 0 false.
(** table.cc:718-728. *)
Definition UnloadAll (t : table) : table := with_columns (map Unload (t_columns t)) t.
Definition ClearAll (t : table) : table := with_columns (map Clear (t_columns t)) t.

(** table.cc:349-358. *)
Fixpoint find_rows (rs : list (nat * list Z)) (s : nat) : option (list Z) :=
  match rs with
  | [] => None
  | (s', objs) :: rs' => if Nat.eqb s' s then Some objs else find_rows rs' s
  end.

(** table.cc:111-118, 120-247: room for Count() elements, one element written for each row object. *)
Definition LoadColumn (h : heap) (n : nat) (f : col_field) (objs : list Z) (c : column) : outcome column :=
  let c := ReserveMemory f n c in
  let vals := map (fun p => h p (cf_field f)) objs in
  if memory_size c <? bytes_for f (length objs) then UB
  else
    match memory c with
    | Some old => Ret (mk_column (Some (vals ++ skipn (length vals) old)) (memory_size c) (owned_by c) n true)
    | None => match objs with [] => Ret (mk_column None (memory_size c) (owned_by c) n true) | _ => UB end
    end.

Definition set_column (k : nat) (c : column) (t : table) : table := with_columns (upd (t_columns t) k c) t.

(** table.cc:360-384; how compiled functions, Dedup and GroupBy read column number [k]. *)
Definition LoadColumnBase (h : heap) (k : nat) (t : table) : outcome (table * column) :=
  match nth_error (t_columns t) k, nth_error (sc_columns (t_schema t)) k with
  | Some c, Some f =>
      if Nat.eqb (vec_size c) 0 then
        match find_rows (t_rows t) (cf_schema f) with
        | None => UB
        | Some objs =>
            do! c' <- LoadColumn h (Count t) f objs c ;
            Ret (set_column k c' t, c')
        end
      else Ret (t, c)
  | _, _ => Err
  end.
(** table.h:587-600, GetColumn, behind Table::Get. *)
Definition Get (h : heap) (k : nat) (t : table) : outcome (table * column) :=
  match nth_error (t_columns t) k with
  | Some c => match memory c with None => LoadColumnBase h k t | Some _ => Ret (t, c) end
  | None => Err
  end.
(** The elements a vector shows; undefined if some were never written. *)
Definition elements (c : column) : outcome (list V) :=
  match memory c with
  | None => if Nat.eqb (vec_size c) 0 then Ret [] else UB
  | Some m => if Nat.leb (vec_size c) (length m) then Ret (firstn (vec_size c) m) else UB
  end.

(** table.h:99-108: memcpy of each element into the field of its object. *)
Definition write_field (h : heap) (p : Z) (n : nat) (v : V) : heap :=
  fun p' n' => if (p' =? p) && Nat.eqb n' n then v else h p' n'.
Fixpoint write_back (h : heap) (n : nat) (objs : list Z) (data : list V) : outcome heap :=
  match objs with
  | [] => Ret h
  | p :: objs' =>
      match data with
      | [] => UB
      | v :: data' => if p =? 0 then UB else write_back (write_field h p n v) n objs' data'
      end
  end.
(** table.h:86-115, column.cc:53-61: the vector [data] of the user's memory [u]; the boolean tells whether Set succeeded.  A Bit
    vector is read as if it had one byte per element (line 104). *)
Definition Set_ (h : heap) (k : nat) (u : nat) (data : list V) (w : bool) (t : table) : outcome (heap * table * bool) :=
  match nth_error (t_columns t) k, nth_error (sc_columns (t_schema t)) k with
  | Some c, Some f =>
      if negb (Nat.eqb (length data) (Count t)) then Ret (h, t, false)
      else
        let t' := set_column k (mk_column (Some data) (bytes_for f (length data)) (User u) (length data) w) t in
        if cf_write_back f && cf_plain f then
          match find_rows (t_rows t) (cf_schema f) with
          | None => UB
          | Some objs =>
              if cf_bit f && (bytes_for f (length data) <? Z.of_nat (length objs)) then UB
              else do! h' <- write_back h (cf_field f) objs data ; Ret (h', t', true)
          end
        else Ret (h, t', true)
  | _, _ => Ret (h, t, false)
  end.
(** table.cc:701-716. *)
Definition UnloadColumn (k : nat) (t : table) : table :=
  match nth_error (t_columns t) k with Some c => set_column k (Unload c) t | None => t end.

(** ** Rows *)
(** table.cc:306-328: from row set to row set, checked one by one. *)
Fixpoint append_each (rs given : list (nat * list Z)) (row_count : nat) : list (nat * list Z) * bool :=
  match rs, given with
  | (s, objs) :: rs', (s', ptrs) :: given' =>
      if negb (Nat.eqb s s') then (rs, false)
      else if negb (Nat.eqb row_count 0) && negb (Nat.eqb row_count (length ptrs)) then (rs, false)
      else
        let row_count' := if Nat.eqb row_count 0 then length ptrs else row_count in
        let (rest, ok) := append_each rs' given' row_count' in
        ((s, objs ++ ptrs) :: rest, ok)
  | _, _ => (rs, true)
  end.
(** table.h:134-148, 623-653, table.cc:306-328: every given vector must have elements and a type of the table. *)
Definition AddRows (given : list (nat * list Z)) (t : table) : table * bool :=
  if existsb (fun g => Nat.eqb (length (snd g)) 0 || negb (existsb (Nat.eqb (fst g)) (sc_rows (t_schema t)))) given
  then (t, false)
  else if negb (Nat.eqb (length given) (length (sc_rows (t_schema t)))) then (t, false)
  else
    let (rs, ok) := append_each (t_rows t) given 0 in
    if ok then (UnloadAll (with_rows rs t), true) else (with_rows rs t, false).

(** row.cc:55-61; table.cc:330-347. *)
Fixpoint insert_each (pos : nat) (rs : list (nat * list Z)) (given : list (nat * Z)) : list (nat * list Z) * bool :=
  match rs, given with
  | (s, objs) :: rs', (s', p) :: given' =>
      if negb (Nat.eqb s s') then (rs, false)
      else if Nat.ltb (length objs) pos then (rs, false)
      else
        let (rest, ok) := insert_each pos rs' given' in
        ((s, firstn pos objs ++ p :: skipn pos objs) :: rest, ok)
  | _, _ => (rs, true)
  end.
(** table.h:150-163, 655-665. *)
Definition InsertRow (pos : nat) (given : list (nat * Z)) (t : table) : table * bool :=
  if existsb (fun g => negb (existsb (Nat.eqb (fst g)) (sc_rows (t_schema t)))) given then (t, false)
  else if negb (Nat.eqb (length given) (length (sc_rows (t_schema t)))) then (t, false)
  else
    let (rs, ok) := insert_each pos (t_rows t) given in
    if ok then (UnloadAll (with_rows rs t), true) else (with_rows rs t, false).
(** table.h:165-169. *)
Definition AppendRow (given : list (nat * Z)) (t : table) : table * bool := InsertRow (Count t) given t.

(** table.cc:75-87, 249-262: the rows, and columns that are not loaded. *)
Definition Clone (t : table) : table := with_columns (map (fun _ => new_column) (sc_columns (t_schema t))) t.

Fixpoint each_rows (g : list Z -> outcome (list Z)) (rs : list (nat * list Z)) : outcome (list (nat * list Z)) :=
  match rs with
  | [] => Ret []
  | (s, objs) :: rs' => do! objs' <- g objs ; do! rest <- each_rows g rs' ; Ret ((s, objs') :: rest)
  end.

(** A vector of Bit: its buffer and its size. *)
Record bits := mk_bits { bit_bytes : list Z; bit_size : nat }.
(** Context::NewEmptyVector<Bit>(n), see C30: whole 64-bit words. *)
Definition fresh_words (n : nat) : list Z := repeat garbage (Z.to_nat ((Z.of_nat n + 63) / 64)).

(** row.cc:30-33: note that the size of the mask is not looked at. *)
Definition filter_rows (m : bits) (objs : list Z) : outcome (list Z) :=
  filter_num 0 garbage lanes64 objs (bit_bytes m) (repeat garbage (length objs)).
(** table.cc:402-413. *)
Definition DoFilter (m : bits) (t : table) : outcome table :=
  do! rs <- each_rows (filter_rows m) (t_rows t) ; Ret (UnloadAll (with_rows rs t)).
Definition Filter (m : bits) (t : table) : outcome table := DoFilter m (Clone t).
(** table.cc:414-420. *)
Definition Split (m : bits) (t : table) : outcome (table * table) :=
  do! other <- bits_not lanes8 false (bit_bytes m) (words_bytes (fresh_words (bit_size m))) (Z.of_nat (bit_size m)) ;
  do! first <- Filter m t ;
  do! second <- Filter (mk_bits other (bit_size m)) t ;
  Ret (first, second).

(** row.cc:35-48. *)
Definition Truncate (k : nat) (objs : list Z) : list Z := if Nat.ltb k (length objs) then firstn k objs else objs.
Definition Truncate_from (pos k : nat) (objs : list Z) : list Z :=
  if Nat.leb (length objs) pos then objs
  else
    let k := if Nat.ltb (length objs) (pos + k) then (length objs - pos)%nat else k in
    firstn k (skipn pos objs).
(** A call returns the table itself or a new one. *)
Inductive produced := Itself | Another (t : table).
Definition map_rows (g : list Z -> list Z) (t : table) : table :=
  with_rows (map (fun r => (fst r, g (snd r))) (t_rows t)) t.
(** table.cc:422-443. *)
Definition Head (k : nat) (t : table) : produced :=
  if Nat.leb (Count t) k then Itself else Another (UnloadAll (map_rows (Truncate k) (Clone t))).
Definition Tail (k : nat) (t : table) : produced :=
  if Nat.leb (Count t) k then Itself
  else Another (map_rows (Truncate_from (Count t - k) k) (UnloadAll (Clone t))).

(** row.cc:50-53. *)
Definition gather_rows (indices : list Z) (objs : list Z) : outcome (list Z) :=
  gather_impl 0 lanes64 objs indices (repeat garbage (length indices)).
(** table.cc:475-497. *)
Definition GatherSubTable (indices : list Z) (t : table) : outcome table :=
  do! rs <- each_rows (gather_rows indices) (t_rows t) ; Ret (ClearAll (with_rows rs (Clone t))).

(** The elements of [l] at the positions [order]. *)
Fixpoint pick {A} (l : list A) (order : list nat) : outcome (list A) :=
  match order with
  | [] => Ret []
  | i :: order' => match nth_error l i with None => UB | Some x => do! r <- pick l order' ; Ret (x :: r) end
  end.
Definition positions (n : nat) : list Z := map Z.of_nat (seq 0 n).

(** table.cc:446-456, 458-473, vector_sort.cc:83-108: the vector [keys] is sorted in place, the indices with it.  Answers the new
    table and what [keys] holds now; the calls throw (Err) for read-only keys and for keys of another length. *)
Definition OrderBy (keys : list V) (w descending : bool) (t : table) : outcome (table * list V) :=
  if negb w || negb (Nat.eqb (length keys) (Count t)) then Err
  else
    let order := sort_order keys descending in
    do! keys' <- pick keys order ;
    do! indices <- pick (positions (Count t)) order ;
    do! rs <- each_rows (gather_rows indices) (t_rows t) ;
    Ret (UnloadAll (with_rows rs (Clone t)), keys').
Definition Topk (keys : list V) (w : bool) (k : nat) (descending : bool) (t : table) : outcome (table * list V) :=
  let k := if Nat.ltb (Count t) k then Count t else k in
  if negb w || negb (Nat.eqb (length keys) (Count t)) then Err
  else
    let order := partial_order keys k descending in
    do! keys' <- pick keys order ;
    do! indices <- pick (positions (Count t)) order ;
    do! rs <- each_rows (gather_rows (firstn k indices)) (t_rows t) ;
    Ret (UnloadAll (with_rows rs (Clone t)), keys').
(** table.cc:499-530: the column as it is (not loaded if it has not been read), so the column of the source table is
    sorted.  Answers the source table and the new one. *)
Definition OrderBy_column (k : nat) (descending : bool) (t : table) : outcome (table * table) :=
  match nth_error (t_columns t) k, nth_error (sc_columns (t_schema t)) k with
  | Some c, Some f =>
      if negb (cf_sortable f) then Err
      else
        do! keys <- elements c ;
        do! (t', keys') <- OrderBy keys (writable c) descending t ;
        let m := match memory c with Some m => Some (keys' ++ skipn (length keys') m) | None => None end in
        Ret (set_column k (mk_column m (memory_size c) (owned_by c) (vec_size c) (writable c)) t, t')
  | _, _ => Err
  end.

(** ** Groups *)
(** table.cc:533-548: a hash map from keys to the row numbers. *)
Fixpoint add_to_group (key : V) (i : Z) (m : list (V * list Z)) : list (V * list Z) :=
  match m with
  | [] => [(key, [i])]
  | (key', l) :: m' => if veq key' key then (key', l ++ [i]) :: m' else (key', l) :: add_to_group key i m'
  end.
Fixpoint group_keys (i : nat) (keys : list V) (m : list (V * list Z)) : list (V * list Z) :=
  match keys with
  | [] => m
  | key :: keys' => group_keys (S i) keys' (add_to_group key (Z.of_nat i) m)
  end.
Fixpoint gather_all (groups : list (list Z)) (t : table) : outcome (list table) :=
  match groups with
  | [] => Ret []
  | g :: groups' => do! t' <- GatherSubTable g t ; do! r <- gather_all groups' t ; Ret (t' :: r)
  end.
(** table.cc:550-556. *)
Definition GroupBy (keys : list V) (t : table) : outcome (list table) :=
  if negb (Nat.eqb (length keys) (Count t)) then Err
  else gather_all (map snd (shuffle _ (group_keys 0 keys []))) t.

(** table.h:556-575, DistinctKey: one element of each key column; of a Bit column nothing is read, DType::Equal is false for it
    (dtype.cc:400-435) and Hash is 0. *)
Definition key_elem : Type := option V.
Fixpoint read_key (i : nat) (cs : list (col_field * column)) : outcome (list key_elem) :=
  match cs with
  | [] => Ret []
  | (f, c) :: cs' =>
      do! e <- (if cf_bit f then Ret None
                else match memory c with
                     | None => UB
                     | Some m => match nth_error m i with Some v => Ret (Some v) | None => UB end
                     end) ;
      do! r <- read_key i cs' ;
      Ret (e :: r)
  end.
Fixpoint keys_equal (a b : list key_elem) : bool :=
  match a, b with
  | [], _ => true
  | x :: a', y :: b' =>
      match x, y with Some x, Some y => veq x y | _, _ => false end && keys_equal a' b'
  | _ :: _, [] => false
  end.
Definition key_hashable (key : list key_elem) : bool :=
  negb (Nat.eqb (length key) 0) && forallb (fun e => match e with Some v => hashable v | None => true end) key.

(** table.cc:651-699: for each different key its first row and the other rows, in the order of the first rows; the hash
    table that is returned is read in another order. *)
Fixpoint add_row (key : list key_elem) (i : Z) (m : list (list key_elem * (Z * list Z))) : list (list key_elem * (Z * list Z)) :=
  match m with
  | [] => [(key, (i, []))]
  | (key', (first, others)) :: m' =>
      if keys_equal key' key then (key', (first, others ++ [i])) :: m' else (key', (first, others)) :: add_row key i m'
  end.
Fixpoint distinct_loop (n i : nat) (cs : list (col_field * column)) (m : list (list key_elem * (Z * list Z)))
  : outcome (list (list key_elem * (Z * list Z))) :=
  match n with
  | O => Ret m
  | S n' =>
      do! key <- read_key i cs ;
      if key_hashable key then distinct_loop n' (S i) cs (add_row key (Z.of_nat i) m) else UB
  end.
Fixpoint load_keys (h : heap) (ks : list nat) (t : table) : outcome (table * list (col_field * column)) :=
  match ks with
  | [] => Ret (t, [])
  | k :: ks' =>
      match nth_error (sc_columns (t_schema t)) k with
      | None => Err
      | Some f =>
          do! (t, c) <- LoadColumnBase h k t ;
          do! (t, cs) <- load_keys h ks' t ;
          Ret (t, (f, c) :: cs)
      end
  end.
Definition DistinctByColumns (h : heap) (ks : list nat) (t : table) : outcome (table * list (Z * list Z)) :=
  do! (t', cs) <- load_keys h ks t ;
  do! m <- distinct_loop (Count t') 0 cs [] ;
  Ret (t', shuffle _ (map snd m)).

(** table.cc:558-568: the rows of a group are the others, then the first. *)
Definition GroupBy_columns (h : heap) (ks : list nat) (t : table) : outcome (table * list table) :=
  do! (t', m) <- DistinctByColumns h ks t ;
  do! ts <- gather_all (map (fun g => snd g ++ [fst g]) m) t' ;
  Ret (t', ts).

(** table.cc:570-590: a uint32_t counter for each value. *)
Fixpoint bump (key : V) (m : list (V * Z)) : Z * list (V * Z) :=
  match m with
  | [] => (0, [(key, 1)])
  | (key', n) :: m' =>
      if veq key' key then (n, (key', wrapu 32 (n + 1)) :: m')
      else let (r, m'') := bump key m' in (r, (key', n) :: m'')
  end.
Fixpoint dedup_flags (k : Z) (data : list V) (m : list (V * Z)) : list bool :=
  match data with
  | [] => []
  | v :: data' => let (n, m') := bump v m in (n <? k) :: dedup_flags k data' m'
  end.
(** bit.h:57-65. *)
Fixpoint set_bits (i : nat) (l : list bool) (words : list Z) : outcome (list Z) :=
  match l with
  | [] => Ret words
  | b :: l' =>
      let j := Z.of_nat i in
      do! w <- load words (j / 64) ;
      do! words' <- store words (j / 64) (if b then bits64_set w (j mod 64) else bits64_clear w (j mod 64)) ;
      set_bits (S i) l' words'
  end.
(** table.cc:592-649. *)
Definition Dedup (h : heap) (col : nat) (k : Z) (t : table) : outcome (table * bits) :=
  match nth_error (sc_columns (t_schema t)) col with
  | None => Err
  | Some f =>
      do! (t', c) <- LoadColumnBase h col t ;
      if cf_bit f then Err
      else
        let n := Count t in
        let m := match memory c with Some m => m | None => [] end in
        if Nat.ltb (length m) n then UB
        else
          do! words <- set_bits 0 (dedup_flags k (firstn n m) []) (fresh_words n) ;
          Ret (t', mk_bits (words_bytes words) n)
  end.

(** table.cc:651-663. *)
Fixpoint distinct_mask (h : heap) (ks : list nat) (select : bits) (t : table) : outcome (table * bits) :=
  match ks with
  | [] => Ret (t, select)
  | k :: ks' =>
      do! (t', mask) <- Dedup h k 1 t ;
      if Nat.eqb (bit_size select) 0 then distinct_mask h ks' mask t'
      else
        do! both <- bits_binary lanes8 LAnd true [] (bit_bytes mask) (bit_bytes select) (Z.of_nat (bit_size select)) ;
        distinct_mask h ks' (mk_bits both (bit_size select)) t'
  end.
Definition Distinct (h : heap) (ks : list nat) (t : table) : outcome table :=
  do! (t', select) <- distinct_mask h ks (mk_bits [] 0) t ;
  DoFilter select t'.

(** ** Whole rows *)
(** table.h:715-728, LoadMutableRow: one pointer from each row set. *)
Fixpoint row_of (rs : list (nat * list Z)) (i : nat) : outcome (list Z) :=
  match rs with
  | [] => Ret []
  | (_, objs) :: rs' =>
      match nth_error objs i with
      | None => UB
      | Some p => do! r <- row_of rs' i ; Ret (p :: r)
      end
  end.
(** One more row for each row set (table.h:366-369). *)
Fixpoint push_row (row : list Z) (sets : list (list Z)) : list (list Z) :=
  match row, sets with
  | p :: row', s :: sets' => (s ++ [p]) :: push_row row' sets'
  | _, _ => sets
  end.
Fixpoint put_sets (rs : list (nat * list Z)) (sets : list (list Z)) : list (nat * list Z) :=
  match rs, sets with
  | (s, _) :: rs', objs :: sets' => (s, objs) :: put_sets rs' sets'
  | _, _ => []
  end.

(** table.h:372-392. *)
Fixpoint merge_rows (merge : list Z -> list Z -> list Z) (rs : list (nat * list Z)) (row : list Z) (others : list Z)
  : outcome (list Z) :=
  match others with
  | [] => Ret row
  | i :: others' => do! r <- row_of rs (Z.to_nat i) ; merge_rows merge rs (merge row r) others'
  end.
Fixpoint merge_groups (merge : list Z -> list Z -> list Z) (rs : list (nat * list Z)) (m : list (Z * list Z)) (sets : list (list Z))
  : outcome (list (list Z)) :=
  match m with
  | [] => Ret sets
  | (first, others) :: m' =>
      do! row <- row_of rs (Z.to_nat first) ;
      do! row <- merge_rows merge rs row others ;
      merge_groups merge rs m' (push_row row sets)
  end.
(** table.h:355-398.  The merge function gets the row so far and the next one and answers a row.  Simplified: called with the row
    types of the table in their order (otherwise Validate fails, table.cc:293-304). *)
Definition DistinctMerge (h : heap) (ks : list nat) (merge : list Z -> list Z -> list Z) (t : table) : outcome table :=
  do! (t', m) <- DistinctByColumns h ks t ;
  do! sets <- merge_groups merge (t_rows t') m (map (fun _ => []) (t_rows t')) ;
  Ret (UnloadAll (with_rows (put_sets (t_rows t') sets) t')).

(** table.cc:751-764: for each row set the first one of the same type; None: another schema. *)
Definition DoConcat (other t : table) : option table :=
  if negb (Nat.eqb (sc_id (t_schema t)) (sc_id (t_schema other))) then None
  else Some (with_rows (map (fun r => match find_rows (t_rows other) (fst r) with
                                      | Some objs => (fst r, snd r ++ objs)
                                      | None => r
                                      end) (t_rows t)) t).
(** table.cc:741-749. *)
Definition Concat (other t : table) : outcome table :=
  match DoConcat other (UnloadAll (Clone t)) with Some t' => Ret t' | None => Err end.
(** table.h:405-413: in place; the columns stay loaded. *)
Definition Merge (h : heap) (other : table) (ks : list nat) (merge : list Z -> list Z -> list Z) (t : table) : outcome table :=
  match DoConcat other t with None => Err | Some t' => DistinctMerge h ks merge t' end.

(** table.h:420-465, Map, with a result of one row type: rows for which the function answers null are left out. *)
Fixpoint map_loop (f : nat -> list Z -> Z) (rs : list (nat * list Z)) (n i : nat) : outcome (list Z) :=
  match n with
  | O => Ret []
  | S n' =>
      do! row <- row_of rs i ;
      do! r <- map_loop f rs n' (S i) ;
      Ret (if f i row =? 0 then r else f i row :: r)
  end.
Definition Map (sc : schema) (s : nat) (f : nat -> list Z -> Z) (t : table) : outcome table :=
  match sc_rows sc with
  | [s'] => if Nat.eqb s' s then do! objs <- map_loop f (t_rows t) (Count t) 0 ; Ret (with_rows [(s, objs)] (new_table sc)) else Err
  | _ => Err
  end.
(** table.h:468-519, FlatMap, likewise. *)
Fixpoint flatmap_loop (f : nat -> list Z -> list Z) (rs : list (nat * list Z)) (n i : nat) : outcome (list Z) :=
  match n with
  | O => Ret []
  | S n' =>
      do! row <- row_of rs i ;
      do! r <- flatmap_loop f rs n' (S i) ;
      Ret (filter (fun p => negb (p =? 0)) (f i row) ++ r)
  end.
Definition FlatMap (sc : schema) (s : nat) (f : nat -> list Z -> list Z) (t : table) : outcome table :=
  match sc_rows sc with
  | [s'] => if Nat.eqb s' s then do! objs <- flatmap_loop f (t_rows t) (Count t) 0 ; Ret (with_rows [(s, objs)] (new_table sc)) else Err
  | _ => Err
  end.

(** table.h:172-186. *)
Definition GetRow (s : nat) (i : nat) (t : table) : outcome Z :=
  if negb (existsb (Nat.eqb s) (sc_rows (t_schema t))) then Err
  else
    match find_rows (t_rows t) s with
    | None => Err
    | Some objs =>
        if Nat.leb (Count t) i then Err
        else match nth_error objs i with Some p => Ret p | None => UB end
    end.

(** ** Foreach *)
(** visitor.h:25. *)
Inductive visit_code := kNext | kExit | kReset.
(** table.h:192-309 without a thread pool: from row [i]; [mask]: None if no mask was given.  A callback changes its own
    state [S] and answers what to do.  The loop may never end, as the callback can ask to start again: Hang when
    the fuel is used up. *)
Fixpoint foreach_from {St} (fuel : nat) (f : St -> nat -> list Z -> St * visit_code) (mask : option (list bool)) (rs : list (nat * list Z))
  (count i : nat) (s : St) : outcome St :=
  match fuel with
  | O => Hang
  | Datatypes.S fuel' =>
      if Nat.leb count i then Ret s
      else if match mask with Some m => nth i m false | None => true end then
        do! row <- row_of rs i ;
        let (s', code) := f s i row in
        match code with
        | kNext => foreach_from fuel' f mask rs count (S i) s'
        | kReset => foreach_from fuel' f mask rs count 0 s'
        | kExit => Ret s'
        end
      else foreach_from fuel' f mask rs count (S i) s
  end.
(** The row sets visited: all of them, or the one of a single row type (table.h:195-204). *)
Definition Foreach {St} (fuel : nat) (types : list nat) (f : St -> nat -> list Z -> St * visit_code) (mask : option (list bool)) (t : table) (s : St)
  : outcome St :=
  let visit rs :=
    match mask with
    | Some m => if Nat.eqb (length m) (Count t) then foreach_from fuel f mask rs (Count t) 0 s else Err
    | None => foreach_from fuel f mask rs (Count t) 0 s
    end in
  match types with
  | [s] => match find_rows (t_rows t) s with Some objs => visit [(s, objs)] | None => Err end
  | _ => if list_eq_dec Nat.eq_dec types (map fst (t_rows t)) then visit (t_rows t) else Err
  end.
(** table.h:684-696. *)
Definition HandleIteratorValue_integer (v : Z) : visit_code := if v =? 0 then kNext else kExit.
End Table.
