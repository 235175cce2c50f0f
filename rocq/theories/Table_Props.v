(** C47 - C53, C68, C69: tables. *)
From Coq Require Import List Bool Arith ZArith Lia Sorted Permutation.
Import ListNotations.
From Verif Require Import Base Simd_Spec Vector_Spec Vector_Model Vector_Proofs Table_Model Table_Spec Table_Proofs TableRows_Proofs TableColumns_Proofs
  TableGroup_Proofs TableDedup_Proofs TableHistory_Proofs TableWrong_Proofs TableReach_Proofs TableSet_Proofs Table_Example.
Local Open Scope Z_scope.

(** [reachable]: a table made by any history of calls of a careful user (Table_Spec, [valid]); [fair]: the processor, the sorting library and the
    hash map do what they should.  Both are met by [example_table]: *)
Example reachable_example :
  fair 4 32 Z.eqb isort (fun keys _ desc => isort keys desc) (fun A l => rev l) Z.le /\
  reachable 4 32 0 Z.eqb (fun _ => true) isort (fun keys _ desc => isort keys desc) (fun A l => rev l) example_heap example_table /\
  records example_table = [[11; 5]; [21; 5]; [12; 6]; [11; 7]].
Proof. exact (conj fair_example (conj example_reachable eq_refl)). Qed.

(** ** C47: adding rows *)

(** After any history of a careful user every row set of a table has the same number of rows. *)
Theorem C47_aligned : forall (V : Type) (lanes64 lanes8 garbage : Z) (veq : V -> V -> bool) (hashable : V -> bool)
    (sort_order : list V -> bool -> list nat) (partial_order : list V -> nat -> bool -> list nat)
    (shuffle : forall A : Type, list A -> list A) (le : V -> V -> Prop),
  fair lanes64 lanes8 veq sort_order partial_order shuffle le ->
  forall h t, reachable lanes64 lanes8 garbage veq hashable sort_order partial_order shuffle h t -> proper (t_schema t) /\ of_schema t /\ aligned t.
Proof. exact @reach_aligned. Qed.
Print Assumptions C47_aligned.

(** A successful AddRows was given as many objects of each row type, and appended these records. *)
Theorem C47_added : forall V given (t t' : @table V),
  of_schema t -> aligned t -> AddRows given t = (t', true) ->
  t_schema t' = t_schema t /\ of_schema t' /\ aligned t' /\ records t' = records t ++ records_of given.
Proof. exact @add_success. Qed.
Print Assumptions C47_added.

(** It succeeds exactly for such objects. *)
Theorem C47_accepted : forall V given (t : @table V),
  of_schema t -> aligned t -> ((exists t', AddRows given t = (t', true)) <-> acceptable given (t_schema t)).
Proof. exact @add_iff. Qed.
Print Assumptions C47_accepted.

(** InsertRow puts the record before the one at the position. *)
Theorem C47_inserted : forall V pos given (t t' : @table V),
  of_schema t -> aligned t -> sc_rows (t_schema t) <> [] -> InsertRow pos given t = (t', true) ->
  t_schema t' = t_schema t /\ of_schema t' /\ aligned t' /\ records t' = firstn pos (records t) ++ map snd given :: skipn pos (records t).
Proof. exact @insert_success. Qed.
Print Assumptions C47_inserted.

(** It succeeds exactly for an object of each row type and a position up to the number of rows. *)
Theorem C47_insert_accepted : forall V pos given (t : @table V),
  of_schema t -> aligned t -> sc_rows (t_schema t) <> [] ->
  ((exists t', InsertRow pos given t = (t', true)) <-> map fst given = sc_rows (t_schema t) /\ (pos <= Count t)%nat).
Proof. exact @insert_iff. Qed.
Print Assumptions C47_insert_accepted.

(** AppendRow puts it at the end. *)
Theorem C47_appended : forall V given (t : @table V),
  of_schema t -> aligned t -> sc_rows (t_schema t) <> [] -> map fst given = sc_rows (t_schema t) ->
  exists t', AppendRow given t = (t', true) /\ t_schema t' = t_schema t /\ of_schema t' /\ aligned t' /\ records t' = records t ++ [map snd given].
Proof. exact @append_success. Qed.
Print Assumptions C47_appended.

(** A call that fails leaves a table of a single row type as it was.  Full statement: a table of any schema; refuted below. *)
Theorem C47_failed_partial : forall V (t t' : @table V) s, of_schema t -> sc_rows (t_schema t) = [s] ->
  (forall given, AddRows given t = (t', false) -> t' = t) /\
  (forall pos given, InsertRow pos given t = (t', false) -> t' = t).
Proof. exact (fun V t t' s O S => conj (fun given => AddRows_single given t t' s O S) (fun pos given => InsertRow_single pos given t t' s O S)). Qed.
Print Assumptions C47_failed_partial.

(** AddRows with different numbers of objects of two row types fails and leaves the row sets unequal. *)
Theorem C47_failed_add_refuted : forall V (t : @table V) s1 s2 rest a b more,
  of_schema t -> aligned t -> sc_rows (t_schema t) = s1 :: s2 :: rest -> a <> [] -> b <> [] -> length a <> length b ->
  map fst more = rest -> (forall g, In g more -> snd g <> []) ->
  exists t', AddRows ((s1, a) :: (s2, b) :: more) t = (t', false) /\ ~ aligned t' /\ Count t' = (Count t + length a)%nat.
Proof. exact @AddRows_torn. Qed.
Print Assumptions C47_failed_add_refuted.

(** So does InsertRow with two objects of the first row type. *)
Theorem C47_failed_insert_refuted : forall V (t : @table V) s1 s2 rest p q more pos,
  of_schema t -> aligned t -> sc_rows (t_schema t) = s1 :: s2 :: rest -> s1 <> s2 -> (pos <= Count t)%nat ->
  length more = length rest -> (forall g, In g more -> In (fst g) (sc_rows (t_schema t))) ->
  exists t', InsertRow pos ((s1, p) :: (s1, q) :: more) t = (t', false) /\ ~ aligned t' /\ Count t' = S (Count t).
Proof. exact @InsertRow_torn. Qed.
Print Assumptions C47_failed_insert_refuted.

(** Reading a column of the second row type is then undefined. *)
Theorem C47_torn_read_refuted : forall (V : Type) (lanes64 lanes8 garbage : Z) (veq : V -> V -> bool) (hashable : V -> bool)
    (sort_order : list V -> bool -> list nat) (partial_order : list V -> nat -> bool -> list nat)
    (shuffle : forall A : Type, list A -> list A) (le : V -> V -> Prop),
  fair lanes64 lanes8 veq sort_order partial_order shuffle le ->
  forall h k f t s1 s2 rest a b more,
  reachable lanes64 lanes8 garbage veq hashable sort_order partial_order shuffle h t -> not_loaded t ->
  sc_rows (t_schema t) = s1 :: s2 :: rest -> a <> [] -> b <> [] -> length a <> length b ->
  map fst more = rest -> (forall g, In g more -> snd g <> []) -> nth_error (sc_columns (t_schema t)) k = Some f -> cf_schema f = s2 ->
  exists t1 t2 c, AddRows ((s1, a) :: (s2, b) :: more) t = (t1, false) /\ LoadColumnBase h k t1 = Ret (t2, c) /\ elements c = UB.
Proof. exact @reach_torn_read. Qed.
Print Assumptions C47_torn_read_refuted.

Example C47_example :
  of_schema example_table /\ aligned example_table /\ not_loaded example_table /\ acceptable example_rows (t_schema example_table) /\
  snd (AddRows [(7%nat, [11; 12]); (9%nat, [5])] example_table) = false /\
  map (fun r => length (snd r)) (t_rows (fst (AddRows [(7%nat, [11; 12]); (9%nat, [5])] example_table))) = [6; 4]%nat.
Proof. exact (conj example_of_schema (conj example_aligned (conj example_not_loaded (conj example_acceptable (conj eq_refl eq_refl))))). Qed.


(** ** C48: rows as lists *)

(** Filter keeps the selected rows. *)
Theorem C48_filter : forall V lanes64 lanes8 garbage,
  machine lanes64 lanes8 -> forall m (t : @table V), of_schema t -> aligned t -> mask_for m (Count t) ->
  exists t', Filter lanes64 garbage m t = Ret t' /\ t_schema t' = t_schema t /\ of_schema t' /\ aligned t' /\
    records t' = select (flags m (Count t)) (records t).
Proof. exact @Filter_ok. Qed.
Print Assumptions C48_filter.

(** Split answers the selected rows and the others. *)
Theorem C48_split : forall V lanes64 lanes8 garbage,
  machine lanes64 lanes8 -> forall m (t : @table V), of_schema t -> aligned t -> mask_for m (Count t) -> bit_size m = Count t ->
  exists a b, Split lanes64 lanes8 garbage m t = Ret (a, b) /\
    (t_schema a = t_schema t /\ of_schema a /\ aligned a /\ records a = select (flags m (Count t)) (records t)) /\
    t_schema b = t_schema t /\ of_schema b /\ aligned b /\ records b = select (map negb (flags m (Count t))) (records t).
Proof. exact @Split_ok. Qed.
Print Assumptions C48_split.

(** Head(k): the first k rows, or all if there are fewer. *)
Theorem C48_head : forall V k (t : @table V), of_schema t -> aligned t ->
  let t' := shown (Head k t) t in t_schema t' = t_schema t /\ of_schema t' /\ aligned t' /\ records t' = firstn k (records t).
Proof. exact @head_min. Qed.
Print Assumptions C48_head.

(** Tail(k): the last k rows, or all if there are fewer.  Full statement: also for k = 0; refuted below. *)
Theorem C48_tail_partial : forall V k (t : @table V), of_schema t -> aligned t -> (0 < k)%nat ->
  let t' := shown (Tail k t) t in t_schema t' = t_schema t /\ of_schema t' /\ aligned t' /\ records t' = skipn (Count t - k) (records t).
Proof. exact @tail_min. Qed.
Print Assumptions C48_tail_partial.

(** Tail(0) answers all rows. *)
Theorem C48_tail_zero_refuted : forall V (t : @table V), of_schema t -> aligned t -> (0 < Count t)%nat ->
  exists t', Tail 0 t = Another t' /\ records t' = records t.
Proof. exact @Tail_zero. Qed.
Print Assumptions C48_tail_zero_refuted.

(** If there are no more than k rows, Head and Tail answer the table itself, not a new one. *)
Theorem C48_head_tail_itself_refuted : forall V k (t : @table V), (Count t <= k)%nat -> Head k t = Itself /\ Tail k t = Itself.
Proof. exact @Head_all. Qed.
Print Assumptions C48_head_tail_itself_refuted.

(** Concat: the rows of both. *)
Theorem C48_concat : forall V (other t : @table V),
  of_schema t -> of_schema other -> t_schema other = t_schema t -> NoDup (sc_rows (t_schema t)) -> aligned t -> aligned other ->
  exists t', Concat other t = Ret t' /\ t_schema t' = t_schema t /\ of_schema t' /\ aligned t' /\ records t' = records t ++ records other.
Proof. exact @Concat_ok. Qed.
Print Assumptions C48_concat.

(** Tables of different schemas are rejected. *)
Theorem C48_concat_other : forall V (other t : @table V), sc_id (t_schema t) <> sc_id (t_schema other) -> Concat other t = Err.
Proof. exact @Concat_other. Qed.
Print Assumptions C48_concat_other.

(** Filter does not check the mask: an empty one is read out of bounds. *)
Theorem C48_empty_mask_refuted : forall V lanes64 lanes8 garbage,
  machine lanes64 lanes8 -> forall n (t : @table V), (0 < Count t)%nat -> Filter lanes64 garbage (mk_bits [] n) t = UB.
Proof. exact @Filter_no_mask. Qed.
Print Assumptions C48_empty_mask_refuted.

Example C48_example :
  let m := mk_bits [5] 4 in
  machine 4 32 /\ mask_for m (Count example_table) /\ bit_size m = Count example_table /\
  obind (Split 4 32 0 m example_table) (fun r => Ret (records (fst r), records (snd r))) = Ret ([[11; 5]; [12; 6]], [[21; 5]; [11; 7]]) /\
  records (shown (Head 3 example_table) example_table) = [[11; 5]; [21; 5]; [12; 6]] /\
  records (shown (Tail 1 example_table) example_table) = [[11; 7]] /\
  obind (Concat example_table example_table) (fun t => Ret (Count t)) = Ret 8%nat.
Proof.
  split; [exact (proj1 fair_example)|]. split; [split; [repeat constructor; lia|cbn; lia]|]. vm_compute. repeat split.
Qed.


(** ** C49: groups *)

(** GroupBy(keys): a table for each group of equal keys, the rows in the order of the table. *)
Theorem C49_group_by_keys : forall V lanes64 lanes8 garbage,
  machine lanes64 lanes8 -> forall veq shuffle keys (t : @table V), of_schema t -> aligned t -> length keys = Count t -> equality veq ->
  (forall A (l : list A), Permutation (shuffle A l) l) ->
  exists gs ts, GroupBy lanes64 garbage veq shuffle keys t = Ret ts /\ grouped veq keys gs /\ Forall increasing gs /\
    Forall2 (table_of_group t) gs ts.
Proof. exact @GroupBy_ok. Qed.
Print Assumptions C49_group_by_keys.

(** Keys that are not one for each row are rejected. *)
Theorem C49_group_by_keys_bad : forall V lanes64 garbage veq shuffle keys (t : @table V), length keys <> Count t -> GroupBy lanes64 garbage veq shuffle keys t = Err.
Proof. exact @group_bad. Qed.
Print Assumptions C49_group_by_keys_bad.

(** GroupBy(columns): a table for each group of equal values, with the first row put last.  Full statement: in the order of the table (refuted
    below), and for columns of type Bit (refuted below). *)
Theorem C49_group_by_columns_partial : forall (V : Type) (lanes64 lanes8 garbage : Z) (veq : V -> V -> bool) (hashable : V -> bool)
    (sort_order : list V -> bool -> list nat) (partial_order : list V -> nat -> bool -> list nat)
    (shuffle : forall A : Type, list A -> list A) (le : V -> V -> Prop),
  fair lanes64 lanes8 veq sort_order partial_order shuffle le ->
  forall h t ks fs,
  reachable lanes64 lanes8 garbage veq hashable sort_order partial_order shuffle h t -> fields_of t ks fs -> good_keys hashable h t fs ->
  exists t' gs ts, GroupBy_columns lanes64 garbage veq hashable shuffle h ks t = Ret (t', ts) /\ same_rows t t' /\
    grouped (same_key veq) (row_keys h t fs) gs /\ Forall increasing gs /\ Forall2 (table_of_group t) (map first_last gs) ts.
Proof. exact @reach_group. Qed.
Print Assumptions C49_group_by_columns_partial.

(** No group of two or more rows is in the order of the table. *)
Theorem C49_order_refuted : forall (V : Type) (lanes64 lanes8 garbage : Z) (veq : V -> V -> bool) (hashable : V -> bool)
    (sort_order : list V -> bool -> list nat) (partial_order : list V -> nat -> bool -> list nat)
    (shuffle : forall A : Type, list A -> list A) (le : V -> V -> Prop),
  fair lanes64 lanes8 veq sort_order partial_order shuffle le ->
  forall h t ks fs,
  reachable lanes64 lanes8 garbage veq hashable sort_order partial_order shuffle h t -> fields_of t ks fs -> good_keys hashable h t fs ->
  exists t' gs ts, GroupBy_columns lanes64 garbage veq hashable shuffle h ks t = Ret (t', ts) /\
    Forall2 (table_of_group t) gs ts /\ Forall (fun g => (2 <= length g)%nat -> ~ increasing g) gs.
Proof. exact @reach_group_order. Qed.
Print Assumptions C49_order_refuted.

(** By a column of type Bit every row is a group of its own. *)
Theorem C49_bit_refuted : forall (V : Type) (lanes64 lanes8 garbage : Z) (veq : V -> V -> bool) (hashable : V -> bool)
    (sort_order : list V -> bool -> list nat) (partial_order : list V -> nat -> bool -> list nat)
    (shuffle : forall A : Type, list A -> list A) (le : V -> V -> Prop),
  fair lanes64 lanes8 veq sort_order partial_order shuffle le ->
  forall h t k f,
  reachable lanes64 lanes8 garbage veq hashable sort_order partial_order shuffle h t -> nth_error (sc_columns (t_schema t)) k = Some f -> cf_bit f = true ->
  exists t' order ts, GroupBy_columns lanes64 garbage veq hashable shuffle h [k] t = Ret (t', ts) /\
    Permutation order (seq 0 (Count t)) /\ Forall2 (table_of_group t) (map (fun i => [i]) order) ts.
Proof. exact @reach_bit. Qed.
Print Assumptions C49_bit_refuted.

Example C49_example :
  obind (GroupBy 4 0 Z.eqb (fun A l => rev l) [4; 5; 4; 4] example_table) (fun l => Ret (map records l))
    = Ret [[[21; 5]]; [[11; 5]; [12; 6]; [11; 7]]] /\
  (exists fs, fields_of example_table [0; 1]%nat fs /\ good_keys (fun _ => true) example_heap example_table fs) /\
  obind (GroupBy_columns 4 0 Z.eqb (fun _ => true) (fun A l => rev l) example_heap [0]%nat example_table) (fun r => Ret (map records (snd r)))
    = Ret [[[12; 6]]; [[21; 5]; [11; 7]; [11; 5]]].
Proof.
  split; [vm_compute; reflexivity|]. split; [|vm_compute; reflexivity]. eexists. split; [repeat constructor|]. split; [discriminate|]. split; repeat constructor.
Qed.


(** ** C50: the first rows of each value *)

(** Dedup(column, k) marks exactly the rows with fewer than k equal ones before them. *)
Theorem C50_mask : forall (V : Type) (lanes64 lanes8 garbage : Z) (veq : V -> V -> bool) (hashable : V -> bool)
    (sort_order : list V -> bool -> list nat) (partial_order : list V -> nat -> bool -> list nat)
    (shuffle : forall A : Type, list A -> list A) (le : V -> V -> Prop),
  fair lanes64 lanes8 veq sort_order partial_order shuffle le ->
  forall h t col k f,
  reachable lanes64 lanes8 garbage veq hashable sort_order partial_order shuffle h t -> nth_error (sc_columns (t_schema t)) col = Some f -> cf_bit f = false ->
  Z.of_nat (Count t) < 2 ^ 32 ->
  exists t' m, Dedup garbage veq h col k t = Ret (t', m) /\ same_rows t t' /\
    bit_size m = Count t /\ flags m (Count t) = first_few veq k (column_values h t f).
Proof. exact @reach_dedup. Qed.
Print Assumptions C50_mask.

(** Filtered by that mask, the table has these rows in order. *)
Theorem C50_filter : forall (V : Type) (lanes64 lanes8 garbage : Z) (veq : V -> V -> bool) (hashable : V -> bool)
    (sort_order : list V -> bool -> list nat) (partial_order : list V -> nat -> bool -> list nat)
    (shuffle : forall A : Type, list A -> list A) (le : V -> V -> Prop),
  fair lanes64 lanes8 veq sort_order partial_order shuffle le ->
  forall h t col k f,
  reachable lanes64 lanes8 garbage veq hashable sort_order partial_order shuffle h t -> nth_error (sc_columns (t_schema t)) col = Some f -> cf_bit f = false ->
  Z.of_nat (Count t) < 2 ^ 32 ->
  exists t' m t2, Dedup garbage veq h col k t = Ret (t', m) /\ Filter lanes64 garbage m t' = Ret t2 /\ t_schema t2 = t_schema t /\ aligned t2 /\
    records t2 = select (first_few veq k (column_values h t f)) (records t).
Proof. exact @reach_dedup_filter. Qed.
Print Assumptions C50_filter.

Example C50_example :
  first_few Z.eqb 2 [1; 1; 2; 1; 2; 2] = [true; true; true; false; true; false] /\
  obind (Dedup 0 Z.eqb example_heap 0 2 example_table) (fun r => Ret (flags (snd r) 4)) = Ret [true; true; true; false].
Proof. vm_compute. split; reflexivity. Qed.


(** ** C51: distinct rows *)

(** Distinct(column): the first row with each value.  Full statement: of any columns, the first row with each combination; refuted below. *)
Theorem C51_one_column_partial : forall (V : Type) (lanes64 lanes8 garbage : Z) (veq : V -> V -> bool) (hashable : V -> bool)
    (sort_order : list V -> bool -> list nat) (partial_order : list V -> nat -> bool -> list nat)
    (shuffle : forall A : Type, list A -> list A) (le : V -> V -> Prop),
  fair lanes64 lanes8 veq sort_order partial_order shuffle le ->
  forall h t k f,
  reachable lanes64 lanes8 garbage veq hashable sort_order partial_order shuffle h t -> nth_error (sc_columns (t_schema t)) k = Some f -> cf_bit f = false ->
  Z.of_nat (Count t) < 2 ^ 32 ->
  exists t', Distinct lanes64 lanes8 garbage veq h [k] t = Ret t' /\ t_schema t' = t_schema t /\ aligned t' /\
    records t' = select (first_few veq 1 (column_values h t f)) (records t).
Proof. exact @reach_distinct_one. Qed.
Print Assumptions C51_one_column_partial.

(** Distinct(columns): the rows that are the first with their value in every one of the columns. *)
Theorem C51_columns : forall (V : Type) (lanes64 lanes8 garbage : Z) (veq : V -> V -> bool) (hashable : V -> bool)
    (sort_order : list V -> bool -> list nat) (partial_order : list V -> nat -> bool -> list nat)
    (shuffle : forall A : Type, list A -> list A) (le : V -> V -> Prop),
  fair lanes64 lanes8 veq sort_order partial_order shuffle le ->
  forall h t ks fs,
  reachable lanes64 lanes8 garbage veq hashable sort_order partial_order shuffle h t -> fields_of t ks fs -> fs <> [] -> Forall (fun f => cf_bit f = false) fs ->
  Z.of_nat (Count t) < 2 ^ 32 ->
  exists t', Distinct lanes64 lanes8 garbage veq h ks t = Ret t' /\ t_schema t' = t_schema t /\ aligned t' /\
    records t' = select (first_in_each veq h t fs) (records t).
Proof. exact @reach_distinct. Qed.
Print Assumptions C51_columns.

(** So a row is lost if one of the columns repeats an earlier value, whatever is in the other columns. *)
Theorem C51_columns_refuted : forall (V : Type) (lanes64 lanes8 garbage : Z) (veq : V -> V -> bool) (hashable : V -> bool)
    (sort_order : list V -> bool -> list nat) (partial_order : list V -> nat -> bool -> list nat)
    (shuffle : forall A : Type, list A -> list A) (le : V -> V -> Prop),
  fair lanes64 lanes8 veq sort_order partial_order shuffle le ->
  forall h t ks fs f i j vi vj,
  reachable lanes64 lanes8 garbage veq hashable sort_order partial_order shuffle h t -> fields_of t ks fs -> Forall (fun f => cf_bit f = false) fs ->
  Z.of_nat (Count t) < 2 ^ 32 -> In f fs -> (j < i < Count t)%nat ->
  nth_error (column_values h t f) i = Some vi -> nth_error (column_values h t f) j = Some vj -> veq vj vi = true ->
  exists t' fl, Distinct lanes64 lanes8 garbage veq h ks t = Ret t' /\ length fl = Count t /\ records t' = select fl (records t) /\ nth i fl true = false.
Proof. exact @reach_distinct_loses. Qed.
Print Assumptions C51_columns_refuted.

(** Distinct of no column reads an empty mask. *)
Theorem C51_no_columns_refuted : forall V lanes64 lanes8 garbage,
  machine lanes64 lanes8 -> forall veq h (t : @table V), (0 < Count t)%nat -> Distinct lanes64 lanes8 garbage veq h [] t = UB.
Proof. exact @Distinct_no_columns. Qed.
Print Assumptions C51_no_columns_refuted.

(** Distinct with a merge function: one row for each combination, the merge of its rows in order. *)
Theorem C51_distinct_merge : forall (V : Type) (lanes64 lanes8 garbage : Z) (veq : V -> V -> bool) (hashable : V -> bool)
    (sort_order : list V -> bool -> list nat) (partial_order : list V -> nat -> bool -> list nat)
    (shuffle : forall A : Type, list A -> list A) (le : V -> V -> Prop),
  fair lanes64 lanes8 veq sort_order partial_order shuffle le ->
  forall h t ks fs merge,
  reachable lanes64 lanes8 garbage veq hashable sort_order partial_order shuffle h t -> fields_of t ks fs -> good_keys hashable h t fs ->
  keeps_width merge (length (sc_rows (t_schema t))) ->
  exists t' gs, DistinctMerge veq hashable shuffle h ks merge t = Ret t' /\ t_schema t' = t_schema t /\ aligned t' /\
    grouped (same_key veq) (row_keys h t fs) gs /\ Forall increasing gs /\ records t' = map (merged merge (records t)) gs.
Proof. exact @reach_distinct_merge. Qed.
Print Assumptions C51_distinct_merge.

(** Merge: the same of the rows of both tables, if no column of the table has been read.  Full statement: whichever were read; refuted below. *)
Theorem C51_merge_partial : forall (V : Type) (lanes64 lanes8 garbage : Z) (veq : V -> V -> bool) (hashable : V -> bool)
    (sort_order : list V -> bool -> list nat) (partial_order : list V -> nat -> bool -> list nat)
    (shuffle : forall A : Type, list A -> list A) (le : V -> V -> Prop),
  fair lanes64 lanes8 veq sort_order partial_order shuffle le ->
  forall h other t ks fs merge,
  reachable lanes64 lanes8 garbage veq hashable sort_order partial_order shuffle h t -> reachable lanes64 lanes8 garbage veq hashable sort_order partial_order shuffle h other ->
  not_loaded t -> t_schema other = t_schema t -> fields_of t ks fs ->
  (forall t', t_schema t' = t_schema t -> records t' = records t ++ records other -> good_keys hashable h t' fs) ->
  keeps_width merge (length (sc_rows (t_schema t))) ->
  exists t' gs, Merge veq hashable shuffle h other ks merge t = Ret t' /\ t_schema t' = t_schema t /\ aligned t' /\
    grouped (same_key veq) (map (key_of h t fs) (records t ++ records other)) gs /\ Forall increasing gs /\
    records t' = map (merged merge (records t ++ records other)) gs.
Proof. exact @reach_merge. Qed.
Print Assumptions C51_merge_partial.

(** Merging tables of different schemas is an error. *)
Theorem C51_merge_other : forall V veq hashable shuffle h ks merge (other t : @table V), sc_id (t_schema t) <> sc_id (t_schema other) ->
  Merge veq hashable shuffle h other ks merge t = Err.
Proof. exact @Merge_other. Qed.
Print Assumptions C51_merge_other.

(** After the key column has been read, Merge reads it out of bounds. *)
Theorem C51_merge_after_read_refuted : forall (V : Type) (lanes64 lanes8 garbage : Z) (veq : V -> V -> bool) (hashable : V -> bool)
    (sort_order : list V -> bool -> list nat) (partial_order : list V -> nat -> bool -> list nat)
    (shuffle : forall A : Type, list A -> list A) (le : V -> V -> Prop),
  fair lanes64 lanes8 veq sort_order partial_order shuffle le ->
  forall h k f other t merge,
  reachable lanes64 lanes8 garbage veq hashable sort_order partial_order shuffle h t -> reachable lanes64 lanes8 garbage veq hashable sort_order partial_order shuffle h other ->
  not_loaded t -> t_schema other = t_schema t -> nth_error (sc_columns (t_schema t)) k = Some f -> cf_bit f = false ->
  (0 < Count t)%nat -> (0 < Count other)%nat -> Forall (fun v => hashable v = true) (column_values h t f) ->
  exists t1 c, LoadColumnBase h k t = Ret (t1, c) /\ Merge veq hashable shuffle h other [k] merge t1 = UB.
Proof. exact @reach_merge_read. Qed.
Print Assumptions C51_merge_after_read_refuted.

Example C51_example :
  row_keys example_heap example_table (firstn 2 (sc_columns example_schema)) = [[1; 1]; [1; 2]; [2; 1]; [1; 1]] /\
  obind (Distinct 4 32 0 Z.eqb example_heap [0; 1]%nat example_table) (fun t => Ret (records t)) = Ret [[11; 5]] /\
  obind (Distinct 4 32 0 Z.eqb example_heap [0]%nat example_table) (fun t => Ret (records t)) = Ret [[11; 5]; [12; 6]] /\
  keeps_width (fun a b => a) 2 /\
  obind (DistinctMerge Z.eqb (fun _ => true) (fun A l => rev l) example_heap [0; 1]%nat (fun a b => b) example_table) (fun t => Ret (records t))
    = Ret [[12; 6]; [21; 5]; [11; 7]].
Proof. split; [vm_compute; reflexivity|]. split; [vm_compute; reflexivity|]. split; [vm_compute; reflexivity|]. split; [now intros a b|vm_compute; reflexivity]. Qed.


(** ** C52: columns reflect rows *)

(** After any history of a careful user - rows added, tables filtered, split, sorted, grouped, deduplicated, merged by key, concatenated, mapped,
    columns read and unloaded - no call is undefined, and reading a column of any of the tables gives the field of each of its rows.  Full statement: also
    with Set, OrderBy(column) and Merge, and through Get; refuted below. *)
Theorem C52_history_partial : forall (V : Type) (lanes64 lanes8 garbage : Z) (veq : V -> V -> bool) (hashable : V -> bool)
    (sort_order : list V -> bool -> list nat) (partial_order : list V -> nat -> bool -> list nat)
    (shuffle : forall A : Type, list A -> list A) (le : V -> V -> Prop),
  fair lanes64 lanes8 veq sort_order partial_order shuffle le ->
  forall h l,
  careful lanes64 lanes8 garbage veq hashable sort_order partial_order shuffle l (h, []) ->
  exists ts oks, calls lanes64 lanes8 garbage veq hashable sort_order partial_order shuffle l (h, []) = Ret ((h, ts), oks) /\
    forall x t, nth_error ts x = Some t -> aligned t /\
      forall k f, nth_error (sc_columns (t_schema t)) k = Some f ->
        exists t' c, LoadColumnBase h k t = Ret (t', c) /\ same_rows t t' /\ elements c = Ret (column_values h t f).
Proof. exact @reach_history. Qed.
Print Assumptions C52_history_partial.

(** Get gives the same if the column was not read before or still shows values. *)
Theorem C52_get_partial : forall (V : Type) (lanes64 lanes8 garbage : Z) (veq : V -> V -> bool) (hashable : V -> bool)
    (sort_order : list V -> bool -> list nat) (partial_order : list V -> nat -> bool -> list nat)
    (shuffle : forall A : Type, list A -> list A) (le : V -> V -> Prop),
  fair lanes64 lanes8 veq sort_order partial_order shuffle le ->
  forall h k f t c,
  reachable lanes64 lanes8 garbage veq hashable sort_order partial_order shuffle h t -> nth_error (sc_columns (t_schema t)) k = Some f ->
  nth_error (t_columns t) k = Some c -> (memory c = None \/ vec_size c <> 0%nat) ->
  exists t' c', Get h k t = Ret (t', c') /\ same_rows t t' /\ elements c' = Ret (column_values h t f).
Proof. exact @reach_get. Qed.
Print Assumptions C52_get_partial.

(** After a column was read and unloaded, Get answers no value. *)
Theorem C52_get_after_unload_refuted : forall (V : Type) (lanes64 lanes8 garbage : Z) (veq : V -> V -> bool) (hashable : V -> bool)
    (sort_order : list V -> bool -> list nat) (partial_order : list V -> nat -> bool -> list nat)
    (shuffle : forall A : Type, list A -> list A) (le : V -> V -> Prop),
  fair lanes64 lanes8 veq sort_order partial_order shuffle le ->
  forall h k f t,
  reachable lanes64 lanes8 garbage veq hashable sort_order partial_order shuffle h t -> nth_error (sc_columns (t_schema t)) k = Some f -> (0 < Count t)%nat ->
  exists t1 c1 c2, LoadColumnBase h k t = Ret (t1, c1) /\ Get h k (UnloadColumn k t1) = Ret (UnloadColumn k t1, c2) /\ elements c2 = Ret [].
Proof. exact @reach_get_unloaded. Qed.
Print Assumptions C52_get_after_unload_refuted.

(** So it does after a column was read and rows were added. *)
Theorem C52_get_after_add_refuted : forall (V : Type) (lanes64 lanes8 garbage : Z) (veq : V -> V -> bool) (hashable : V -> bool)
    (sort_order : list V -> bool -> list nat) (partial_order : list V -> nat -> bool -> list nat)
    (shuffle : forall A : Type, list A -> list A) (le : V -> V -> Prop),
  fair lanes64 lanes8 veq sort_order partial_order shuffle le ->
  forall h k f given t,
  reachable lanes64 lanes8 garbage veq hashable sort_order partial_order shuffle h t -> nth_error (sc_columns (t_schema t)) k = Some f -> (0 < Count t)%nat ->
  acceptable given (t_schema t) ->
  exists t1 c1 t2 c2, LoadColumnBase h k t = Ret (t1, c1) /\ AddRows given t1 = (t2, true) /\ (Count t < Count t2)%nat /\
    Get h k t2 = Ret (t2, c2) /\ elements c2 = Ret [].
Proof. exact @reach_get_added. Qed.
Print Assumptions C52_get_after_add_refuted.

(** OrderBy(column) leaves the column of the source table sorted while its rows are as before. *)
Theorem C52_order_by_column_refuted : forall (V : Type) (lanes64 lanes8 garbage : Z) (veq : V -> V -> bool) (hashable : V -> bool)
    (sort_order : list V -> bool -> list nat) (partial_order : list V -> nat -> bool -> list nat)
    (shuffle : forall A : Type, list A -> list A) (le : V -> V -> Prop),
  fair lanes64 lanes8 veq sort_order partial_order shuffle le ->
  forall h k f desc t,
  reachable lanes64 lanes8 garbage veq hashable sort_order partial_order shuffle h t -> nth_error (sc_columns (t_schema t)) k = Some f -> cf_sortable f = true ->
  not_loaded t -> (0 < Count t)%nat ->
  exists t1 c1 t2 t3 c2 keys, LoadColumnBase h k t = Ret (t1, c1) /\ OrderBy_column lanes64 garbage sort_order k desc t1 = Ret (t2, t3) /\
    same_rows t t2 /\ LoadColumnBase h k t2 = Ret (t2, c2) /\ elements c2 = Ret keys /\
    Permutation keys (column_values h t f) /\ in_order le desc keys.
Proof. exact @reach_order_source. Qed.
Print Assumptions C52_order_by_column_refuted.

(** OrderBy(column) of a column not read before fails. *)
Theorem C52_order_by_unread_refuted : forall (V : Type) (lanes64 lanes8 garbage : Z) (veq : V -> V -> bool) (hashable : V -> bool)
    (sort_order : list V -> bool -> list nat) (partial_order : list V -> nat -> bool -> list nat)
    (shuffle : forall A : Type, list A -> list A) (le : V -> V -> Prop),
  fair lanes64 lanes8 veq sort_order partial_order shuffle le ->
  forall h k f desc t,
  reachable lanes64 lanes8 garbage veq hashable sort_order partial_order shuffle h t -> nth_error (sc_columns (t_schema t)) k = Some f -> not_loaded t -> (0 < Count t)%nat ->
  OrderBy_column lanes64 garbage sort_order k desc t = Err.
Proof. exact @reach_order_unread. Qed.
Print Assumptions C52_order_by_unread_refuted.

(** Set of a vector that has not one element for each row fails and changes nothing. *)
Theorem C52_set_wrong_size : forall V h k u (data : list V) w (t : @table V), length data <> Count t -> Set_ h k u data w t = Ret (h, t, false).
Proof. exact @Set_wrong_size. Qed.
Print Assumptions C52_set_wrong_size.

(** Set of a column that is written back writes the fields of the rows' objects, and nothing else. Missing: an object that is in several rows, null pointers, bool fields. *)
Theorem C52_set_written_back_partial : forall V h k f u (data : list V) w (t : @table V),
  proper (t_schema t) -> of_schema t -> aligned t -> nth_error (sc_columns (t_schema t)) k = Some f ->
  cf_write_back f = true -> cf_plain f = true -> cf_bit f = false -> length data = Count t ->
  NoDup (objects_of t f) -> ~ In 0 (objects_of t f) ->
  exists h' t1, Set_ h k u data w t = Ret (h', t1, true) /\ same_rows t t1 /\ column_values h' t1 f = data /\
    (exists t2 c, LoadColumnBase h' k t1 = Ret (t2, c) /\ elements c = Ret data) /\
    forall p n, ~ (In p (objects_of t f) /\ n = cf_field f) -> h' p n = h p n.
Proof. exact @Set_written_back. Qed.
Print Assumptions C52_set_written_back_partial.

Example C52_example_set :
  let f := mk_field 7 1 false 8 true true true in
  let t := fst (AddRows [(7%nat, [11; 21; 12])] (new_table (mk_schema 1 [7%nat] [f]))) in
  proper (t_schema t) /\ of_schema t /\ aligned t /\ cf_write_back f = true /\ cf_plain f = true /\ cf_bit f = false /\
  objects_of t f = [11; 21; 12] /\ column_values example_heap t f = [1; 2; 1] /\
  exists h' t1, Set_ example_heap 0 5 [7; 8; 9] true t = Ret (h', t1, true) /\ column_values h' t1 f = [7; 8; 9].
Proof.
  cbv zeta. split; [split; [constructor; [intros []|constructor]|intros f [<-|[]]; split; [left; reflexivity|reflexivity]]|].
  split; [split; reflexivity|]. split; [intros r [<-|[]]; reflexivity|]. repeat (split; [reflexivity|]). eexists _, _. split; reflexivity.
Qed.


(** A column that is not written back and was Set shows its rows' fields again in a filtered table. *)
Theorem C52_set_lost_refuted : forall (V : Type) (lanes64 lanes8 garbage : Z) (veq : V -> V -> bool) (hashable : V -> bool)
    (sort_order : list V -> bool -> list nat) (partial_order : list V -> nat -> bool -> list nat)
    (shuffle : forall A : Type, list A -> list A) (le : V -> V -> Prop),
  fair lanes64 lanes8 veq sort_order partial_order shuffle le ->
  forall h k f u data w t,
  reachable lanes64 lanes8 garbage veq hashable sort_order partial_order shuffle h t -> nth_error (sc_columns (t_schema t)) k = Some f -> cf_write_back f = false ->
  length data = Count t -> (0 < Count t)%nat ->
  exists t1, Set_ h k u data w t = Ret (h, t1, true) /\ same_rows t t1 /\
    (exists t2 c, LoadColumnBase h k t1 = Ret (t2, c) /\ elements c = Ret data) /\
    forall m, mask_for m (Count t) -> exists t2 t3 c, Filter lanes64 garbage m t1 = Ret t2 /\ LoadColumnBase h k t2 = Ret (t3, c) /\
      elements c = Ret (column_values h t2 f).
Proof. exact @reach_set_lost. Qed.
Print Assumptions C52_set_lost_refuted.

(** Unloaded and read again, it has overwritten the memory of the user. *)
Theorem C52_set_overwritten_refuted : forall (V : Type) (lanes64 lanes8 garbage : Z) (veq : V -> V -> bool) (hashable : V -> bool)
    (sort_order : list V -> bool -> list nat) (partial_order : list V -> nat -> bool -> list nat)
    (shuffle : forall A : Type, list A -> list A) (le : V -> V -> Prop),
  fair lanes64 lanes8 veq sort_order partial_order shuffle le ->
  forall h k f u data t,
  reachable lanes64 lanes8 garbage veq hashable sort_order partial_order shuffle h t -> nth_error (sc_columns (t_schema t)) k = Some f -> cf_write_back f = false ->
  length data = Count t -> (0 < Count t)%nat ->
  exists t1 t2 c, Set_ h k u data true t = Ret (h, t1, true) /\ LoadColumnBase h k (UnloadColumn k t1) = Ret (t2, c) /\
    owned_by c = User u /\ memory c = Some (column_values h t f).
Proof. exact @reach_set_overwritten. Qed.
Print Assumptions C52_set_overwritten_refuted.

Example C52_example :
  column_values example_heap example_table (mk_field 7 1 false 8 true false true) = [1; 2; 1; 1] /\
  obind (LoadColumnBase example_heap 1 example_table) (fun r => elements (snd r)) = Ret [1; 2; 1; 1] /\
  obind (LoadColumnBase example_heap 1 example_table) (fun r => obind (Get example_heap 1 (UnloadColumn 1 (fst r))) (fun r => elements (snd r))) = Ret [] /\
  careful 4 32 0 Z.eqb (fun _ => true) isort (fun keys _ desc => isort keys desc) (fun A l => rev l)
    [O_new example_schema; O_add 0 example_rows] (example_heap, []).
Proof. split; [vm_compute; reflexivity|]. split; [vm_compute; reflexivity|]. split; [vm_compute; reflexivity|exact example_history]. Qed.


(** ** C53: Foreach *)

(** If passes over the selected rows in order - each ended by the callback asking to stop or to start again, or by the last row - lead from s to s', Foreach does. *)
Theorem C53_returns : forall V St types (f : St -> nat -> list Z -> St * visit_code) mask (t : @table V) s s',
  of_schema t -> aligned t -> foreach_types types t -> mask_fits mask t ->
  passes f (visited mask (seen types t)) s s' -> exists enough, forall fuel, (enough <= fuel)%nat -> Foreach fuel types f mask t s = Ret s'.
Proof. exact @Foreach_returns. Qed.
Print Assumptions C53_returns.

(** And only then. *)
Theorem C53_only : forall V St types (f : St -> nat -> list Z -> St * visit_code) mask (t : @table V) fuel s s',
  of_schema t -> aligned t -> foreach_types types t -> mask_fits mask t ->
  Foreach fuel types f mask t s = Ret s' -> passes f (visited mask (seen types t)) s s'.
Proof. exact @Foreach_only. Qed.
Print Assumptions C53_only.

(** A callback that never asks to stop sees each selected row once, in order. *)
Theorem C53_each_once : forall V St types (f : St -> nat -> list Z -> St * visit_code) mask (t : @table V) s,
  of_schema t -> aligned t -> foreach_types types t -> mask_fits mask t ->
  (forall s i r, snd (f s i r) = kNext) ->
  exists enough, forall fuel, (enough <= fuel)%nat ->
    Foreach fuel types f mask t s = Ret (fold_left (fun s v => fst (f s (fst v) (snd v))) (visited mask (seen types t)) s).
Proof. exact @Foreach_plain. Qed.
Print Assumptions C53_each_once.

(** One that always asks to start again never ends. *)
Theorem C53_forever : forall V St types (f : St -> nat -> list Z -> St * visit_code) mask (t : @table V) (Q : St -> Prop),
  of_schema t -> aligned t -> foreach_types types t -> mask_fits mask t ->
  (forall s, Q s -> exists s1, pass f (visited mask (seen types t)) s = (s1, true) /\ Q s1) ->
  forall fuel s, Q s -> Foreach fuel types f mask t s = Hang.
Proof. exact @Foreach_forever. Qed.
Print Assumptions C53_forever.

(** A mask of another size is rejected. *)
Theorem C53_mask : forall V St fuel types (f : St -> nat -> list Z -> St * visit_code) m (t : @table V) s,
  of_schema t -> aligned t -> foreach_types types t -> length m <> Count t -> Foreach fuel types f (Some m) t s = Err.
Proof. exact @Foreach_mismatch. Qed.
Print Assumptions C53_mask.

Example C53_example :
  foreach_types [9]%nat example_table /\ foreach_types [7; 9]%nat example_table /\ mask_fits (Some [true; false; true; true]) example_table /\
  Foreach 9 [9]%nat (fun s i r => (s ++ [(i, r)], if Nat.eqb i 2 then if Nat.eqb (length s) 1 then kReset else kExit else kNext))
    (Some [true; false; true; true]) example_table [] = Ret [(0%nat, [5]); (2%nat, [6]); (0%nat, [5]); (2%nat, [6])].
Proof. split; [split; [discriminate|right; exists 9%nat; cbn; auto]|]. split; [split; [discriminate|now left]|]. split; vm_compute; reflexivity. Qed.


(** ** C68: sorting *)

(** OrderBy(keys) answers the records rearranged as a whole, the keys with them, so that the keys are in order. *)
Theorem C68_order_by : forall V lanes64 lanes8 garbage,
  machine lanes64 lanes8 -> forall sort_order le keys desc (t : @table V), of_schema t -> aligned t -> length keys = Count t -> sorts le sort_order ->
  exists order t' keys', OrderBy lanes64 garbage sort_order keys true desc t = Ret (t', keys') /\ t_schema t' = t_schema t /\ of_schema t' /\ aligned t' /\
    Permutation order (seq 0 (Count t)) /\ (forall d, keys' = at_positions d keys order) /\ records t' = at_positions [] (records t) order /\
    in_order le desc keys'.
Proof. exact @OrderBy_ok. Qed.
Print Assumptions C68_order_by.

(** Topk(keys, k) the first k of them, whose keys go before all others. *)
Theorem C68_topk : forall V lanes64 lanes8 garbage,
  machine lanes64 lanes8 -> forall partial_order le keys k desc (t : @table V), of_schema t -> aligned t -> length keys = Count t -> selects le partial_order ->
  exists order t' keys', Topk lanes64 garbage partial_order keys true k desc t = Ret (t', keys') /\ t_schema t' = t_schema t /\ of_schema t' /\ aligned t' /\
    Permutation order (seq 0 (Count t)) /\ (forall d, keys' = at_positions d keys order) /\ records t' = firstn k (at_positions [] (records t) order) /\
    in_order le desc (firstn k keys') /\
    (forall a b, In a (firstn k keys') -> In b (skipn k keys') -> if desc then le b a else le a b).
Proof. exact @Topk_ok. Qed.
Print Assumptions C68_topk.

(** Keys that are read-only or not one for each row are rejected. *)
Theorem C68_rejected : forall V lanes64 garbage sort_order partial_order keys w k desc (t : @table V),
  w = false \/ length keys <> Count t ->
  OrderBy lanes64 garbage sort_order keys w desc t = Err /\ Topk lanes64 garbage partial_order keys w k desc t = Err.
Proof. exact @sort_bad. Qed.
Print Assumptions C68_rejected.

Example C68_example :
  obind (OrderBy 4 0 isort [3; 1; 4; 2] true true example_table) (fun r => Ret (records (fst r), snd r))
    = Ret ([[12; 6]; [11; 5]; [11; 7]; [21; 5]], [4; 3; 2; 1]) /\
  obind (Topk 4 0 (fun keys _ desc => isort keys desc) [3; 1; 4; 2] true 2 false example_table) (fun r => Ret (records (fst r)))
    = Ret [[21; 5]; [11; 7]].
Proof. vm_compute. split; reflexivity. Qed.


(** ** C69: maps and rows *)

(** Map: the objects the function answers for the rows, in order, without null. *)
Theorem C69_map : forall V sc s f (t : @table V), aligned t -> sc_rows sc = [s] ->
  exists t', Map sc s f t = Ret t' /\ t_schema t' = sc /\ of_schema t' /\ aligned t' /\
    records t' = map (fun p => [p]) (filter (fun p => negb (p =? 0)) (map (fun j => f j (nth j (records t) [])) (seq 0 (Count t)))).
Proof. exact @Map_ok. Qed.
Print Assumptions C69_map.

(** FlatMap: all objects it answers. *)
Theorem C69_flat_map : forall V sc s f (t : @table V), aligned t -> sc_rows sc = [s] ->
  exists t', FlatMap sc s f t = Ret t' /\ t_schema t' = sc /\ of_schema t' /\ aligned t' /\
    records t' = map (fun p => [p]) (filter (fun p => negb (p =? 0)) (flat_map (fun j => f j (nth j (records t) [])) (seq 0 (Count t)))).
Proof. exact @FlatMap_ok. Qed.
Print Assumptions C69_flat_map.

(** GetRow: the object of the row type in that row, or an error if there is no such row or row type. *)
Theorem C69_get_row : forall V s i (t : @table V), of_schema t -> aligned t ->
  (In s (sc_rows (t_schema t)) -> GetRow s i t =
    if Nat.ltb i (Count t) then Ret (nth (position s (sc_rows (t_schema t))) (nth i (records t) []) 0) else Err) /\
  (~ In s (sc_rows (t_schema t)) -> GetRow s i t = Err).
Proof. exact (fun V s i t O A => conj (GetRow_ok s i t O A) (get_row_other s i t)). Qed.
Print Assumptions C69_get_row.

Example C69_example :
  obind (FlatMap (mk_schema 2 [3%nat] []) 3 (fun i r => [hd 0 r; 0; Z.of_nat i]) example_table) (fun t => Ret (t_rows t))
    = Ret [(3%nat, [11; 21; 1; 12; 2; 11; 3])] /\ GetRow 9 2 example_table = Ret 6 /\ GetRow 9 4 example_table = Err.
Proof. vm_compute. repeat split. Qed.
