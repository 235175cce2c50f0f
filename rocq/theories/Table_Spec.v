(** What a user expects of a table: it is a list of records, a record being one object of each row type. *)
From Coq Require Import List Bool Arith ZArith Sorted Permutation.
Import ListNotations.
From Verif Require Import Base Simd_Spec Vector_Spec Table_Model.
Local Open Scope Z_scope.

(** The records of some row sets: record [i] has the [i]-th pointer of every row set. *)
Definition count_of (rs : list (nat * list Z)) : nat := match rs with [] => 0%nat | (_, objs) :: _ => length objs end.
Definition record_at (rs : list (nat * list Z)) (i : nat) : list Z := map (fun r => nth i (snd r) 0) rs.
Definition records_of (rs : list (nat * list Z)) : list (list Z) := map (record_at rs) (seq 0 (count_of rs)).

(** All row sets have the same number of rows. *)
Definition aligned_rows (rs : list (nat * list Z)) : Prop := forall r, In r rs -> length (snd r) = count_of rs.

(** Position of a row type in the schema. *)
Fixpoint position (s : nat) (l : list nat) : nat :=
  match l with [] => 0%nat | s' :: l' => if Nat.eqb s' s then 0%nat else S (position s l') end.

Section Spec.
Context {V : Type}.

Definition records (t : @table V) : list (list Z) := records_of (t_rows t).
Definition aligned (t : @table V) : Prop := aligned_rows (t_rows t).

(** A schema with each row type once, whose columns are fields of these types; a table of it. *)
Definition proper (sc : schema) : Prop :=
  NoDup (sc_rows sc) /\ forall f, In f (sc_columns sc) -> In (cf_schema f) (sc_rows sc) /\ 0 < cf_width f.
Definition of_schema (t : @table V) : Prop :=
  map fst (t_rows t) = sc_rows (t_schema t) /\ length (t_columns t) = length (sc_columns (t_schema t)).

(** The values of a column: the field of each record. *)
Definition column_values (h : heap) (t : @table V) (f : col_field) : list V :=
  map (fun r => h (nth (position (cf_schema f) (sc_rows (t_schema t))) r 0) (cf_field f)) (records t).
(** The objects these fields are in. *)
Definition objects_of (t : @table V) (f : col_field) : list Z :=
  map (fun r => nth (position (cf_schema f) (sc_rows (t_schema t))) r 0) (records t).

(** No row and no column of [t'] differs from [t]. *)
Definition same_rows (t t' : @table V) : Prop := t_schema t' = t_schema t /\ t_rows t' = t_rows t.

(** Rows offered for the whole table: some objects, as many of each row type, in the order of the schema. *)
Definition acceptable (given : list (nat * list Z)) (sc : schema) : Prop :=
  map fst given = sc_rows sc /\ exists n, (0 < n)%nat /\ forall g, In g given -> length (snd g) = n.

(** The processor: a register of [lanes64] lanes of uint64_t and [lanes8] of uint8_t, of at most 512 bits. *)
Definition machine (lanes64 lanes8 : Z) : Prop := In lanes64 [1; 2; 4; 8] /\ 1 <= lanes8.
(** The memory of the mask has a bit for each of [n] rows; these bits. *)
Definition mask_for (m : bits) (n : nat) : Prop :=
  byte_buffer (bit_bytes m) /\ Z.of_nat n <= 8 * Z.of_nat (length (bit_bytes m)).
Definition flags (m : bits) (n : nat) : list bool := bits_of (bit_bytes m) n.

(** ** Sorting *)
(** [l] is sorted: each element is allowed before all later ones. *)
Definition in_order (le : V -> V -> Prop) (descending : bool) (l : list V) : Prop :=
  StronglySorted (fun a b => if descending then le b a else le a b) l.
(** What the sorting library promises: positions of a sorted arrangement, or of one whose first [k] are sorted and go before
    the rest. *)
Definition at_positions {A} (d : A) (l : list A) (order : list nat) : list A := map (fun i => nth i l d) order.
Definition sorts (le : V -> V -> Prop) (sort : list V -> bool -> list nat) : Prop :=
  forall keys desc, Permutation (sort keys desc) (seq 0 (length keys)) /\
    forall d, in_order le desc (at_positions d keys (sort keys desc)).
Definition selects (le : V -> V -> Prop) (partial : list V -> nat -> bool -> list nat) : Prop :=
  forall keys k desc, (k <= length keys)%nat -> Permutation (partial keys k desc) (seq 0 (length keys)) /\
    forall d, in_order le desc (firstn k (at_positions d keys (partial keys k desc))) /\
      forall a b, In a (firstn k (at_positions d keys (partial keys k desc))) ->
        In b (skipn k (at_positions d keys (partial keys k desc))) -> if desc then le b a else le a b.

(** ** Groups *)
(** Groups of row numbers: each row in exactly one, equal keys together, different keys apart. *)
Definition together {K} (eq : K -> K -> bool) (keys : list K) (g : list nat) : Prop :=
  forall i j ki kj, In i g -> In j g -> i <> j -> nth_error keys i = Some ki -> nth_error keys j = Some kj -> eq ki kj = true.
Definition apart {K} (eq : K -> K -> bool) (keys : list K) (g g' : list nat) : Prop :=
  forall i j ki kj, In i g -> In j g' -> nth_error keys i = Some ki -> nth_error keys j = Some kj -> eq ki kj = false.
Definition grouped {K} (eq : K -> K -> bool) (keys : list K) (gs : list (list nat)) : Prop :=
  Permutation (concat gs) (seq 0 (length keys)) /\ Forall (fun g => g <> [] /\ together eq keys g) gs /\
  ForallOrdPairs (apart eq keys) gs.
(** The rows [g] of [t], in that order, in a table of their own whose columns have not been read. *)
Definition table_of_group (t : @table V) (g : list nat) (t' : @table V) : Prop :=
  t_schema t' = t_schema t /\ of_schema t' /\ aligned t' /\ records t' = at_positions [] (records t) g /\
  t_columns t' = map (fun _ => new_column) (sc_columns (t_schema t)).
(** The first of a group put last. *)
Definition first_last (g : list nat) : list nat := tl g ++ firstn 1 g.
(** In the order of the table. *)
Definition increasing (g : list nat) : Prop := StronglySorted lt g.
(** == on numbers other than NaN is an equivalence; with NaN it still is symmetric and transitive. *)
Definition equality {K} (eq : K -> K -> bool) : Prop :=
  (forall x y, eq x y = true -> eq y x = true) /\ (forall x y z, eq x y = true -> eq y z = true -> eq x z = true).

(** The key of a record: its fields [fs]. *)
Definition key_of (h : heap) (t : @table V) (fs : list col_field) (r : list Z) : list V :=
  map (fun f => h (nth (position (cf_schema f) (sc_rows (t_schema t))) r 0) (cf_field f)) fs.
Definition row_keys (h : heap) (t : @table V) (fs : list col_field) : list (list V) := map (key_of h t fs) (records t).
Fixpoint same_key (veq : V -> V -> bool) (a b : list V) : bool :=
  match a, b with
  | [], [] => true
  | x :: a', y :: b' => veq x y && same_key veq a' b'
  | _, _ => false
  end.
(** The fields of the columns [ks]. *)
Definition fields_of (t : @table V) (ks : list nat) (fs : list col_field) : Prop :=
  Forall2 (fun k f => nth_error (sc_columns (t_schema t)) k = Some f) ks fs.

(** Keys GroupBy can use: some columns, none of them of type Bit, with values that can be hashed. *)
Definition good_keys (hashable : V -> bool) (h : heap) (t : @table V) (fs : list col_field) : Prop :=
  fs <> [] /\ Forall (fun f => cf_bit f = false) fs /\ Forall (Forall (fun v => hashable v = true)) (row_keys h t fs).

(** Element [i] has fewer than [k] equal elements before it. *)
Definition first_few (veq : V -> V -> bool) (k : Z) (l : list V) : list bool :=
  map (fun i => match nth_error l i with
                | Some v => Z.of_nat (length (filter (fun w => veq w v) (firstn i l))) <? k
                | None => false
                end) (seq 0 (length l)).

(** Rows that are the first with their value in every one of the columns. *)
Definition first_in_each (veq : V -> V -> bool) (h : heap) (t : @table V) (fs : list col_field) : list bool :=
  map (fun i => forallb (fun f => nth i (first_few veq 1 (column_values h t f)) false) fs) (seq 0 (length (records t))).

(** A merge function answers a row like those it gets. *)
Definition keeps_width (merge : list Z -> list Z -> list Z) (n : nat) : Prop :=
  forall a b, length a = n -> length b = n -> length (merge a b) = n.
(** The rows of a group merged, from the first to the last. *)
Definition merged (merge : list Z -> list Z -> list Z) (rows : list (list Z)) (g : list nat) : list Z :=
  match g with
  | [] => []
  | i :: g' => fold_left (fun row j => merge row (nth j rows [])) g' (nth i rows [])
  end.

(** ** Histories *)
(** The table a call answers. *)
Definition shown (p : produced) (t : @table V) : @table V := match p with Itself => t | Another t' => t' end.
(** No column of the table holds values. *)
Definition not_loaded (t : @table V) : Prop := Forall (fun c => memory c = None /\ vec_size c = 0%nat) (t_columns t).

(** The calls of a user who holds tables number 0, 1, ... *)
Inductive op :=
| O_new (sc : schema)
| O_add (x : nat) (given : list (nat * list Z))
| O_insert (x pos : nat) (given : list (nat * Z))
| O_filter (x : nat) (m : bits)
| O_split (x : nat) (m : bits)
| O_head (x k : nat)
| O_tail (x k : nat)
| O_order (x : nat) (keys : list V) (w desc : bool)
| O_topk (x : nat) (keys : list V) (w : bool) (k : nat) (desc : bool)
| O_order_column (x col : nat) (desc : bool)
| O_group (x : nat) (keys : list V)
| O_group_columns (x : nat) (cols : list nat)
| O_dedup (x col : nat) (k : Z)
| O_distinct (x : nat) (cols : list nat)
| O_distinct_merge (x : nat) (cols : list nat) (merge : list Z -> list Z -> list Z)
| O_concat (x y : nat)
| O_merge (x y : nat) (cols : list nat) (merge : list Z -> list Z -> list Z)
| O_map (x : nat) (sc : schema) (s : nat) (f : nat -> list Z -> Z)
| O_flat_map (x : nat) (sc : schema) (s : nat) (f : nat -> list Z -> list Z)
| O_get (x col : nat)
| O_read (x col : nat)
| O_set (x col u : nat) (data : list V) (w : bool)
| O_unload (x col : nat).

Variables (lanes64 lanes8 garbage : Z) (veq : V -> V -> bool) (hashable : V -> bool)
  (sort_order : list V -> bool -> list nat) (partial_order : list V -> nat -> bool -> list nat)
  (shuffle : forall A : Type, list A -> list A).

Definition state : Type := @heap V * list (@table V).
Definition put (x : nat) (t : @table V) (ts : list (@table V)) : list (@table V) := firstn x ts ++ t :: skipn (S x) ts.
Definition produce (p : produced) (ts : list (@table V)) : list (@table V) :=
  match p with Itself => ts | Another t => ts ++ [t] end.

(** One call: the state after it and whether it succeeded. A call that throws changes nothing here: whether it left a column
    loaded cannot be seen. *)
Definition call (o : op) (st : state) : outcome (state * bool) :=
  let (h, ts) := st in
  let with_table x (g : @table V -> outcome (state * bool)) :=
    match nth_error ts x with None => Ret (st, false) | Some t => g t end in
  let caught (r : outcome (state * bool)) := match r with Err => Ret (st, false) | _ => r end in
  caught match o with
  | O_new sc => Ret ((h, ts ++ [new_table sc]), true)
  | O_add x given => with_table x (fun t => let (t', ok) := AddRows given t in Ret ((h, put x t' ts), ok))
  | O_insert x pos given => with_table x (fun t => let (t', ok) := InsertRow pos given t in Ret ((h, put x t' ts), ok))
  | O_filter x m => with_table x (fun t => do! t' <- Filter lanes64 garbage m t ; Ret ((h, ts ++ [t']), true))
  | O_split x m => with_table x (fun t => do! (a, b) <- Split lanes64 lanes8 garbage m t ; Ret ((h, ts ++ [a; b]), true))
  | O_head x k => with_table x (fun t => Ret ((h, produce (Head k t) ts), true))
  | O_tail x k => with_table x (fun t => Ret ((h, produce (Tail k t) ts), true))
  | O_order x keys w desc => with_table x (fun t => do! (t', _) <- OrderBy lanes64 garbage sort_order keys w desc t ; Ret ((h, ts ++ [t']), true))
  | O_topk x keys w k desc => with_table x (fun t => do! (t', _) <- Topk lanes64 garbage partial_order keys w k desc t ; Ret ((h, ts ++ [t']), true))
  | O_order_column x col desc => with_table x (fun t =>
      do! (t1, t2) <- OrderBy_column lanes64 garbage sort_order col desc t ; Ret ((h, put x t1 ts ++ [t2]), true))
  | O_group x keys => with_table x (fun t => do! l <- GroupBy lanes64 garbage veq shuffle keys t ; Ret ((h, ts ++ l), true))
  | O_group_columns x cols => with_table x (fun t =>
      do! (t1, l) <- GroupBy_columns lanes64 garbage veq hashable shuffle h cols t ; Ret ((h, put x t1 ts ++ l), true))
  | O_dedup x col k => with_table x (fun t => do! (t1, _) <- Dedup garbage veq h col k t ; Ret ((h, put x t1 ts), true))
  | O_distinct x cols => with_table x (fun t => do! t1 <- Distinct lanes64 lanes8 garbage veq h cols t ; Ret ((h, put x t1 ts), true))
  | O_distinct_merge x cols merge => with_table x (fun t =>
      do! t1 <- DistinctMerge veq hashable shuffle h cols merge t ; Ret ((h, put x t1 ts), true))
  | O_concat x y => with_table x (fun t => with_table y (fun t2 => do! t' <- Concat t2 t ; Ret ((h, ts ++ [t']), true)))
  | O_merge x y cols merge => with_table x (fun t => with_table y (fun t2 =>
      do! t1 <- Merge veq hashable shuffle h t2 cols merge t ; Ret ((h, put x t1 ts), true)))
  | O_map x sc s f => with_table x (fun t => do! t' <- Map sc s f t ; Ret ((h, ts ++ [t']), true))
  | O_flat_map x sc s f => with_table x (fun t => do! t' <- FlatMap sc s f t ; Ret ((h, ts ++ [t']), true))
  | O_get x col => with_table x (fun t => do! (t1, _) <- Get h col t ; Ret ((h, put x t1 ts), true))
  | O_read x col => with_table x (fun t => do! (t1, _) <- LoadColumnBase h col t ; Ret ((h, put x t1 ts), true))
  | O_set x col u data w => with_table x (fun t => do! (h', t1, ok) <- Set_ h col u data w t ; Ret ((h', put x t1 ts), ok))
  | O_unload x col => with_table x (fun t => Ret ((h, put x (UnloadColumn col t) ts), true))
  end.
Fixpoint calls (l : list op) (st : state) : outcome (state * list bool) :=
  match l with
  | [] => Ret (st, [])
  | o :: l' => do! (st', ok) <- call o st ; do! (st'', oks) <- calls l' st' ; Ret (st'', ok :: oks)
  end.

(** The calls of a careful user: schemas are proper and told apart by their identity; rows are added for all row types at once; masks cover
    the table; key columns are usable; no Set, no OrderBy of a column, no Merge. *)
Definition valid (o : op) (st : state) : Prop :=
  let (h, ts) := st in
  let with_table x (g : @table V -> Prop) := forall t, nth_error ts x = Some t -> g t in
  match o with
  | O_new sc => proper sc
  | O_add x given => with_table x (fun t => (length (sc_rows (t_schema t)) = 1)%nat \/ acceptable given (t_schema t))
  | O_insert x pos given => with_table x (fun t => (length (sc_rows (t_schema t)) = 1)%nat \/
      sc_rows (t_schema t) <> [] /\ map fst given = sc_rows (t_schema t) /\ (pos <= Count t)%nat)
  | O_filter x m => with_table x (fun t => mask_for m (Count t))
  | O_split x m => with_table x (fun t => mask_for m (Count t) /\ bit_size m = Count t)
  | O_group_columns x cols => with_table x (fun t => exists fs, fields_of t cols fs /\ good_keys hashable h t fs)
  | O_dedup x col k => with_table x (fun t => Z.of_nat (Count t) < 2 ^ 32)
  | O_distinct x cols => cols <> [] /\ with_table x (fun t =>
      Z.of_nat (Count t) < 2 ^ 32 /\ exists fs, fields_of t cols fs /\ Forall (fun f => cf_bit f = false) fs)
  | O_distinct_merge x cols merge => with_table x (fun t =>
      (exists fs, fields_of t cols fs /\ good_keys hashable h t fs) /\ keeps_width merge (length (sc_rows (t_schema t))))
  | O_concat x y => with_table x (fun t => with_table y (fun t2 => sc_id (t_schema t) = sc_id (t_schema t2) -> t_schema t2 = t_schema t))
  | O_map _ sc _ _ | O_flat_map _ sc _ _ => proper sc
  | O_order_column _ _ _ | O_merge _ _ _ _ | O_set _ _ _ _ _ => False
  | _ => True
  end.
Fixpoint careful (l : list op) (st : state) : Prop :=
  match l with
  | [] => True
  | o :: l' => valid o st /\ forall st' ok, call o st = Ret (st', ok) -> careful l' st'
  end.
(** A table of a careful user. *)
Definition reachable (h : heap) (t : @table V) : Prop :=
  exists l ts oks x, careful l (h, []) /\ calls l (h, []) = Ret ((h, ts), oks) /\ nth_error ts x = Some t.
(** The processor, ==, the sorting library and the hash map do what they should. *)
Definition fair (le : V -> V -> Prop) : Prop :=
  machine lanes64 lanes8 /\ equality veq /\ sorts le sort_order /\ selects le partial_order /\
  forall A (l : list A), Permutation (shuffle A l) l.
End Spec.

(** ** Foreach *)
(** The rows a Foreach over these row types sees: over one row type, the object of that type. *)
Definition seen {V} (types : list nat) (t : @table V) : list (list Z) :=
  match types with
  | [s] => map (fun r => [nth (position s (sc_rows (t_schema t))) r 0]) (records t)
  | _ => records t
  end.
(** A Foreach is over all row types of the table or over one of them; a mask has a flag for each row. *)
Definition foreach_types {V} (types : list nat) (t : @table V) : Prop :=
  sc_rows (t_schema t) <> [] /\ (types = sc_rows (t_schema t) \/ exists s, types = [s] /\ In s (sc_rows (t_schema t))).
Definition mask_fits {V} (mask : option (list bool)) (t : @table V) : Prop := match mask with Some m => length m = Count t | None => True end.
(** The rows to be visited, with their numbers. *)
Definition visited (mask : option (list bool)) (rows : list (list Z)) : list (nat * list Z) :=
  filter (fun r => match mask with Some m => nth (fst r) m false | None => true end) (combine (seq 0 (length rows)) rows).
(** One pass over these rows, and whether the callback asked to start again. *)
Fixpoint pass {St} (f : St -> nat -> list Z -> St * visit_code) (l : list (nat * list Z)) (s : St) : St * bool :=
  match l with
  | [] => (s, false)
  | (i, row) :: l' =>
      match f s i row with
      | (s', kNext) => pass f l' s'
      | (s', kExit) => (s', false)
      | (s', kReset) => (s', true)
      end
  end.
Inductive passes {St} (f : St -> nat -> list Z -> St * visit_code) (l : list (nat * list Z)) : St -> St -> Prop :=
| P_last s s' : pass f l s = (s', false) -> passes f l s s'
| P_again s s1 s' : pass f l s = (s1, true) -> passes f l s1 s' -> passes f l s s'.
