(** The theorems about tables of a careful user. *)
From Coq Require Import List Bool Arith ZArith Lia Sorted Permutation.
Import ListNotations.
From Verif Require Import Base Simd_Spec Vector_Spec Vector_Model Vector_Proofs Simd_Model Simd_Proofs
  Table_Model Table_Spec Table_Proofs TableRows_Proofs TableColumns_Proofs TableGroup_Proofs TableDedup_Proofs TableHistory_Proofs TableWrong_Proofs.
Local Open Scope Z_scope.

Section R.
Context {V : Type}.
Variables (lanes64 lanes8 garbage : Z) (veq : V -> V -> bool) (hashable : V -> bool)
  (sort_order : list V -> bool -> list nat) (partial_order : list V -> nat -> bool -> list nat)
  (shuffle : forall A : Type, list A -> list A) (le : V -> V -> Prop).
Notation table := (@table V).
Hypothesis FA : fair lanes64 lanes8 veq sort_order partial_order shuffle le.
Notation reachable := (reachable lanes64 lanes8 garbage veq hashable sort_order partial_order shuffle).
Lemma ok h (t : table) : reachable h t -> table_ok h t.
Proof. apply (reachable_ok lanes64 lanes8 garbage veq hashable sort_order partial_order shuffle le h t FA). Qed.
Local Definition LN := proj1 FA.

Lemma reach_aligned h (t : table) : reachable h t -> proper (t_schema t) /\ of_schema t /\ aligned t.
Proof. intros R. destruct (ok h t R) as (P & O & A & _). auto. Qed.
Lemma reach_history h l : careful lanes64 lanes8 garbage veq hashable sort_order partial_order shuffle l (h, []) ->
  exists ts oks, calls lanes64 lanes8 garbage veq hashable sort_order partial_order shuffle l (h, []) = Ret ((h, ts), oks) /\
    forall x t, nth_error ts x = Some t -> aligned t /\
      forall k f, nth_error (sc_columns (t_schema t)) k = Some f ->
        exists t' c, LoadColumnBase h k t = Ret (t', c) /\ same_rows t t' /\ elements c = Ret (column_values h t f).
Proof. destruct FA as (M & EQ & SO & PO & SH). apply (history_reads lanes64 lanes8 garbage M veq hashable sort_order partial_order shuffle le EQ SO PO SH). Qed.

Lemma reach_group h (t : table) ks fs : reachable h t -> fields_of t ks fs -> good_keys hashable h t fs ->
  exists t' gs ts, GroupBy_columns lanes64 garbage veq hashable shuffle h ks t = Ret (t', ts) /\ same_rows t t' /\
    grouped (same_key veq) (row_keys h t fs) gs /\ Forall increasing gs /\ Forall2 (table_of_group t) (map first_last gs) ts.
Proof.
  intros R F G. destruct FA as (M & EQ & SO & PO & SH).
  destruct (GroupBy_columns_ok lanes64 lanes8 garbage M veq hashable shuffle h t ks fs (ok h t R) F G EQ SH) as (t' & gs & ts & E & S & _ & X).
  exists t', gs, ts. split; [exact E|]. split; [exact S|]. exact X.
Qed.
Lemma reach_group_order h (t : table) ks fs : reachable h t -> fields_of t ks fs -> good_keys hashable h t fs ->
  exists t' gs ts, GroupBy_columns lanes64 garbage veq hashable shuffle h ks t = Ret (t', ts) /\
    Forall2 (table_of_group t) gs ts /\ Forall (fun g => (2 <= length g)%nat -> ~ increasing g) gs.
Proof.
  intros R F G. destruct (reach_group h t ks fs R F G) as (t' & gs & ts & E & _ & _ & I & X). exists t', (map first_last gs), ts.
  split; [exact E|]. split; [exact X|]. apply Forall_map. eapply Forall_impl; [|exact I]. intros g Ig L.
  apply first_last_order; auto. rewrite (Permutation_length (first_last_perm g)) in L. exact L.
Qed.
Lemma reach_bit h (t : table) k f : reachable h t -> nth_error (sc_columns (t_schema t)) k = Some f -> cf_bit f = true ->
  exists t' order ts, GroupBy_columns lanes64 garbage veq hashable shuffle h [k] t = Ret (t', ts) /\
    Permutation order (seq 0 (Count t)) /\ Forall2 (table_of_group t) (map (fun i => [i]) order) ts.
Proof. intros R F B. apply (GroupBy_bit lanes64 lanes8 garbage (proj1 FA) veq hashable shuffle h k f t (ok h t R) F B). apply FA. Qed.

Lemma reach_dedup h (t : table) col k f : reachable h t -> nth_error (sc_columns (t_schema t)) col = Some f -> cf_bit f = false ->
  Z.of_nat (Count t) < 2 ^ 32 ->
  exists t' m, Dedup garbage veq h col k t = Ret (t', m) /\ same_rows t t' /\
    bit_size m = Count t /\ flags m (Count t) = first_few veq k (column_values h t f).
Proof.
  intros R F B L. destruct FA as (M & EQ & _). destruct (Dedup_ok garbage veq EQ h col k f t (ok h t R) F B L) as (t' & m & E & S & _ & Z & _ & X).
  exists t', m. auto.
Qed.
Lemma reach_dedup_filter h (t : table) col k f : reachable h t -> nth_error (sc_columns (t_schema t)) col = Some f -> cf_bit f = false ->
  Z.of_nat (Count t) < 2 ^ 32 ->
  exists t' m t2, Dedup garbage veq h col k t = Ret (t', m) /\ Filter lanes64 garbage m t' = Ret t2 /\ t_schema t2 = t_schema t /\ aligned t2 /\
    records t2 = select (first_few veq k (column_values h t f)) (records t).
Proof.
  intros R F B L. destruct FA as (M & EQ & _). destruct (Dedup_ok garbage veq EQ h col k f t (ok h t R) F B L) as (t' & m & E & S & T' & Z & MF & X).
  destruct (same_facts t t' S) as (C1 & R1 & _). destruct T' as (_ & O' & A' & _). rewrite <- C1 in MF.
  destruct (Filter_ok lanes64 lanes8 garbage M m t' O' A' MF) as (t2 & E2 & S2 & _ & A2 & X2). exists t', m, t2.
  split; [exact E|]. split; [exact E2|]. split; [rewrite S2; apply S|]. split; [exact A2|]. now rewrite X2, C1, X, R1.
Qed.
Lemma reach_distinct h (t : table) ks fs : reachable h t -> fields_of t ks fs -> fs <> [] -> Forall (fun f => cf_bit f = false) fs ->
  Z.of_nat (Count t) < 2 ^ 32 ->
  exists t', Distinct lanes64 lanes8 garbage veq h ks t = Ret t' /\ t_schema t' = t_schema t /\ aligned t' /\
    records t' = select (first_in_each veq h t fs) (records t).
Proof.
  intros R F N B L. destruct FA as (M & EQ & _). destruct (Distinct_ok lanes64 lanes8 garbage M veq EQ h ks fs t (ok h t R) F N B L) as (t' & E & S & T' & X).
  exists t'. split; [exact E|]. split; [exact S|]. split; [apply T'|exact X].
Qed.
Lemma nth_error_some {A} (l : list A) i d : (i < length l)%nat -> nth_error l i = Some (nth i l d).
Proof. intros H. apply nth_error_nth'. exact H. Qed.
Lemma first_in_one h (t : table) f : first_in_each veq h t [f] = first_few veq 1 (column_values h t f).
Proof.
  unfold first_in_each. apply nth_ext with (d := false) (d' := false).
  - rewrite map_length, seq_length, first_few_length, values_length, count_records. reflexivity.
  - intros i Hi. rewrite map_length, seq_length in Hi. rewrite (nth_map_lt _ _ _ _ 0%nat) by now rewrite seq_length. rewrite seq_nth by auto. cbn. apply andb_true_r.
Qed.
Lemma reach_distinct_one h (t : table) k f : reachable h t -> nth_error (sc_columns (t_schema t)) k = Some f -> cf_bit f = false ->
  Z.of_nat (Count t) < 2 ^ 32 ->
  exists t', Distinct lanes64 lanes8 garbage veq h [k] t = Ret t' /\ t_schema t' = t_schema t /\ aligned t' /\
    records t' = select (first_few veq 1 (column_values h t f)) (records t).
Proof.
  intros R F B L. rewrite <- first_in_one. apply (reach_distinct h t [k] [f]); auto; [constructor; auto; constructor|discriminate].
Qed.
(** A row that repeats an earlier value in one of the columns is dropped. *)
Lemma reach_distinct_loses h (t : table) ks fs f i j vi vj : reachable h t -> fields_of t ks fs -> Forall (fun f => cf_bit f = false) fs ->
  Z.of_nat (Count t) < 2 ^ 32 -> In f fs -> (j < i < Count t)%nat ->
  nth_error (column_values h t f) i = Some vi -> nth_error (column_values h t f) j = Some vj -> veq vj vi = true ->
  exists t' fl, Distinct lanes64 lanes8 garbage veq h ks t = Ret t' /\ length fl = Count t /\ records t' = select fl (records t) /\ nth i fl true = false.
Proof.
  intros R F B L IF (Lj & Li) Ei Ej E. assert (N : fs <> []) by (intros ->; destruct IF).
  destruct (reach_distinct h t ks fs R F N B L) as (t' & E' & _ & _ & X). exists t', (first_in_each veq h t fs).
  split; [exact E'|]. split; [unfold first_in_each; now rewrite map_length, seq_length, count_records|]. split; [exact X|].
  eapply first_in_each_misses; eauto.
Qed.
Lemma reach_distinct_merge h (t : table) ks fs merge : reachable h t -> fields_of t ks fs -> good_keys hashable h t fs ->
  keeps_width merge (length (sc_rows (t_schema t))) ->
  exists t' gs, DistinctMerge veq hashable shuffle h ks merge t = Ret t' /\ t_schema t' = t_schema t /\ aligned t' /\
    grouped (same_key veq) (row_keys h t fs) gs /\ Forall increasing gs /\ records t' = map (merged merge (records t)) gs.
Proof.
  intros R F G W. destruct FA as (M & EQ & SO & PO & SH).
  destruct (DistinctMerge_ok veq hashable shuffle h t ks fs merge (ok h t R) F G EQ SH W) as (t' & gs & E & S & T' & X).
  exists t', gs. split; [exact E|]. split; [exact S|]. split; [apply T'|exact X].
Qed.
Lemma reach_merge h (other t : table) ks fs merge : reachable h t -> reachable h other -> not_loaded t -> t_schema other = t_schema t ->
  fields_of t ks fs ->
  (forall t', t_schema t' = t_schema t -> records t' = records t ++ records other -> good_keys hashable h t' fs) ->
  keeps_width merge (length (sc_rows (t_schema t))) ->
  exists t' gs, Merge veq hashable shuffle h other ks merge t = Ret t' /\ t_schema t' = t_schema t /\ aligned t' /\
    grouped (same_key veq) (map (key_of h t fs) (records t ++ records other)) gs /\ Forall increasing gs /\
    records t' = map (merged merge (records t ++ records other)) gs.
Proof.
  intros R Ro NL S F G W. destruct FA as (M & EQ & SO & PO & SH). destruct (ok h other Ro) as (_ & Oo & Ao & _).
  apply (Merge_ok veq hashable shuffle h other t ks fs merge); auto. now apply ok.
Qed.
Lemma reach_merge_read h k f (other t : table) merge : reachable h t -> reachable h other -> not_loaded t -> t_schema other = t_schema t ->
  nth_error (sc_columns (t_schema t)) k = Some f -> cf_bit f = false -> (0 < Count t)%nat -> (0 < Count other)%nat ->
  Forall (fun v => hashable v = true) (column_values h t f) ->
  exists t1 c, LoadColumnBase h k t = Ret (t1, c) /\ Merge veq hashable shuffle h other [k] merge t1 = UB.
Proof.
  intros R Ro NL S F B C0 C1 HA. destruct (ok h other Ro) as (_ & Oo & Ao & _). eapply Merge_read; eauto using ok.
Qed.
Lemma reach_get h k f (t : table) c : reachable h t -> nth_error (sc_columns (t_schema t)) k = Some f ->
  nth_error (t_columns t) k = Some c -> (memory c = None \/ vec_size c <> 0%nat) ->
  exists t' c', Get h k t = Ret (t', c') /\ same_rows t t' /\ elements c' = Ret (column_values h t f).
Proof.
  intros R F E D. destruct (Get_ok h k f t c (ok h t R) F E D) as (t' & c' & E' & S & _ & X). exists t', c'. auto.
Qed.
Lemma reach_get_unloaded h k f (t : table) : reachable h t -> nth_error (sc_columns (t_schema t)) k = Some f -> (0 < Count t)%nat ->
  exists t1 c1 c2, LoadColumnBase h k t = Ret (t1, c1) /\ Get h k (UnloadColumn k t1) = Ret (UnloadColumn k t1, c2) /\ elements c2 = Ret [].
Proof.
  intros R F C0. destruct (Load_ok h k f t (ok h t R) F) as (t1 & c1 & E & _).
  destruct (Get_after_unload h k f t t1 c1 (ok h t R) F C0 E) as (c2 & G & El). exists t1, c1, c2. auto.
Qed.
Lemma reach_get_added h k f given (t : table) : reachable h t -> nth_error (sc_columns (t_schema t)) k = Some f -> (0 < Count t)%nat ->
  acceptable given (t_schema t) ->
  exists t1 c1 t2 c2, LoadColumnBase h k t = Ret (t1, c1) /\ AddRows given t1 = (t2, true) /\ (Count t < Count t2)%nat /\
    Get h k t2 = Ret (t2, c2) /\ elements c2 = Ret [].
Proof.
  intros R F C0 AC. destruct (Load_ok h k f t (ok h t R) F) as (t1 & c1 & E & S & T1 & _). pose proof T1 as (P1 & O1 & A1 & _).
  assert (AC1 : acceptable given (t_schema t1)) by (rewrite (proj1 S); exact AC).
  destruct (AddRows_ok given t1 O1 A1 AC1) as (t2 & E2 & _ & _ & _ & R2).
  destruct (Get_after_add h k f given t t1 t2 c1 (ok h t R) F C0 E E2) as (c2 & G & El). exists t1, c1, t2, c2. split; [exact E|]. split; [exact E2|]. split; auto.
  destruct (same_facts t t1 S) as (C1 & R1 & _).
  rewrite <- (count_records t2), R2, app_length, count_records, C1. unfold records_of. rewrite map_length, seq_length.
  destruct AC as (FG & n & n0 & LG). assert (X : (0 < count_of given)%nat).
  { destruct given as [|[s o] g].
    - exfalso. destruct (ok h t R) as (_ & (O & _) & _). rewrite <- FG in O. unfold Count in C0. destruct (t_rows t) as [|[]]; cbn in *; [lia|discriminate].
    - pose proof (LG (s, o) (or_introl eq_refl)) as X. cbn in X. cbn [count_of]. lia. }
  lia.
Qed.
Lemma reach_order_unread h k f desc (t : table) : reachable h t -> nth_error (sc_columns (t_schema t)) k = Some f -> not_loaded t -> (0 < Count t)%nat ->
  OrderBy_column lanes64 garbage sort_order k desc t = Err.
Proof. intros R. apply (OrderBy_unread lanes64 garbage sort_order h k f desc t (ok h t R)). Qed.
Lemma reach_order_source h k f desc (t : table) : reachable h t -> nth_error (sc_columns (t_schema t)) k = Some f -> cf_sortable f = true ->
  not_loaded t -> (0 < Count t)%nat ->
  exists t1 c1 t2 t3 c2 keys, LoadColumnBase h k t = Ret (t1, c1) /\ OrderBy_column lanes64 garbage sort_order k desc t1 = Ret (t2, t3) /\
    same_rows t t2 /\ LoadColumnBase h k t2 = Ret (t2, c2) /\ elements c2 = Ret keys /\
    Permutation keys (column_values h t f) /\ in_order le desc keys.
Proof. intros R F SB NL C0. apply (OrderBy_source lanes64 lanes8 garbage (proj1 FA) sort_order le h k f desc t (ok h t R)); auto. apply FA. Qed.
Lemma reach_torn_read h k f (t : table) s1 s2 rest a b more : reachable h t -> not_loaded t -> sc_rows (t_schema t) = s1 :: s2 :: rest ->
  a <> [] -> b <> [] -> length a <> length b -> map fst more = rest -> (forall g, In g more -> snd g <> []) ->
  nth_error (sc_columns (t_schema t)) k = Some f -> cf_schema f = s2 ->
  exists t1 t2 c, AddRows ((s1, a) :: (s2, b) :: more) t = (t1, false) /\ LoadColumnBase h k t1 = Ret (t2, c) /\ elements c = UB.
Proof. intros R. apply torn_read. now apply ok. Qed.
Lemma reach_set_lost h k f u data w (t : table) : reachable h t -> nth_error (sc_columns (t_schema t)) k = Some f -> cf_write_back f = false ->
  length data = Count t -> (0 < Count t)%nat ->
  exists t1, Set_ h k u data w t = Ret (h, t1, true) /\ same_rows t t1 /\
    (exists t2 c, LoadColumnBase h k t1 = Ret (t2, c) /\ elements c = Ret data) /\
    forall m, mask_for m (Count t) -> exists t2 t3 c, Filter lanes64 garbage m t1 = Ret t2 /\ LoadColumnBase h k t2 = Ret (t3, c) /\
      elements c = Ret (column_values h t2 f).
Proof. intros R. apply (Set_lost lanes64 lanes8 garbage (proj1 FA)). now apply ok. Qed.
Lemma reach_set_overwritten h k f u data (t : table) : reachable h t -> nth_error (sc_columns (t_schema t)) k = Some f -> cf_write_back f = false ->
  length data = Count t -> (0 < Count t)%nat ->
  exists t1 t2 c, Set_ h k u data true t = Ret (h, t1, true) /\ LoadColumnBase h k (UnloadColumn k t1) = Ret (t2, c) /\
    owned_by c = User u /\ memory c = Some (column_values h t f).
Proof. intros R. apply Set_overwritten. now apply ok. Qed.
End R.

Section Plain.
Context {V : Type}.
Notation table := (@table V).
Lemma add_success given (t t' : table) : of_schema t -> aligned t -> AddRows given t = (t', true) ->
  t_schema t' = t_schema t /\ of_schema t' /\ aligned t' /\ records t' = records t ++ records_of given.
Proof.
  intros O A E. pose proof (AddRows_accepts given t t' O E) as AC. destruct (AddRows_ok given t O A AC) as (t1 & E1 & X). rewrite E in E1. injection E1 as ->. exact X.
Qed.
Lemma insert_success pos given (t t' : table) : of_schema t -> aligned t -> sc_rows (t_schema t) <> [] -> InsertRow pos given t = (t', true) ->
  t_schema t' = t_schema t /\ of_schema t' /\ aligned t' /\ records t' = firstn pos (records t) ++ map snd given :: skipn pos (records t).
Proof.
  intros O A N E. destruct (InsertRow_accepts pos given t t' O N E) as (F & L). destruct (InsertRow_ok pos given t O A N F L) as (t1 & E1 & X).
  rewrite E in E1. injection E1 as ->. exact X.
Qed.
Lemma append_success given (t : table) : of_schema t -> aligned t -> sc_rows (t_schema t) <> [] -> map fst given = sc_rows (t_schema t) ->
  exists t', AppendRow given t = (t', true) /\ t_schema t' = t_schema t /\ of_schema t' /\ aligned t' /\ records t' = records t ++ [map snd given].
Proof.
  intros O A N F. destruct (InsertRow_ok (Count t) given t O A N F (le_n _)) as (t' & E & S' & O' & A' & R'). exists t'. split; [exact E|]. split; [exact S'|]. split; [exact O'|]. split; [exact A'|].
  rewrite R', <- (count_records t), firstn_all, skipn_all. reflexivity.
Qed.
Lemma head_min k (t : table) : of_schema t -> aligned t ->
  let t' := shown (Head k t) t in t_schema t' = t_schema t /\ of_schema t' /\ aligned t' /\ records t' = firstn k (records t).
Proof.
  intros O A. cbv zeta. destruct (Nat.leb_spec (Count t) k) as [L|L].
  - rewrite (proj1 (Head_all k t L)). cbn. split; auto. split; auto. split; auto. symmetry. apply firstn_all2. now rewrite count_records.
  - destruct (Head_ok k t O A L) as (t' & -> & X). exact X.
Qed.
Lemma tail_min k (t : table) : of_schema t -> aligned t -> (0 < k)%nat ->
  let t' := shown (Tail k t) t in t_schema t' = t_schema t /\ of_schema t' /\ aligned t' /\ records t' = skipn (Count t - k) (records t).
Proof.
  intros O A K. cbv zeta. destruct (Nat.leb_spec (Count t) k) as [L|L].
  - rewrite (proj2 (Head_all k t L)). cbn. split; auto. split; auto. split; auto. replace (Count t - k)%nat with 0%nat by lia. reflexivity.
  - destruct (Tail_ok k t O A (conj K L)) as (t' & -> & X). exact X.
Qed.

(** Foreach *)
Lemma single_records s objs (t : table) : of_schema t -> aligned t -> find_rows (t_rows t) s = Some objs -> In s (sc_rows (t_schema t)) ->
  records_of [(s, objs)] = map (fun r => [nth (position s (sc_rows (t_schema t))) r 0]) (records t) /\ count_of [(s, objs)] = Count t.
Proof.
  intros (O & _) A F I. destruct (find_column (t_rows t) s A) as (objs' & F' & L & R); [now rewrite O|]. rewrite F in F'. injection F' as <-.
  cbn [count_of]. split; [|exact L]. unfold records_of. cbn [count_of]. rewrite O in R. rewrite <- (map_map (fun r => nth (position s (sc_rows (t_schema t))) r 0) (fun p => [p])).
  fold (records t) in R. rewrite R. apply nth_ext with (d := []) (d' := []); [now rewrite !map_length, seq_length|].
  intros i Hi. rewrite map_length, seq_length in Hi. rewrite (nth_map_lt _ _ _ _ 0%nat) by now rewrite seq_length. rewrite (nth_map_lt _ _ _ _ 0) by auto.
  rewrite seq_nth by auto. reflexivity.
Qed.
Lemma Foreach_all {St} fuel (f : St -> nat -> list Z -> St * visit_code) mask (t : table) s : of_schema t -> aligned t ->
  sc_rows (t_schema t) <> [] -> mask_fits mask t ->
  Foreach fuel (sc_rows (t_schema t)) f mask t s = foreach_from fuel f mask (t_rows t) (Count t) 0 s.
Proof.
  intros (O & _) A N M. unfold Foreach. rewrite <- O in *. destruct (t_rows t) as [|[s1 o1] rs] eqn:ER; [contradiction|].
  assert (V1 : match mask with Some m => if Nat.eqb (length m) (Count t) then foreach_from fuel f mask (t_rows t) (Count t) 0 s else Err
               | None => foreach_from fuel f mask (t_rows t) (Count t) 0 s end = foreach_from fuel f mask (t_rows t) (Count t) 0 s).
  { destruct mask as [m|]; auto. cbn in M. now rewrite M, Nat.eqb_refl. }
  rewrite ER in V1. destruct rs as [|r rs].
  - cbn [map fst find_rows]. rewrite Nat.eqb_refl. exact V1.
  - cbn [map fst]. destruct (list_eq_dec _ _ _) as [_|X]; [exact V1|contradiction].
Qed.
Lemma Foreach_one {St} fuel s0 objs (f : St -> nat -> list Z -> St * visit_code) mask (t : table) s : mask_fits mask t -> find_rows (t_rows t) s0 = Some objs ->
  Foreach fuel [s0] f mask t s = foreach_from fuel f mask [(s0, objs)] (Count t) 0 s.
Proof.
  intros M F. unfold Foreach. rewrite F. destruct mask as [m|]; auto. cbn in M. now rewrite M, Nat.eqb_refl.
Qed.
Lemma Foreach_from types (t : table) : of_schema t -> aligned t -> foreach_types types t ->
  exists rs, aligned_rows rs /\ count_of rs = Count t /\ records_of rs = seen types t /\
    forall St fuel (f : St -> nat -> list Z -> St * visit_code) mask s, mask_fits mask t -> Foreach fuel types f mask t s = foreach_from fuel f mask rs (Count t) 0 s.
Proof.
  intros O A (N & D).
  assert (ONE : forall s, types = [s] -> In s (sc_rows (t_schema t)) -> exists rs, aligned_rows rs /\ count_of rs = Count t /\ records_of rs = seen types t /\
    forall St fuel (f : St -> nat -> list Z -> St * visit_code) mask s, mask_fits mask t -> Foreach fuel types f mask t s = foreach_from fuel f mask rs (Count t) 0 s).
  { intros s -> I. destruct (find_column (t_rows t) s A) as (objs & F & _); [destruct O as (O & _); now rewrite O|].
    exists [(s, objs)]. destruct (single_records s objs t O A F I) as (R & C). split; [intros r [<-|[]]; reflexivity|]. split; [exact C|]. split; [exact R|].
    intros. now apply Foreach_one. }
  destruct D as [->|(s & E & I)]; [|eauto].
  destruct (sc_rows (t_schema t)) as [|s [|s' l]] eqn:SR; [contradiction|apply (ONE s); cbn; auto|].
  exists (t_rows t). split; [exact A|]. split; [reflexivity|]. split; [reflexivity|]. intros. rewrite <- SR. apply Foreach_all; auto. now rewrite SR.
Qed.
Lemma Foreach_returns {St} types (f : St -> nat -> list Z -> St * visit_code) mask (t : table) s s' : of_schema t -> aligned t -> foreach_types types t -> mask_fits mask t ->
  passes f (visited mask (seen types t)) s s' -> exists enough, forall fuel, (enough <= fuel)%nat -> Foreach fuel types f mask t s = Ret s'.
Proof.
  intros O A D M P. destruct (Foreach_from types t O A D) as (rs & Ar & Cr & Rr & E). rewrite <- Rr in P.
  destruct (foreach_passes f mask rs Ar s s' P) as (n & H). exists n. intros fuel L. rewrite E, <- Cr by auto. auto.
Qed.
Lemma Foreach_only {St} types (f : St -> nat -> list Z -> St * visit_code) mask (t : table) fuel s s' : of_schema t -> aligned t -> foreach_types types t -> mask_fits mask t ->
  Foreach fuel types f mask t s = Ret s' -> passes f (visited mask (seen types t)) s s'.
Proof.
  intros O A D M P. destruct (Foreach_from types t O A D) as (rs & Ar & Cr & Rr & E). rewrite <- Rr. rewrite E, <- Cr in P by auto.
  exact (foreach_only f mask rs Ar fuel s s' P).
Qed.
Lemma Foreach_mismatch {St} fuel types (f : St -> nat -> list Z -> St * visit_code) m (t : table) s : of_schema t -> aligned t -> foreach_types types t -> length m <> Count t ->
  Foreach fuel types f (Some m) t s = Err.
Proof.
  intros (O & _) A (N & D) M. unfold Foreach. apply Nat.eqb_neq in M. rewrite M. destruct D as [->|(s0 & -> & I)].
  - rewrite <- O. destruct (map fst (t_rows t)) as [|a [|b l]]; try (destruct (list_eq_dec _ _ _); reflexivity). now destruct (find_rows _ _).
  - now destruct (find_rows _ _).
Qed.
Lemma pass_plain {St} (f : St -> nat -> list Z -> St * visit_code) : (forall s i r, snd (f s i r) = kNext) ->
  forall l s, pass f l s = (fold_left (fun s v => fst (f s (fst v) (snd v))) l s, false).
Proof.
  intros H. induction l as [|[i r] l IH]; intros s; auto. cbn. specialize (H s i r). destruct (f s i r) as [s' code]. cbn in H. subst code. apply IH.
Qed.
Lemma Foreach_plain {St} types (f : St -> nat -> list Z -> St * visit_code) mask (t : table) s : of_schema t -> aligned t -> foreach_types types t -> mask_fits mask t ->
  (forall s i r, snd (f s i r) = kNext) ->
  exists enough, forall fuel, (enough <= fuel)%nat ->
    Foreach fuel types f mask t s = Ret (fold_left (fun s v => fst (f s (fst v) (snd v))) (visited mask (seen types t)) s).
Proof. intros O A D M H. apply Foreach_returns; auto. apply P_last. now apply pass_plain. Qed.
Lemma Foreach_forever {St} types (f : St -> nat -> list Z -> St * visit_code) mask (t : table) (Q : St -> Prop) : of_schema t -> aligned t -> foreach_types types t -> mask_fits mask t ->
  (forall s, Q s -> exists s1, pass f (visited mask (seen types t)) s = (s1, true) /\ Q s1) ->
  forall fuel s, Q s -> Foreach fuel types f mask t s = Hang.
Proof.
  intros O A D M H fuel s Hs. destruct (Foreach_from types t O A D) as (rs & Ar & Cr & Rr & E). rewrite <- Rr in H. rewrite E, <- Cr by auto.
  exact (foreach_forever f mask rs Ar Q H fuel s Hs).
Qed.
End Plain.

Section Bad.
Context {V : Type}.
Notation table := (@table V).
Lemma sort_bad lanes64 garbage so po (keys : list V) w k desc (t : table) : w = false \/ length keys <> Count t ->
  OrderBy lanes64 garbage so keys w desc t = Err /\ Topk lanes64 garbage po keys w k desc t = Err.
Proof.
  intros H. unfold OrderBy, Topk. assert (E : negb w || negb (Nat.eqb (length keys) (Count t)) = true).
  { destruct H as [->|H]; [reflexivity|]. apply Nat.eqb_neq in H. rewrite H. apply orb_true_r. }
  now rewrite E.
Qed.
Lemma group_bad lanes64 garbage veq shuffle (keys : list V) (t : table) : length keys <> Count t ->
  GroupBy lanes64 garbage veq shuffle keys t = Err.
Proof. intros H. unfold GroupBy. apply Nat.eqb_neq in H. now rewrite H. Qed.
Lemma get_row_other s i (t : table) : ~ In s (sc_rows (t_schema t)) -> GetRow s i t = Err.
Proof.
  intros H. unfold GetRow. destruct (existsb (Nat.eqb s) (sc_rows (t_schema t))) eqn:E; auto. apply existsb_exists in E. destruct E as (x & I & X).
  apply Nat.eqb_eq in X. subst x. contradiction.
Qed.
End Bad.
Section Iff.
Context {V : Type}.
Notation table := (@table V).
Lemma add_iff given (t : table) : of_schema t -> aligned t -> ((exists t', AddRows given t = (t', true)) <-> acceptable given (t_schema t)).
Proof.
  intros O A. split; [intros (t' & E); exact (AddRows_accepts given t t' O E)|]. intros AC. destruct (AddRows_ok given t O A AC) as (t' & E & _). eauto.
Qed.
Lemma insert_iff pos given (t : table) : of_schema t -> aligned t -> sc_rows (t_schema t) <> [] ->
  ((exists t', InsertRow pos given t = (t', true)) <-> map fst given = sc_rows (t_schema t) /\ (pos <= Count t)%nat).
Proof.
  intros O A N. split; [intros (t' & E); exact (InsertRow_accepts pos given t t' O N E)|].
  intros (F & L). destruct (InsertRow_ok pos given t O A N F L) as (t' & E & _). eauto.
Qed.
End Iff.
