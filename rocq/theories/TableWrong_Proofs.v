(** Where tables do not do what a user expects. *)
From Coq Require Import List Bool Arith ZArith Lia Sorted Permutation.
Import ListNotations.
From Verif Require Import Base Simd_Spec Vector_Spec Vector_Model Vector_Proofs Simd_Model Simd_Proofs
  Table_Model Table_Spec Table_Proofs TableRows_Proofs TableColumns_Proofs TableGroup_Proofs TableDedup_Proofs TableHistory_Proofs.
Local Open Scope Z_scope.

Section T.
Context {V : Type}.
Variables (lanes64 lanes8 garbage : Z).
Hypothesis LN : machine lanes64 lanes8.
Variables (veq : V -> V -> bool) (hashable : V -> bool)
  (sort_order : list V -> bool -> list nat) (partial_order : list V -> nat -> bool -> list nat)
  (shuffle : forall A : Type, list A -> list A) (le : V -> V -> Prop).
Notation table := (@table V).

(** ** No mask *)
Lemma filter_no_mask N objs fresh : In N [1; 2; 4; 8] -> objs <> [] -> filter_num 0 garbage N objs [] fresh = UB.
Proof.
  intros H NE. assert (L : 1 <= zlen objs). { unfold zlen. destruct objs; [contradiction|]. cbn [length]. lia. }
  assert (G : forall i b, get_mask_bits [] i b = UB).
  { intros i b. unfold get_mask_bits, load. destruct (i / 8 <? 0); auto. now destruct (Z.to_nat (i / 8)). }
  assert (LM : forall off, load_mask_bits [] off 8 = UB).
  { intros off. unfold load_mask_bits. destruct (Z.leb_spec 0 off); auto. rewrite (proj2 (Z.leb_gt _ _)); auto. change (zlen (@nil Z)) with 0. change ((8 + 7) / 8) with 1. lia. }
  unfold filter_num, filter_impl, fuel_for. cbn [simd_loop].
  assert (B : N <> 8 -> N mod 8 <> 0). { intros N8. cbn in H. destruct H as [<-|[<-|[<-|[<-|[]]]]]; try (intros X; discriminate X). contradiction. }
  assert (N1 : 1 <= N) by (cbn in H; lia).
  destruct (Z.eqb_spec (N mod 8) 0) as [E|E].
  - assert (N = 8) by lia. subst N. cbn [negb]. destruct (Z.leb_spec (0 + 8) (zlen objs)) as [L8|L8].
    + unfold loadU. rewrite (proj2 (Z.leb_le 0 0)) by lia. cbn [andb]. rewrite (proj2 (Z.leb_le _ _)) by lia. cbn [obind]. now rewrite LM.
    + cbn [obind]. rewrite (proj2 (Z.eqb_neq _ _)) by lia. unfold loadN. rewrite (proj2 (Z.leb_le 0 0)) by lia. cbn [andb].
      rewrite (proj2 (Z.leb_le _ _)) by lia. cbn [obind]. now rewrite LM.
  - cbn [negb]. destruct (Z.leb_spec (0 + N) (zlen objs)) as [LN'|LN'].
    + unfold loadU. rewrite (proj2 (Z.leb_le 0 0)) by lia. cbn [andb]. rewrite (proj2 (Z.leb_le _ _)) by lia. cbn [obind]. now rewrite G.
    + cbn [obind]. rewrite (proj2 (Z.eqb_neq _ _)) by lia. unfold loadN. rewrite (proj2 (Z.leb_le 0 0)) by lia. cbn [andb].
      rewrite (proj2 (Z.leb_le _ _)) by lia. cbn [obind]. now rewrite G.
Qed.
Lemma DoFilter_no_mask n (t : table) : (0 < Count t)%nat -> DoFilter lanes64 garbage (mk_bits [] n) t = UB.
Proof.
  intros C. unfold DoFilter. unfold Count in C. destruct (t_rows t) as [|[s objs] rs]; [cbn in C; lia|]. cbn [each_rows].
  unfold filter_rows. cbn [bit_bytes]. rewrite filter_no_mask; [reflexivity|apply LN|]. intros ->. cbn in C. lia.
Qed.
Lemma Filter_no_mask n (t : table) : (0 < Count t)%nat -> Filter lanes64 garbage (mk_bits [] n) t = UB.
Proof. intros C. unfold Filter. now apply DoFilter_no_mask. Qed.
Lemma Distinct_no_columns h (t : table) : (0 < Count t)%nat -> Distinct lanes64 lanes8 garbage veq h [] t = UB.
Proof. intros C. unfold Distinct. cbn [distinct_mask obind]. now apply DoFilter_no_mask. Qed.

(** ** Columns that have not been read *)
Definition filled (h : @heap V) (t : table) (f : col_field) : column :=
  mk_column (Some (column_values h t f)) (bytes_for f (Count t)) Mine (Count t) true.
Lemma load_fresh h k f (t : table) : table_ok h t -> nth_error (sc_columns (t_schema t)) k = Some f -> not_loaded t -> (0 < Count t)%nat ->
  LoadColumnBase h k t = Ret (set_column k (filled h t f) t, filled h t f).
Proof.
  intros (P & O & A & C) F NL C0. unfold LoadColumnBase.
  destruct (nth_error (t_columns t) k) as [c|] eqn:E.
  2:{ exfalso. apply nth_error_None in E. rewrite <- (Forall2_len _ _ _ C) in E. apply nth_error_None in E. congruence. }
  rewrite F. pose proof (Forall2_nth _ _ _ C k f c F E) as (M0 & _). unfold not_loaded in NL. rewrite Forall_forall in NL.
  destruct (NL c (nth_error_In _ _ E)) as (M1 & V1). rewrite V1. cbn [Nat.eqb].
  destruct P as (ND & P). destruct (P f (nth_error_In _ _ F)) as (IN & W).
  destruct (find_column (t_rows t) (cf_schema f)) as (objs & -> & LO & RO); [exact A|destruct O as (O & _); now rewrite O|].
  change (count_of (t_rows t)) with (Count t) in LO.
  unfold LoadColumn, ReserveMemory. cbv zeta. rewrite (M0 M1).
  assert (B : 0 < bytes_for f (Count t)). { pose proof (bytes_zero f (Count t) W). lia. }
  rewrite (proj2 (Z.ltb_lt _ _) B). cbn [memory_size memory]. rewrite LO, Z.ltb_irrefl. cbn [obind].
  assert (VV : map (fun p => h p (cf_field f)) objs = column_values h t f).
  { unfold column_values. rewrite <- RO. rewrite map_map. destruct O as (O & _). rewrite O. reflexivity. }
  rewrite VV. rewrite skipn_nil, app_nil_r. reflexivity.
Qed.
Lemma fresh_not_loaded (t : table) (l : list col_field) : t_columns t = map (fun _ => new_column) l -> not_loaded t.
Proof. intros E. unfold not_loaded. rewrite E. apply Forall_forall. intros c H. apply in_map_iff in H. destruct H as (? & <- & _). auto. Qed.

Lemma upd_nth {A} (l : list A) : forall k x y, nth_error l k = Some x -> nth_error (upd l k y) k = Some y.
Proof. induction l; intros [|k] x y H; try discriminate; cbn in *; eauto. Qed.
Lemma column_exists h k f (t : table) : table_ok h t -> nth_error (sc_columns (t_schema t)) k = Some f -> exists c, nth_error (t_columns t) k = Some c.
Proof.
  intros (P & O & A & C) F. destruct (nth_error (t_columns t) k) as [c|] eqn:E; eauto.
  exfalso. apply nth_error_None in E. rewrite <- (Forall2_len _ _ _ C) in E. apply nth_error_None in E. congruence.
Qed.

(** What the column holds after a read. *)
Lemma loaded_memory h k f (t t1 : table) c : table_ok h t -> nth_error (sc_columns (t_schema t)) k = Some f -> (0 < Count t)%nat ->
  LoadColumnBase h k t = Ret (t1, c) -> nth_error (t_columns t1) k = Some c /\ exists m, memory c = Some m.
Proof.
  intros T F C0 E. destruct (Load_ok h k f t T F) as (t' & c' & E' & _ & _ & _ & _ & _ & _ & N0). rewrite E in E'. injection E' as <- <-.
  split.
  - destruct (column_exists h k f t T F) as (c0 & E0). unfold LoadColumnBase in E. rewrite E0, F in E. destruct (Nat.eqb (vec_size c0) 0).
    + destruct (find_rows _ _); [|discriminate]. destruct (LoadColumn _ _ _ _ _); try discriminate. cbn [obind] in E. injection E as <- <-.
      cbn. eapply upd_nth; eauto.
    + injection E as <- <-. auto.
  - destruct (memory c) eqn:M; eauto. specialize (N0 eq_refl). lia.
Qed.
Lemma Get_after_unload h k f (t t1 : table) c : table_ok h t -> nth_error (sc_columns (t_schema t)) k = Some f -> (0 < Count t)%nat ->
  LoadColumnBase h k t = Ret (t1, c) ->
  exists c', Get h k (UnloadColumn k t1) = Ret (UnloadColumn k t1, c') /\ elements c' = Ret [].
Proof.
  intros T F C0 E. destruct (loaded_memory h k f t t1 c T F C0 E) as (Ec & m & M). exists (Unload c).
  apply (Get_unloaded h k _ _ m); auto. unfold UnloadColumn. rewrite Ec. cbn. eapply upd_nth; eauto.
Qed.
Lemma Get_after_add h k f given (t t1 t2 : table) c : table_ok h t -> nth_error (sc_columns (t_schema t)) k = Some f -> (0 < Count t)%nat ->
  LoadColumnBase h k t = Ret (t1, c) -> AddRows given t1 = (t2, true) ->
  exists c', Get h k t2 = Ret (t2, c') /\ elements c' = Ret [].
Proof.
  intros T F C0 E AD. destruct (loaded_memory h k f t t1 c T F C0 E) as (Ec & m & M). exists (Unload c).
  apply (Get_unloaded h k _ _ m); auto. unfold AddRows in AD. destruct (existsb _ _); [discriminate|]. destruct (negb _); [discriminate|].
  destruct (append_each _ _ _) as [rs []]; [|discriminate]. injection AD as <-. cbn. rewrite nth_error_map, Ec. reflexivity.
Qed.

(** ** OrderBy with the name of a column *)
Lemma at_all (l : list V) d : map (fun i => nth i l d) (seq 0 (length l)) = l.
Proof.
  apply nth_ext with (d := d) (d' := d); [now rewrite map_length, seq_length|].
  intros i Hi. rewrite map_length, seq_length in Hi. rewrite (nth_map_lt _ _ _ _ 0%nat) by now rewrite seq_length. now rewrite seq_nth.
Qed.
Lemma OrderBy_unread h k f desc (t : table) : table_ok h t -> nth_error (sc_columns (t_schema t)) k = Some f -> not_loaded t -> (0 < Count t)%nat ->
  OrderBy_column lanes64 garbage sort_order k desc t = Err.
Proof.
  intros T F NL C0. destruct (column_exists h k f t T F) as (c & Ec). unfold OrderBy_column. rewrite Ec, F.
  destruct (negb (cf_sortable f)); auto. unfold not_loaded in NL. rewrite Forall_forall in NL. destruct (NL c (nth_error_In _ _ Ec)) as (M & Vs).
  unfold elements. rewrite M, Vs. cbn [Nat.eqb obind]. unfold OrderBy. destruct (negb (writable c)); auto. cbn [orb length].
  destruct (Nat.eqb_spec 0 (Count t)); [lia|]. reflexivity.
Qed.
Lemma OrderBy_source h k f desc (t : table) : table_ok h t -> nth_error (sc_columns (t_schema t)) k = Some f -> cf_sortable f = true ->
  not_loaded t -> (0 < Count t)%nat -> sorts le sort_order ->
  exists t1 c1 t2 t3 c2 keys, LoadColumnBase h k t = Ret (t1, c1) /\ OrderBy_column lanes64 garbage sort_order k desc t1 = Ret (t2, t3) /\
    same_rows t t2 /\ LoadColumnBase h k t2 = Ret (t2, c2) /\ elements c2 = Ret keys /\
    Permutation keys (column_values h t f) /\ in_order le desc keys.
Proof.
  intros T F SB NL C0 SO. rewrite (load_fresh h k f t T F NL C0). set (t1 := set_column k (filled h t f) t).
  destruct (Load_ok h k f t T F) as (t1' & c' & E' & S1 & T1 & _). rewrite (load_fresh h k f t T F NL C0) in E'. injection E' as <- <-. fold t1 in S1, T1.
  destruct (column_exists h k f t T F) as (c0 & Ec0).
  assert (Ec : nth_error (t_columns t1) k = Some (filled h t f)) by (cbn; eapply upd_nth; eauto).
  destruct T1 as (P1 & O1 & A1 & K1).
  assert (LV : length (column_values h t f) = Count t1) by (rewrite values_length; reflexivity).
  destruct (OrderBy_ok lanes64 lanes8 garbage LN sort_order le (column_values h t f) desc t1 O1 A1 LV SO)
    as (order & t3 & keys & EO & _ & _ & _ & PO & AT & _ & IO).
  assert (Pk : Permutation keys (column_values h t f)).
  { assert (D : exists d : V, True). { destruct (column_values h t f) as [|d l] eqn:EV; [cbn in LV; change (Count t1) with (Count t) in LV; lia|]. now exists d. }
    destruct D as (d & _). rewrite (AT d). unfold at_positions. rewrite (Permutation_map _ PO). rewrite <- LV.
    rewrite at_all. apply Permutation_refl. }
  assert (Lk : length keys = Count t) by (rewrite (Permutation_length Pk); apply values_length).
  set (c2 := mk_column (Some keys) (bytes_for f (Count t)) Mine (Count t) true).
  exists t1, (filled h t f), (set_column k c2 t1), t3, c2, keys. split; [reflexivity|]. split.
  { unfold OrderBy_column. rewrite Ec. change (t_schema t1) with (t_schema t). rewrite F, SB. cbn [negb]. unfold elements. cbn [memory vec_size filled].
    rewrite values_length, Nat.leb_refl. cbn [obind]. rewrite <- (values_length h t f) at 1. rewrite firstn_all. cbn [writable filled]. rewrite EO. cbn [obind].
    rewrite Lk. replace (skipn (Count t) (column_values h t f)) with (@nil V) by (symmetry; apply skipn_all2; rewrite values_length; lia).
    rewrite app_nil_r. reflexivity. }
  split; [split; reflexivity|]. split; [|split; [|split; auto]].
  - assert (E2 : nth_error (t_columns (set_column k c2 t1)) k = Some c2) by exact (upd_nth _ k _ c2 Ec).
    assert (F2 : nth_error (sc_columns (t_schema (set_column k c2 t1))) k = Some f) by exact F.
    unfold LoadColumnBase. rewrite E2, F2. unfold c2 at 1. cbn [vec_size]. destruct (Nat.eqb_spec (Count t) 0); [lia|]. reflexivity.
  - unfold elements. cbn. rewrite Lk, Nat.leb_refl, <- Lk, firstn_all. reflexivity.
Qed.

(** ** Merge *)
Lemma DoConcat_ok h (other t : table) : table_ok h t -> not_loaded t -> of_schema other -> aligned other -> t_schema other = t_schema t ->
  exists t', DoConcat other t = Some t' /\ t_schema t' = t_schema t /\ table_ok h t' /\ records t' = records t ++ records other.
Proof.
  intros (P & O & A & C) NL Oo Ao S. destruct (Concat_ok other t O Oo S (proj1 P) A Ao) as (t' & E & S' & O' & A' & R').
  unfold Concat, DoConcat in E. unfold DoConcat. cbn [t_schema t_rows UnloadAll Clone with_columns] in E. destruct (negb _); [discriminate|].
  injection E as <-. eexists. split; [reflexivity|]. split; [reflexivity|]. split; [|exact R'].
  split; [exact P|]. split; [split; [exact (proj1 O')|exact (proj2 O)]|]. split; [exact A'|]. cbn.
  unfold not_loaded in NL. clear - C NL. induction C as [|f c l l' H C IH]; constructor.
  - inversion NL as [|? ? (M & Vs) _]; subst. split; [apply H|now left].
  - apply IH. now inversion NL.
Qed.
Lemma Merge_ok h (other t : table) ks fs merge : table_ok h t -> not_loaded t -> of_schema other -> aligned other -> t_schema other = t_schema t ->
  fields_of t ks fs ->
  (forall t', t_schema t' = t_schema t -> records t' = records t ++ records other -> good_keys hashable h t' fs) ->
  equality veq -> (forall A (l : list A), Permutation (shuffle A l) l) -> keeps_width merge (length (sc_rows (t_schema t))) ->
  exists t' gs, Merge veq hashable shuffle h other ks merge t = Ret t' /\ t_schema t' = t_schema t /\ aligned t' /\
    grouped (same_key veq) (map (key_of h t fs) (records t ++ records other)) gs /\ Forall increasing gs /\
    records t' = map (merged merge (records t ++ records other)) gs.
Proof.
  intros T NL Oo Ao S F GK EQ SH W. destruct (DoConcat_ok h other t T NL Oo Ao S) as (t1 & E & S1 & T1 & R1).
  unfold Merge. rewrite E. assert (F1 : fields_of t1 ks fs) by (unfold fields_of; now rewrite S1).
  destruct (DistinctMerge_ok veq hashable shuffle h t1 ks fs merge T1 F1 (GK t1 S1 R1) EQ SH) as (t' & gs & E' & S' & T' & G & I & R').
  { now rewrite S1. }
  exists t', gs. split; [exact E'|]. split; [congruence|]. split; [apply T'|].
  unfold row_keys in G. rewrite R1 in *. split; [|auto].
  replace (map (key_of h t fs) (records t ++ records other)) with (map (key_of h t1 fs) (records t ++ records other)); auto.
  apply map_ext. intros r. unfold key_of. now rewrite S1.
Qed.
Lemma Merge_read h k f (other t : table) merge : table_ok h t -> not_loaded t -> of_schema other -> aligned other -> t_schema other = t_schema t ->
  nth_error (sc_columns (t_schema t)) k = Some f -> cf_bit f = false -> (0 < Count t)%nat -> (0 < Count other)%nat ->
  Forall (fun v => hashable v = true) (column_values h t f) ->
  exists t1 c, LoadColumnBase h k t = Ret (t1, c) /\ Merge veq hashable shuffle h other [k] merge t1 = UB.
Proof.
  intros T NL Oo Ao S F B C0 C1 HA. exists (set_column k (filled h t f) t), (filled h t f). split; [now apply load_fresh|].
  destruct (column_exists h k f t T F) as (c0 & Ec0).
  destruct (DoConcat_ok h other t T NL Oo Ao S) as (t1 & E & S1 & T1 & R1).
  unfold Merge. unfold DoConcat in *. cbn [t_schema t_rows set_column with_columns] in *. destruct (negb _); [discriminate|]. injection E as E.
  set (rs := map _ (t_rows t)) in *. set (t2 := with_rows rs (set_column k (filled h t f) t)).
  assert (E2 : nth_error (t_columns t2) k = Some (filled h t f)) by exact (upd_nth _ _ _ (filled h t f) Ec0).
  assert (F2 : nth_error (sc_columns (t_schema t2)) k = Some f) by exact F.
  assert (LB : LoadColumnBase h k t2 = Ret (t2, filled h t f)).
  { unfold LoadColumnBase. rewrite E2, F2. cbn [vec_size filled]. destruct (Nat.eqb_spec (Count t) 0); [lia|]. reflexivity. }
  unfold DistinctMerge, DistinctByColumns. cbn [load_keys]. rewrite F2, LB. cbn [obind].
  assert (C2 : Count t2 = (Count t + Count other)%nat).
  { change (Count t2) with (Count (with_rows rs t)). rewrite E. rewrite <- (count_records t1), R1, app_length, !count_records. reflexivity. }
  assert (D : forall n i m, (i <= Count t)%nat -> (i + n = Count t2)%nat -> distinct_loop veq hashable n i [(f, filled h t f)] m = UB).
  { induction n as [|n IH]; intros i m Li Ln; [lia|]. cbn [distinct_loop read_key]. rewrite B. cbn [memory filled].
    destruct (nth_error (column_values h t f) i) as [v|] eqn:Ev; [|reflexivity]. cbn [obind].
    assert (i < Count t)%nat. { rewrite <- (values_length h t f). apply nth_error_Some. congruence. }
    match goal with |- context [key_hashable hashable ?l] => assert (KH : key_hashable hashable l = true) end. { unfold key_hashable. cbn. rewrite Forall_forall in HA. rewrite (HA v (nth_error_In _ _ Ev)). reflexivity. }
    rewrite KH. apply IH; lia. }
  rewrite (D (Count t2) 0%nat []) by lia. reflexivity.
Qed.

(** ** A key of type Bit *)
Lemma add_row_bit i m : (forall e, In e m -> fst e = [@None V]) -> add_row veq [@None V] i m = m ++ [([None], (i, []))].
Proof.
  induction m as [|[key [a l]] m IH]; intros H; auto. cbn [add_row]. rewrite (H _ (or_introl eq_refl) : key = [None]). cbn.
  f_equal. apply IH. intros e He. apply H. now right.
Qed.
Lemma distinct_loop_bit f c n : cf_bit f = true -> forall i m, (forall e, In e m -> fst e = [@None V]) ->
  distinct_loop veq hashable n i [(f, c)] m = Ret (m ++ map (fun j => ([None], (Z.of_nat j, []))) (seq i n)).
Proof.
  intros B. induction n as [|n IH]; intros i m H.
  - cbn. now rewrite app_nil_r.
  - cbn [distinct_loop read_key]. rewrite B. cbn [obind]. cbn [key_hashable length Nat.eqb negb andb forallb].
    rewrite add_row_bit by auto. rewrite IH.
    + cbn [seq map]. now rewrite <- app_assoc.
    + intros e He. apply in_app_or in He. destruct He as [He|[<-|[]]]; auto.
Qed.
Lemma GroupBy_bit h k f (t : table) : table_ok h t -> nth_error (sc_columns (t_schema t)) k = Some f -> cf_bit f = true ->
  (forall A (l : list A), Permutation (shuffle A l) l) ->
  exists t' order ts, GroupBy_columns lanes64 garbage veq hashable shuffle h [k] t = Ret (t', ts) /\
    Permutation order (seq 0 (Count t)) /\ Forall2 (table_of_group t) (map (fun i => [i]) order) ts.
Proof.
  intros T F B SH. unfold GroupBy_columns, DistinctByColumns. cbn [load_keys]. rewrite F.
  destruct (Load_ok h k f t T F) as (t1 & c & -> & S & T1 & _). cbn [obind]. destruct (same_facts t t1 S) as (C1 & R1 & _).
  rewrite (distinct_loop_bit f c) by (auto; intros e []). cbn [obind app]. rewrite map_map. cbn [snd].
  match goal with |- context [shuffle ?A ?l] => pose proof (SH A l) as P end.
  apply Permutation_map_inv in P. destruct P as (order & -> & P). rewrite map_map. cbn [fst snd app].
  rewrite C1 in P. apply Permutation_sym in P.
  assert (X : map (fun x => [Z.of_nat x]) order = map (map Z.of_nat) (map (fun i => [i]) order)) by (rewrite map_map; reflexivity).
  rewrite X. destruct T1 as (P1 & O1 & A1 & K1).
  destruct (gather_all_ok lanes64 lanes8 garbage LN t1 (map (fun i => [i]) order) O1 A1) as (ts & -> & G).
  { apply Forall_forall. intros g Hg. apply in_map_iff in Hg. destruct Hg as (i & <- & Hi). constructor; auto. rewrite C1.
    apply (Permutation_in _ P) in Hi. apply in_seq in Hi. lia. }
  cbn [obind]. exists t1, order, ts. split; [reflexivity|]. split; [exact P|].
  eapply Forall2_impl; [|exact G]. intros g t' (X1 & X2 & X3 & X4 & X5). unfold table_of_group. rewrite <- R1, <- (proj1 S). auto.
Qed.
(** A group of two or more rows is not in order. *)
Lemma first_last_order g : increasing g -> (2 <= length g)%nat -> ~ increasing (first_last g).
Proof.
  intros I L J. destruct g as [|i [|j g]]; cbn in L; try lia. unfold first_last in J. cbn in J.
  inversion I as [|? ? _ Hi]; subst. inversion Hi as [|? ? Hij _]; subst.
  inversion J as [|? ? _ Hj]; subst. rewrite Forall_forall in Hj. specialize (Hj i). assert (j < i)%nat by (apply Hj; apply in_or_app; right; now left). lia.
Qed.

(** ** Distinct over several columns *)
Lemma firstn_nth {A} (l : list A) : forall i j, (j < i)%nat -> nth_error (firstn i l) j = nth_error l j.
Proof. induction l as [|a l IH]; intros [|i] [|j] H; try lia; auto. cbn. apply IH. lia. Qed.
Lemma first_in_each_misses h (t : table) fs f i j vi vj : In f fs -> (j < i)%nat -> (i < Count t)%nat ->
  nth_error (column_values h t f) i = Some vi -> nth_error (column_values h t f) j = Some vj -> veq vj vi = true ->
  nth i (first_in_each veq h t fs) true = false.
Proof.
  intros IF L LC Ei Ej E. unfold first_in_each. rewrite count_records. rewrite (nth_map_lt _ _ _ _ 0%nat) by now rewrite seq_length.
  rewrite seq_nth by auto. cbn [Nat.add]. apply not_true_iff_false. intros X. rewrite forallb_forall in X. specialize (X f IF).
  unfold first_few in X. rewrite (nth_map_lt _ _ _ _ 0%nat) in X by (rewrite seq_length, values_length; auto). rewrite seq_nth in X by (rewrite values_length; auto).
  cbn [Nat.add] in X. rewrite Ei in X. apply Z.ltb_lt in X.
  assert (IN : In vj (filter (fun w => veq w vi) (firstn i (column_values h t f)))).
  { apply filter_In. split; auto. apply (nth_error_In _ j). rewrite firstn_nth; auto. }
  destruct (filter _ _); [destruct IN|]. cbn [length] in X. lia.
Qed.

(** ** A failed addition, then a read *)
Lemma torn_read h k f (t : table) s1 s2 rest a b more : table_ok h t -> not_loaded t -> sc_rows (t_schema t) = s1 :: s2 :: rest ->
  a <> [] -> b <> [] -> length a <> length b -> map fst more = rest -> (forall g, In g more -> snd g <> []) ->
  nth_error (sc_columns (t_schema t)) k = Some f -> cf_schema f = s2 ->
  exists t1 t2 c, AddRows ((s1, a) :: (s2, b) :: more) t = (t1, false) /\ LoadColumnBase h k t1 = Ret (t2, c) /\ elements c = UB.
Proof.
  intros T NL SR Na Nb Nl FM NM F FS. pose proof T as (P & O & A & C).
  destruct (AddRows_torn t s1 s2 rest a b more O A SR Na Nb Nl FM NM) as (t1 & E & _ & C1).
  assert (N12 : s1 <> s2). { destruct P as (ND & _). rewrite SR in ND. inversion ND as [|? ? NI]; subst. intros ->. apply NI. now left. }
  (* the row sets after the failed addition *)
  assert (X : exists o1 o2 rs, t_rows t = (s1, o1) :: (s2, o2) :: rs /\ t1 = with_rows ((s1, o1 ++ a) :: (s2, o2) :: rs) t).
  { destruct O as (O & _). rewrite SR in O. destruct (t_rows t) as [|[x1 o1] [|[x2 o2] rs]] eqn:ER; try discriminate.
    cbn in O. injection O as -> -> O. exists o1, o2, rs. split; [reflexivity|]. revert E. unfold AddRows.
    destruct (existsb _ _) eqn:EX.
    { intros E. exfalso. injection E as <-. cbn in C1. destruct a; [contradiction|]. cbn in C1. lia. }
    destruct (negb _) eqn:EN.
    { intros E. exfalso. injection E as <-. destruct a; [contradiction|]. cbn in C1. lia. }
    rewrite ER. cbn [append_each]. rewrite !Nat.eqb_refl. cbn [negb andb].
    assert (La : length a <> 0%nat) by (destruct a; [contradiction|discriminate]).
    rewrite !(proj2 (Nat.eqb_neq _ 0) La). cbn [negb andb]. rewrite (proj2 (Nat.eqb_neq (length a) (length b))) by auto. cbn [negb]. intros E. injection E as <-. reflexivity. }
  destruct X as (o1 & o2 & rs & ER & ->). rewrite E.
  assert (L2 : length o2 = Count t). { apply (A (s2, o2)). rewrite ER. right. now left. }
  destruct (column_exists h k f t T F) as (c0 & Ec0). pose proof (Forall2_nth _ _ _ C k f c0 F Ec0) as (M0 & _).
  unfold not_loaded in NL. rewrite Forall_forall in NL. destruct (NL c0 (nth_error_In _ _ Ec0)) as (M1 & V1).
  set (t1 := with_rows ((s1, o1 ++ a) :: (s2, o2) :: rs) t) in *.
  destruct P as (ND & P). destruct (P f (nth_error_In _ _ F)) as (_ & W).
  assert (La : (0 < length a)%nat) by (destruct a; [contradiction|cbn; lia]).
  enough (LB : exists t2 c, LoadColumnBase h k t1 = Ret (t2, c) /\ elements c = UB).
  { destruct LB as (t2 & c & E1 & E2). exists t1, t2, c. auto. }
  unfold LoadColumnBase. change (t_columns t1) with (t_columns t). change (t_schema t1) with (t_schema t). rewrite Ec0, F, V1. cbn [Nat.eqb].
  cbn [t1 with_rows t_rows find_rows]. rewrite FS, (proj2 (Nat.eqb_neq s1 s2)), Nat.eqb_refl by auto.
  unfold LoadColumn, ReserveMemory. cbv zeta. rewrite (M0 M1).
  assert (B : 0 < bytes_for f (Count t1)). { pose proof (bytes_zero f (Count t1) W). lia. }
  rewrite (proj2 (Z.ltb_lt _ _) B). cbn [memory_size memory].
  assert (BB : bytes_for f (length o2) <= bytes_for f (Count t1)).
  { unfold bytes_for. destruct (cf_bit f); [apply Z.div_le_mono; lia|apply Z.mul_le_mono_nonneg_l; lia]. }
  rewrite (proj2 (Z.ltb_ge _ _) BB). cbn [obind]. eexists _, _. split; [reflexivity|].
  unfold elements. cbn [memory vec_size]. rewrite skipn_nil, app_nil_r, map_length, L2, (proj2 (Nat.leb_gt _ _)) by lia. reflexivity.
Qed.

(** ** Set *)
Lemma Set_lost h k f u data w (t : table) : table_ok h t -> nth_error (sc_columns (t_schema t)) k = Some f -> cf_write_back f = false ->
  length data = Count t -> (0 < Count t)%nat ->
  exists t1, Set_ h k u data w t = Ret (h, t1, true) /\ same_rows t t1 /\
    (exists t2 c, LoadColumnBase h k t1 = Ret (t2, c) /\ elements c = Ret data) /\
    forall m, mask_for m (Count t) -> exists t2 t3 c, Filter lanes64 garbage m t1 = Ret t2 /\ LoadColumnBase h k t2 = Ret (t3, c) /\
      elements c = Ret (column_values h t2 f).
Proof.
  intros T F WB L C0. pose proof T as (P & O & A & C). destruct (column_exists h k f t T F) as (c0 & Ec0). unfold Set_. rewrite Ec0, F, L, Nat.eqb_refl. cbn [negb]. rewrite WB. cbn [andb].
  eexists. split; [reflexivity|]. set (t1 := set_column k _ t). assert (SR : same_rows t t1) by (split; reflexivity). split; [exact SR|]. split.
  - eexists _, _. unfold LoadColumnBase. change (t_schema t1) with (t_schema t). change (t_columns t1) with (upd (t_columns t) k (mk_column (Some data) (bytes_for f (Count t)) (User u) (Count t) w)). rewrite (upd_nth _ _ _ _ Ec0), F. cbn [vec_size].
    destruct (Nat.eqb_spec (Count t) 0); [lia|]. split; [reflexivity|]. unfold elements. cbn. rewrite L, Nat.leb_refl, <- L, firstn_all. reflexivity.
  - intros m M. assert (O1 : of_schema t1) by (apply (same_of t); auto; apply upd_len). assert (A1 : aligned t1) by exact A.
    destruct (Filter_ok lanes64 lanes8 garbage LN m t1 O1 A1 M) as (t2 & E & S2 & O2 & A2 & _). exists t2.
    assert (T2 : table_ok h t2). { apply (made_ok h t2 (sc_columns (t_schema t))); auto; [rewrite S2; exact P|now rewrite S2|].
      rewrite (Filter_cols lanes64 garbage m t1 t2 E). reflexivity. }
    assert (F2 : nth_error (sc_columns (t_schema t2)) k = Some f) by (rewrite S2; exact F).
    destruct (Load_ok h k f t2 T2 F2) as (t3 & c & E3 & _ & _ & El & _). exists t3, c. auto.
Qed.
(** The user's memory is what a later read fills. *)
Lemma Set_overwritten h k f u data (t : table) : table_ok h t -> nth_error (sc_columns (t_schema t)) k = Some f -> cf_write_back f = false ->
  length data = Count t -> (0 < Count t)%nat ->
  exists t1 t2 c, Set_ h k u data true t = Ret (h, t1, true) /\ LoadColumnBase h k (UnloadColumn k t1) = Ret (t2, c) /\
    owned_by c = User u /\ memory c = Some (column_values h t f).
Proof.
  intros T F WB L C0. pose proof T as (P & O & A & C). destruct (column_exists h k f t T F) as (c0 & Ec0). unfold Set_. rewrite Ec0, F, L, Nat.eqb_refl. cbn [negb]. rewrite WB. cbn [andb].
  set (c1 := mk_column _ _ _ _ _). exists (set_column k c1 t).
  assert (E1 : nth_error (t_columns (set_column k c1 t)) k = Some c1) by (cbn; eapply upd_nth; eauto).
  unfold UnloadColumn. rewrite E1. set (t1 := set_column k (Unload c1) (set_column k c1 t)).
  assert (E2 : nth_error (t_columns t1) k = Some (Unload c1)) by (cbn; eapply upd_nth; eauto).
  destruct P as (ND & P). destruct (P f (nth_error_In _ _ F)) as (IN & W).
  unfold LoadColumnBase. rewrite E2. change (t_schema t1) with (t_schema t). rewrite F. cbn [vec_size Unload Nat.eqb].
  change (t_rows t1) with (t_rows t). change (Count t1) with (Count t).
  destruct (find_column (t_rows t) (cf_schema f)) as (objs & -> & LO & RO); [exact A|destruct O as (O & _); now rewrite O|].
  change (count_of (t_rows t)) with (Count t) in LO.
  assert (VV : map (fun p => h p (cf_field f)) objs = column_values h t f).
  { unfold column_values. rewrite <- RO. rewrite map_map. destruct O as (O & _). rewrite O. reflexivity. }
  unfold LoadColumn, ReserveMemory. cbv zeta. cbn [memory_size Unload c1]. rewrite Z.ltb_irrefl. cbn [memory_size memory]. rewrite LO, Z.ltb_irrefl. cbn [obind].
  eexists _, _. split; [reflexivity|]. split; [reflexivity|]. cbn [owned_by memory]. split; [reflexivity|].
  rewrite VV, values_length, <- L, skipn_all, app_nil_r. reflexivity.
Qed.

Lemma reachable_ok h (t : table) : fair lanes64 lanes8 veq sort_order partial_order shuffle le ->
  reachable lanes64 lanes8 garbage veq hashable sort_order partial_order shuffle h t -> table_ok h t.
Proof.
  intros (M & EQ & SO & PO & SH) (l & ts & oks & x & CA & E & X).
  destruct (calls_ok lanes64 lanes8 garbage M veq hashable sort_order partial_order shuffle le EQ SO PO SH l (h, []) ltac:(constructor) CA) as (st & oks' & E' & ST & _).
  rewrite E in E'. injection E' as <- _. unfold state_ok in ST. cbn in ST. rewrite Forall_forall in ST. apply ST. eauto using nth_error_In.
Qed.
End T.
