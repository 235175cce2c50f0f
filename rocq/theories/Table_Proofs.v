From Coq Require Import List Bool Arith ZArith Lia Sorted Permutation.
Import ListNotations.
From Verif Require Import Base Simd_Spec Vector_Spec Vector_Model Vector_Proofs Simd_Model Simd_Proofs Table_Model Table_Spec.
Local Open Scope Z_scope.

(** ** Lists *)
Lemma nth_seq_map {A} (l : list A) d : map (fun i => nth i l d) (seq 0 (length l)) = l.
Proof.
  apply (list_ext _ _ d). { now rewrite map_length, seq_length. }
  intros k Hk. rewrite map_length, seq_length in Hk.
  rewrite (nth_indep _ d (nth 0%nat l d)) by (rewrite map_length, seq_length; lia).
  rewrite (map_nth (fun i => nth i l d)), seq_nth by lia. reflexivity.
Qed.
Lemma nth_map_lt {A B} (f : A -> B) l i d d' : (i < length l)%nat -> nth i (map f l) d = f (nth i l d').
Proof. intros H. rewrite (nth_indep _ d (f d')) by (rewrite map_length; lia). apply map_nth. Qed.
Lemma map_over_nth {A B} (g : A -> B) (l : list A) d : map (fun j => g (nth j l d)) (seq 0 (length l)) = map g l.
Proof. rewrite <- (map_map (fun j => nth j l d) g), nth_seq_map. reflexivity. Qed.
Lemma at_positions_all {A} (d : A) l : at_positions d l (seq 0 (length l)) = l.
Proof. apply nth_seq_map. Qed.
Lemma at_positions_firstn {A} (d : A) l k : (k <= length l)%nat -> at_positions d l (seq 0 k) = firstn k l.
Proof.
  intros H. unfold at_positions. apply (list_ext _ _ d). { rewrite map_length, seq_length, firstn_length. lia. }
  intros j Hj. rewrite map_length, seq_length in Hj. rewrite (nth_map_lt _ _ _ _ 0%nat) by (rewrite seq_length; lia).
  rewrite seq_nth by lia. now rewrite nth_firstn.
Qed.
Lemma at_positions_skipn {A} (d : A) l p k : (p + k <= length l)%nat -> at_positions d l (seq p k) = firstn k (skipn p l).
Proof.
  intros H. unfold at_positions. apply (list_ext _ _ d). { rewrite map_length, seq_length, firstn_length, skipn_length. lia. }
  intros j Hj. rewrite map_length, seq_length in Hj. rewrite (nth_map_lt _ _ _ _ 0%nat) by (rewrite seq_length; lia).
  rewrite seq_nth by lia. rewrite nth_firstn by lia. now rewrite nth_skipn.
Qed.
Lemma select_positions {A} (d : A) : forall mask l, length mask = length l -> forall pre,
  select mask l = map (fun i => nth i (pre ++ l) d) (select mask (seq (length pre) (length l))).
Proof.
  induction mask as [|m mask IH]; intros [|x l] L pre; try discriminate; auto.
  cbn [length seq]. specialize (IH l ltac:(simpl in L; lia) (pre ++ [x])).
  rewrite <- app_assoc in IH. cbn [app] in IH. rewrite app_length in IH. cbn [length] in IH.
  replace (length pre + 1)%nat with (S (length pre)) in IH by lia.
  destruct m; cbn [select map]; rewrite IH; [|reflexivity].
  f_equal. rewrite app_nth2 by lia. now rewrite Nat.sub_diag.
Qed.
Lemma select_at {A} (d : A) mask l : length mask = length l ->
  select mask l = at_positions d l (select mask (seq 0 (length l))).
Proof. intros L. exact (select_positions d mask l L []). Qed.
Lemma select_incl {A} : forall mask (l : list A) x, In x (select mask l) -> In x l.
Proof.
  induction mask as [|m mask IH]; intros [|y l] x H; cbn [select] in H; try easy.
  destruct m; [destruct H as [->|H]; [now left|]|]; right; auto.
Qed.

(** ** Rows *)
Lemma count_records {V} (t : @table V) : length (records t) = Count t.
Proof. unfold records, records_of. now rewrite map_length, seq_length. Qed.
Lemma nth_records rs i d : (i < count_of rs)%nat -> nth i (records_of rs) d = record_at rs i.
Proof. intros H. unfold records_of. rewrite (nth_map_lt _ _ _ _ 0%nat) by (rewrite seq_length; lia). now rewrite seq_nth. Qed.

(** Rows at some positions. *)
Definition at_rows (idx : list nat) (rs : list (nat * list Z)) : list (nat * list Z) :=
  map (fun r => (fst r, at_positions 0 (snd r) idx)) rs.
Lemma at_rows_fst idx rs : map fst (at_rows idx rs) = map fst rs.
Proof. unfold at_rows. rewrite map_map. apply map_ext. intros []; reflexivity. Qed.
Lemma at_rows_count idx rs : rs <> [] -> count_of (at_rows idx rs) = length idx.
Proof. destruct rs as [|[s o] rs]; [easy|]. intros _. cbn. unfold at_positions. now rewrite map_length. Qed.
Lemma at_rows_count_lt idx rs : Forall (fun i => i < count_of rs)%nat idx -> count_of (at_rows idx rs) = length idx.
Proof.
  intros F. destruct rs; [|now apply at_rows_count]. destruct idx; auto. exfalso. inversion F. cbn in *. lia.
Qed.
Lemma at_rows_aligned idx rs : aligned_rows (at_rows idx rs).
Proof.
  intros r H. unfold at_rows in H. apply in_map_iff in H. destruct H as (r0 & <- & H). cbn [snd fst].
  rewrite at_rows_count by (intros ->; easy). unfold at_positions. now rewrite map_length.
Qed.
Lemma at_rows_records idx rs : Forall (fun i => i < count_of rs)%nat idx ->
  records_of (at_rows idx rs) = at_positions [] (records_of rs) idx.
Proof.
  intros F. unfold records_of at 1. rewrite at_rows_count_lt by auto. unfold at_positions.
  rewrite <- (map_over_nth (fun i => nth i (records_of rs) []) idx 0%nat).
  apply map_ext_in. intros j Hj. apply in_seq in Hj.
  assert (L : (nth j idx 0 < count_of rs)%nat). { rewrite Forall_forall in F. apply F. apply nth_In. lia. }
  rewrite nth_records by auto. unfold record_at, at_rows. rewrite map_map. apply map_ext. intros [s o]. cbn [fst snd].
  unfold at_positions. rewrite (nth_map_lt _ _ _ _ 0%nat) by lia. reflexivity.
Qed.

Lemma each_rows_ret g g' rs : (forall r, In r rs -> g (snd r) = Ret (g' (snd r))) ->
  each_rows g rs = Ret (map (fun r => (fst r, g' (snd r))) rs).
Proof.
  induction rs as [|[s o] rs IH]; intros H; auto. cbn [each_rows].
  pose proof (H (s, o) (or_introl eq_refl)) as E. cbn [snd] in E. rewrite E. cbn [obind].
  rewrite IH by (intros r Hr; apply H; now right). reflexivity.
Qed.
Lemma each_rows_at g idx rs : (forall r, In r rs -> g (snd r) = Ret (at_positions 0 (snd r) idx)) ->
  each_rows g rs = Ret (at_rows idx rs).
Proof. intros H. rewrite (each_rows_ret g (fun o => at_positions 0 o idx)); auto. Qed.

Section T.
Context {V : Type}.
Variables (lanes64 lanes8 garbage : Z).
Notation table := (@table V).

Hypothesis LN : machine lanes64 lanes8.

Lemma aligned_len (t : table) r : aligned t -> In r (t_rows t) -> length (snd r) = Count t.
Proof. intros A H. apply A; auto. Qed.

(** A table with other rows of the same types, and unloaded columns. *)
Definition fresh_table (t : table) (idx : list nat) (t' : table) : Prop :=
  t_schema t' = t_schema t /\ t_rows t' = at_rows idx (t_rows t) /\
  t_columns t' = map (fun _ => new_column) (sc_columns (t_schema t)).

Lemma fresh_result (t t' : table) idx : of_schema t -> Forall (fun i => i < Count t)%nat idx -> fresh_table t idx t' ->
  of_schema t' /\ aligned t' /\ records t' = at_positions [] (records t) idx.
Proof.
  intros (E1 & E2) F (S & R & C). split; [|split].
  - unfold of_schema. rewrite S, R, C, at_rows_fst, map_length. auto.
  - unfold aligned. rewrite R. apply at_rows_aligned.
  - unfold records. rewrite R. apply at_rows_records. exact F.
Qed.

Lemma unload_new sc : map Unload (map (fun _ : col_field => @new_column V) sc) = map (fun _ => new_column) sc.
Proof. rewrite map_map. reflexivity. Qed.
Lemma clear_new sc : map Clear (map (fun _ : col_field => @new_column V) sc) = map (fun _ => new_column) sc.
Proof. rewrite map_map. reflexivity. Qed.

(** Filters *)

Lemma filter_rows_ok m objs : mask_for m (length objs) ->
  filter_rows lanes64 garbage m objs = Ret (select (flags m (length objs)) objs).
Proof.
  intros (B & L). unfold filter_rows. destruct LN as (L1 & _). apply filter_num_ok; auto.
  - simpl in *. unfold lane_counts. simpl. lia.
  - assert (D : lanes64 < 8 \/ lanes64 = 8) by (simpl in L1; lia). destruct D as [D|D]; [left; auto|right].
    rewrite D. change (8 / 8) with 1. apply Z.mod_1_r.
  - unfold zlen. rewrite repeat_length. lia.
Qed.
Lemma flags_length m n : length (flags m n) = n. Proof. apply bits_of_length. Qed.
Lemma chosen_lt (m : bits) n : Forall (fun i => i < n)%nat (select (flags m n) (seq 0 n)).
Proof. apply Forall_forall. intros i H. apply select_incl, in_seq in H. lia. Qed.

Lemma DoFilter_rows m (t : table) : aligned t -> mask_for m (Count t) ->
  DoFilter lanes64 garbage m t = Ret (UnloadAll (with_rows (at_rows (select (flags m (Count t)) (seq 0 (Count t))) (t_rows t)) t)).
Proof.
  intros A M. unfold DoFilter. rewrite (each_rows_at _ (select (flags m (Count t)) (seq 0 (Count t)))); [reflexivity|].
  intros r Hr. pose proof (aligned_len t r A Hr) as L. rewrite filter_rows_ok; rewrite L; auto.
  f_equal. rewrite (select_at 0) by (rewrite flags_length; auto). now rewrite L.
Qed.
Lemma Filter_ok m (t : table) : of_schema t -> aligned t -> mask_for m (Count t) ->
  exists t', Filter lanes64 garbage m t = Ret t' /\ t_schema t' = t_schema t /\ of_schema t' /\ aligned t' /\
    records t' = select (flags m (Count t)) (records t).
Proof.
  intros O A M. unfold Filter. rewrite DoFilter_rows by auto. eexists. split; [reflexivity|]. split; [reflexivity|].
  destruct (fresh_result t (UnloadAll (with_rows (at_rows (select (flags m (Count t)) (seq 0 (Count t))) (t_rows t)) (Clone t)))
    (select (flags m (Count t)) (seq 0 (Count t))) O) as (X1 & X2 & X3).
  - apply chosen_lt.
  - split; [reflexivity|]. split; [reflexivity|]. apply unload_new.
  - split; [exact X1|]. split; [exact X2|]. refine (eq_trans X3 _).
    rewrite <- count_records. symmetry. apply select_at. apply flags_length.
Qed.

(** Split *)
Lemma words_bytes_buffer ws : byte_buffer (words_bytes ws).
Proof.
  induction ws as [|w ws IH]; [constructor|]. change (words_bytes (w :: ws)) with (word_bytes w 8 ++ words_bytes ws).
  apply Forall_app. split; auto. apply Forall_forall. intros b H. unfold word_bytes in H. apply in_map_iff in H.
  destruct H as (k & <- & _). apply Z.mod_pos_bound. lia.
Qed.
Lemma words_bytes_length ws : length (words_bytes ws) = (8 * length ws)%nat.
Proof.
  induction ws as [|w ws IH]; auto. change (words_bytes (w :: ws)) with (word_bytes w 8 ++ words_bytes ws).
  rewrite app_length, IH, word_bytes_length. cbn [length]. lia.
Qed.
Lemma fresh_words_room n : byte_count_of (Z.of_nat n) <= zlen (words_bytes (fresh_words garbage n)).
Proof.
  unfold zlen, fresh_words. rewrite words_bytes_length, repeat_length.
  pose proof (div64_room (Z.of_nat n) ltac:(lia)). pose proof (byte_count_bounds (Z.of_nat n) ltac:(lia)).
  assert (0 <= (Z.of_nat n + 63) / 64) by (apply Z.div_pos; lia). lia.
Qed.

Lemma Split_ok m (t : table) : of_schema t -> aligned t -> mask_for m (Count t) -> bit_size m = Count t ->
  exists a b, Split lanes64 lanes8 garbage m t = Ret (a, b) /\
    (t_schema a = t_schema t /\ of_schema a /\ aligned a /\ records a = select (flags m (Count t)) (records t)) /\
    (t_schema b = t_schema t /\ of_schema b /\ aligned b /\ records b = select (map negb (flags m (Count t))) (records t)).
Proof.
  intros O A M Z. unfold Split. rewrite Z. set (n := Count t) in *.
  destruct M as (B & L). pose proof (byte_count_bounds (Z.of_nat n) ltac:(lia)) as BC.
  destruct (bits_not_ok lanes8 false (bit_bytes m) (words_bytes (fresh_words garbage n)) (Z.of_nat n)) as (out & E & Lo & G1 & G2 & G3).
  { apply LN. } { lia. } { cbn. unfold zlen. lia. } { apply fresh_words_room. }
  rewrite E. cbn [obind].
  destruct (Filter_ok m t O A) as (a & Ea & Ha); [split; auto|]. rewrite Ea. cbn [obind].
  destruct (Filter_ok (mk_bits out n) t O A) as (b & Eb & Hb).
  { split; cbn [bit_bytes]. { apply G3, words_bytes_buffer. } pose proof (fresh_words_room n). unfold zlen in *. fold n. lia. }
  rewrite Eb. cbn [obind]. exists a, b. split; [reflexivity|]. split; [exact Ha|].
  replace (map negb (flags m n)) with (flags (mk_bits out n) n); [exact Hb|].
  unfold flags, bits_of. rewrite map_map. cbn [bit_bytes]. apply map_ext_in. intros i Hi. apply in_seq in Hi. apply G1. lia.
Qed.

(** Head and Tail *)
Lemma Head_ok k (t : table) : of_schema t -> aligned t -> (k < Count t)%nat ->
  exists t', Head k t = Another t' /\ t_schema t' = t_schema t /\ of_schema t' /\ aligned t' /\ records t' = firstn k (records t).
Proof.
  intros O A K. unfold Head. rewrite (proj2 (Nat.leb_gt _ _) K). eexists. split; [reflexivity|]. split; [reflexivity|].
  set (t' := UnloadAll (map_rows (Truncate k) (Clone t))).
  destruct (fresh_result t t' (seq 0 k) O) as (X1 & X2 & X3).
  - apply Forall_forall. intros i H. apply in_seq in H. lia.
  - split; [reflexivity|]. split; [|apply unload_new]. cbn. unfold at_rows. apply map_ext_in. intros r Hr. f_equal.
    rewrite at_positions_firstn by (rewrite (aligned_len t r); auto; lia). unfold Truncate.
    destruct (Nat.ltb_spec k (length (snd r))); auto. rewrite (aligned_len t r) in *; auto. lia.
  - split; [exact X1|]. split; [exact X2|]. rewrite X3. apply at_positions_firstn. rewrite count_records. lia.
Qed.
Lemma Tail_ok k (t : table) : of_schema t -> aligned t -> (0 < k < Count t)%nat ->
  exists t', Tail k t = Another t' /\ t_schema t' = t_schema t /\ of_schema t' /\ aligned t' /\
    records t' = skipn (Count t - k) (records t).
Proof.
  intros O A K. unfold Tail. rewrite (proj2 (Nat.leb_gt _ _) (proj2 K)). eexists. split; [reflexivity|]. split; [reflexivity|].
  set (t' := map_rows (Truncate_from (Count t - k) k) (UnloadAll (Clone t))).
  destruct (fresh_result t t' (seq (Count t - k) k) O) as (X1 & X2 & X3).
  - apply Forall_forall. intros i H. apply in_seq in H. lia.
  - split; [reflexivity|]. split; [|apply unload_new]. cbn. unfold at_rows. apply map_ext_in. intros r Hr. f_equal.
    rewrite at_positions_skipn by (rewrite (aligned_len t r); auto; lia). unfold Truncate_from. rewrite (aligned_len t r); auto.
    rewrite (proj2 (Nat.leb_gt _ _)) by lia. rewrite (proj2 (Nat.ltb_ge _ _)) by lia. reflexivity.
  - split; [exact X1|]. split; [exact X2|]. rewrite X3. rewrite at_positions_skipn by (rewrite count_records; lia).
    apply firstn_all2. rewrite skipn_length, count_records. lia.
Qed.
Lemma Head_all k (t : table) : (Count t <= k)%nat -> Head k t = Itself /\ Tail k t = Itself.
Proof. intros K. unfold Head, Tail. now rewrite (proj2 (Nat.leb_le _ _) K). Qed.
Lemma Tail_zero (t : table) : of_schema t -> aligned t -> (0 < Count t)%nat ->
  exists t', Tail 0 t = Another t' /\ records t' = records t.
Proof.
  intros O A K. unfold Tail. rewrite (proj2 (Nat.leb_gt _ _) K). eexists. split; [reflexivity|].
  unfold records. cbn. unfold records_of. set (rs := map _ (t_rows t)).
  assert (E : rs = t_rows t).
  { unfold rs. erewrite map_ext_in; [apply map_id|]. intros [s o] Hr. cbn [fst snd]. f_equal. unfold Truncate_from.
    pose proof (aligned_len t _ A Hr) as L. cbn [snd] in L. now rewrite (proj2 (Nat.leb_le _ _)) by lia. }
  now rewrite E.
Qed.

(** Ordering *)
Lemma pick_ok {A} (d : A) l order : Forall (fun i => i < length l)%nat order -> pick l order = Ret (at_positions d l order).
Proof.
  induction order as [|i order IH]; intros F; auto. inversion F as [|? ? Hi F']; subst. cbn [pick].
  rewrite (nth_error_nth' l d) by auto. rewrite IH by auto. reflexivity.
Qed.
Lemma pick_any {A} (l : list A) order : Forall (fun i => i < length l)%nat order ->
  exists r, pick l order = Ret r /\ forall d, r = at_positions d l order.
Proof.
  intros F. destruct l as [|d l].
  - destruct order as [|i order]; [exists []; split; auto; intros; reflexivity|]. inversion F as [|? ? Hi]. cbn in Hi. lia.
  - exists (at_positions d (d :: l) order). split; [now apply pick_ok|]. intros d'. unfold at_positions.
    apply map_ext_in. intros i Hi. apply nth_indep. rewrite Forall_forall in F. auto.
Qed.
Lemma pick_positions n order : Forall (fun i => i < n)%nat order -> pick (positions n) order = Ret (map Z.of_nat order).
Proof.
  intros F. rewrite (pick_ok 0) by (unfold positions; rewrite map_length, seq_length; auto). f_equal.
  unfold at_positions, positions. apply map_ext_in. intros i Hi. rewrite Forall_forall in F.
  rewrite (nth_map_lt _ _ _ _ 0%nat) by (rewrite seq_length; auto). now rewrite seq_nth by auto.
Qed.
Lemma gather_rows_ok idx objs : Forall (fun i => i < length objs)%nat idx ->
  gather_rows lanes64 garbage (map Z.of_nat idx) objs = Ret (at_positions 0 objs idx).
Proof.
  intros F. unfold gather_rows. rewrite gather_impl_ok.
  - f_equal. unfold at_positions. rewrite map_map. apply map_ext. intros i. unfold index_or.
    rewrite (proj2 (Z.ltb_ge _ _)) by lia. now rewrite Nat2Z.id.
  - destruct LN as (L & _). simpl in L. lia.
  - now rewrite repeat_length.
  - intros p i H _. apply nth_error_In, in_map_iff in H. destruct H as (j & <- & H). rewrite Forall_forall in F.
    specialize (F j H). unfold zlen. lia.
Qed.
Lemma each_gather idx (t : table) : aligned t -> Forall (fun i => i < Count t)%nat idx ->
  each_rows (gather_rows lanes64 garbage (map Z.of_nat idx)) (t_rows t) = Ret (at_rows idx (t_rows t)).
Proof. intros A F. apply each_rows_at. intros r Hr. apply gather_rows_ok. now rewrite (aligned_len t r). Qed.

Lemma GatherSubTable_ok idx (t : table) : of_schema t -> aligned t -> Forall (fun i => i < Count t)%nat idx ->
  exists t', GatherSubTable lanes64 garbage (map Z.of_nat idx) t = Ret t' /\ t_schema t' = t_schema t /\ of_schema t' /\ aligned t' /\
    records t' = at_positions [] (records t) idx.
Proof.
  intros O A F. unfold GatherSubTable. rewrite each_gather by auto. cbn [obind]. eexists. split; [reflexivity|]. split; [reflexivity|].
  apply fresh_result; auto. split; [reflexivity|]. split; [reflexivity|]. apply clear_new.
Qed.

Lemma perm_lt order n : Permutation order (seq 0 n) -> Forall (fun i => i < n)%nat order.
Proof. intros P. apply Forall_forall. intros i H. apply (Permutation_in _ P), in_seq in H. lia. Qed.

Variable sort_order : list V -> bool -> list nat.
Variable partial_order : list V -> nat -> bool -> list nat.
Variable le : V -> V -> Prop.

Lemma OrderBy_ok keys desc (t : table) : of_schema t -> aligned t -> length keys = Count t -> sorts le sort_order ->
  exists order t' keys', OrderBy lanes64 garbage sort_order keys true desc t = Ret (t', keys') /\
    t_schema t' = t_schema t /\ of_schema t' /\ aligned t' /\ Permutation order (seq 0 (Count t)) /\
    (forall d, keys' = at_positions d keys order) /\ records t' = at_positions [] (records t) order /\ in_order le desc keys'.
Proof.
  intros O A L S. destruct (S keys desc) as (P & I). unfold OrderBy. rewrite L, Nat.eqb_refl. cbn [negb orb].
  rewrite L in P. pose proof (perm_lt _ _ P) as F. exists (sort_order keys desc).
  destruct (pick_any keys (sort_order keys desc)) as (keys' & E & K); [rewrite L; auto|]. rewrite E. cbn [obind].
  rewrite pick_positions by auto. cbn [obind].
  rewrite each_gather by auto. cbn [obind]. eexists _, _. split; [reflexivity|]. split; [reflexivity|].
  set (t' := UnloadAll (with_rows (at_rows (sort_order keys desc) (t_rows t)) (Clone t))).
  destruct (fresh_result t t' (sort_order keys desc) O F) as (X1 & X2 & X3).
  { split; [reflexivity|]. split; [reflexivity|]. apply unload_new. }
  split; [exact X1|]. split; [exact X2|]. split; [exact P|]. split; [exact K|].
  split; [exact X3|]. destruct keys' as [|d k']; [constructor|]. rewrite (K d). apply I.
Qed.
Lemma Topk_ok keys k desc (t : table) : of_schema t -> aligned t -> length keys = Count t -> selects le partial_order ->
  exists order t' keys', Topk lanes64 garbage partial_order keys true k desc t = Ret (t', keys') /\
    t_schema t' = t_schema t /\ of_schema t' /\ aligned t' /\ Permutation order (seq 0 (Count t)) /\
    (forall d, keys' = at_positions d keys order) /\ records t' = firstn k (at_positions [] (records t) order) /\
    in_order le desc (firstn k keys') /\
    forall a b, In a (firstn k keys') -> In b (skipn k keys') -> if desc then le b a else le a b.
Proof.
  intros O A L S. unfold Topk. rewrite L, Nat.eqb_refl. cbn [negb orb].
  set (k' := if Nat.ltb (Count t) k then Count t else k).
  assert (K' : (k' <= length keys)%nat /\ forall A (l : list A), length l = Count t -> firstn k l = firstn k' l /\ skipn k l = skipn k' l).
  { unfold k'. destruct (Nat.ltb_spec (Count t) k); split; try lia; intros B l E; [|auto].
    rewrite !firstn_all2, !skipn_all2 by lia. auto. }
  destruct K' as (K1 & K2). destruct (S keys k' desc K1) as (P & I).
  rewrite L in P. pose proof (perm_lt _ _ P) as F. exists (partial_order keys k' desc).
  destruct (pick_any keys (partial_order keys k' desc)) as (keys' & E & K); [rewrite L; auto|]. rewrite E. cbn [obind].
  rewrite pick_positions by auto. cbn [obind]. rewrite firstn_map.
  assert (F' : Forall (fun i => i < Count t)%nat (firstn k' (partial_order keys k' desc))).
  { rewrite <- (firstn_skipn k') in F. apply Forall_app in F. apply F. }
  rewrite each_gather by auto. cbn [obind]. eexists _, _. split; [reflexivity|]. split; [reflexivity|].
  set (t' := UnloadAll (with_rows (at_rows (firstn k' (partial_order keys k' desc)) (t_rows t)) (Clone t))).
  destruct (fresh_result t t' _ O F') as (X1 & X2 & X3).
  { split; [reflexivity|]. split; [reflexivity|]. apply unload_new. }
  assert (LO : length (partial_order keys k' desc) = Count t) by (apply Permutation_length in P; now rewrite seq_length in P).
  split; [exact X1|]. split; [exact X2|]. split; [exact P|]. split; [exact K|]. split.
  { rewrite (proj1 (K2 _ (at_positions [] (records t) (partial_order keys k' desc)) ltac:(unfold at_positions; rewrite map_length; auto))).
    rewrite X3. unfold at_positions. symmetry. apply firstn_map. }
  assert (LK : length keys' = Count t).
  { destruct keys as [|d keys0]; [|rewrite (K d); unfold at_positions; now rewrite map_length].
    cbn in L. destruct (partial_order [] k' desc) as [|x l]; [|cbn in LO; lia]. cbn in E. injection E as <-. auto. }
  destruct (K2 _ keys' LK) as (-> & ->). destruct keys' as [|d keys'].
  - rewrite firstn_nil. split; [constructor|]. intros a b [].
  - rewrite (K d). apply I.
Qed.
End T.
