(** Duplicates; visiting rows. *)
From Coq Require Import List Bool Arith ZArith Lia Sorted Permutation.
Import ListNotations.
From Verif Require Import Base Simd_Spec Vector_Spec Vector_Model Vector_Proofs Simd_Model Simd_Proofs
  Table_Model Table_Spec Table_Proofs TableRows_Proofs TableColumns_Proofs TableGroup_Proofs.
Local Open Scope Z_scope.

Section T.
Context {V : Type}.
Variables (lanes64 lanes8 garbage : Z).
Hypothesis LN : machine lanes64 lanes8.
Variable veq : V -> V -> bool.
Hypothesis EQ : equality veq.
Notation table := (@table V).

(** ** Counters *)
Definition times (v : V) (l : list V) : Z := Z.of_nat (length (filter (fun w => veq w v) l)).
Lemma bump_step x : forall m, (forall e, In e m -> 0 <= snd e < 2 ^ 32 - 1) -> forall v,
  fst (bump veq v (snd (bump veq x m))) = fst (bump veq v m) + (if veq x v then 1 else 0).
Proof.
  destruct EQ as (S & T). induction m as [|[k n] m IH]; intros B v; cbn.
  - destruct (veq x v); reflexivity.
  - pose proof (B (k, n) (or_introl eq_refl)) as Bn. cbn in Bn.
    destruct (veq k x) eqn:Q; cbn.
    + destruct (veq k v) eqn:Qv; cbn.
      * rewrite (T x k v (S _ _ Q) Qv). unfold wrapu. rewrite Z.mod_small by lia. reflexivity.
      * destruct (bump veq v m) as [r m'']. cbn. destruct (veq x v) eqn:Qx; [|lia].
        rewrite (T k x v Q Qx) in Qv. discriminate.
    + specialize (IH ltac:(intros e He; apply B; now right) v).
      destruct (bump veq x m) as [r m''] eqn:E. cbn. destruct (veq k v) eqn:Qv; cbn.
      * destruct (veq x v) eqn:Qx; [|lia]. exfalso. rewrite (T k v x Qv (S _ _ Qx)) in Q. discriminate.
      * cbn in IH. destruct (bump veq v m'') as [r1 m1], (bump veq v m) as [r2 m2]. cbn in *. exact IH.
Qed.
Lemma bump_bound x n : forall m, (forall e, In e m -> 0 <= snd e <= n) -> 0 <= n < 2 ^ 32 - 1 ->
  forall e, In e (snd (bump veq x m)) -> 0 <= snd e <= n + 1.
Proof.
  induction m as [|[k c] m IH]; intros B Hn e He; cbn in He.
  - destruct He as [<-|[]]. cbn. lia.
  - pose proof (B (k, c) (or_introl eq_refl)) as Bc. cbn in Bc. destruct (veq k x).
    + cbn in He. destruct He as [<-|He].
      * cbn. unfold wrapu. rewrite Z.mod_small by lia. lia.
      * specialize (B e ltac:(now right)). lia.
    + destruct (bump veq x m) as [r m''] eqn:E. cbn in He. destruct He as [<-|He]; [cbn; lia|].
      apply IH; auto. intros e' He'. apply B. now right.
Qed.
Fixpoint flags_from (k : Z) (pre data : list V) : list bool :=
  match data with
  | [] => []
  | v :: data' => (times v pre <? k) :: flags_from k (pre ++ [v]) data'
  end.
Lemma times_snoc v l x : times v (l ++ [x]) = times v l + (if veq x v then 1 else 0).
Proof. unfold times. rewrite filter_app, app_length. cbn. destruct (veq x v); cbn; lia. Qed.
Lemma dedup_flags_ok k : forall data pre m, Z.of_nat (length pre + length data) < 2 ^ 32 ->
  (forall v, fst (bump veq v m) = times v pre) -> (forall e, In e m -> 0 <= snd e <= Z.of_nat (length pre)) ->
  dedup_flags veq k data m = flags_from k pre data.
Proof.
  induction data as [|v data IH]; intros pre m L H B; auto. cbn [dedup_flags flags_from].
  pose proof (H v) as Hv. destruct (bump veq v m) as [n m'] eqn:E. cbn in Hv. rewrite Hv. f_equal.
  cbn [length] in L. apply IH.
  - rewrite app_length. cbn [length]. lia.
  - intros w. rewrite times_snoc, <- H. change m' with (snd (n, m')). rewrite <- E. apply bump_step.
    intros e He. specialize (B e He). lia.
  - intros e He. rewrite app_length. cbn [length]. replace (Z.of_nat (length pre + 1)) with (Z.of_nat (length pre) + 1) by lia.
    apply (bump_bound v (Z.of_nat (length pre)) m); auto; [lia|]. now rewrite E.
Qed.
Lemma flags_from_spec k : forall data pre, flags_from k pre data =
  map (fun i => match nth_error (pre ++ data) i with Some v => times v (firstn i (pre ++ data)) <? k | None => false end)
    (seq (length pre) (length data)).
Proof.
  induction data as [|v data IH]; intros pre; auto. cbn [flags_from length seq map].
  rewrite nth_error_app2 by lia. rewrite Nat.sub_diag. cbn [nth_error].
  rewrite firstn_app, Nat.sub_diag, firstn_all. cbn [firstn]. rewrite app_nil_r. f_equal. rewrite IH.
  rewrite app_length, <- app_assoc. cbn [length app]. now rewrite Nat.add_1_r.
Qed.
Lemma dedup_first_few k data : Z.of_nat (length data) < 2 ^ 32 -> dedup_flags veq k data [] = first_few veq k data.
Proof.
  intros L. rewrite (dedup_flags_ok k data [] []); auto; [|intros e []]. rewrite flags_from_spec. reflexivity.
Qed.
Lemma first_few_length k l : length (first_few veq k l) = length l.
Proof. unfold first_few. now rewrite map_length, seq_length. Qed.

(** ** Bits *)
Lemma set_bits_ok : forall l i words, Z.of_nat (i + length l) <= 64 * zlen words ->
  exists words', set_bits i l words = Ret words' /\ length words' = length words /\
    forall j, 0 <= j -> wbit words' j = if (Z.of_nat i <=? j) && (j <? Z.of_nat (i + length l)) then nth (Z.to_nat j - i) l false else wbit words j.
Proof.
  induction l as [|b l IH]; intros i words L; cbn [set_bits].
  - exists words. split; [reflexivity|]. split; auto. intros j Hj. cbn [length]. rewrite Nat.add_0_r.
    destruct (Z.leb_spec (Z.of_nat i) j), (Z.ltb_spec j (Z.of_nat i)); try lia; reflexivity.
  - cbn [length] in L. set (c := Z.of_nat i) in *.
    destruct (div64_bounds c (zlen words) ltac:(lia)) as (D1 & D2).
    unfold load. assert (NL : (Z.to_nat (c / 64) < length words)%nat) by (unfold zlen in *; lia).
    rewrite (proj2 (Z.ltb_ge _ _)) by lia. rewrite (nth_error_nth' words 0) by auto. cbn [obind].
    set (w := if b then _ else _).
    unfold store. rewrite (proj2 (Z.ltb_ge _ _)), (proj2 (Z.leb_gt _ _)) by (unfold zlen in *; lia). cbn [obind orb].
    destruct (IH (S i) (upd words (Z.to_nat (c / 64)) w)) as (words' & E & L' & H).
    { unfold zlen. rewrite upd_len. unfold zlen in L. lia. }
    exists words'. split; [exact E|]. rewrite upd_len in L'. split; [exact L'|]. intros j Hj. rewrite H by auto.
    rewrite (wbit_upd words c w b); [|lia| |auto].
    2:{ intros k Hk. unfold w. destruct b; [rewrite bits64_set_spec by lia|rewrite bits64_clear_spec by lia]; destruct (k =? c mod 64); reflexivity. }
    destruct (Z.leb_spec (Z.of_nat (S i)) j), (Z.leb_spec c j), (Z.ltb_spec j (Z.of_nat (S i + length l))), (Z.ltb_spec j (Z.of_nat (i + length (b :: l))));
      cbn [length andb] in *; try lia.
    + replace (Z.to_nat j - i)%nat with (S (Z.to_nat j - S i)) by lia. reflexivity.
    + destruct (Z.eqb_spec j c); [lia|reflexivity].
    + destruct (Z.eqb_spec j c); [|lia]. replace (Z.to_nat j - i)%nat with 0%nat by lia. reflexivity.
    + destruct (Z.eqb_spec j c); [lia|reflexivity].
Qed.

Lemma set_flags l : exists words, set_bits 0 l (fresh_words garbage (length l)) = Ret words /\
  let m := mk_bits (words_bytes words) (length l) in mask_for m (length l) /\ flags m (length l) = l /\
    Z.of_nat (length l) <= 64 * zlen words.
Proof.
  assert (R : Z.of_nat (length l) <= 64 * zlen (fresh_words garbage (length l))).
  { unfold zlen, fresh_words. rewrite repeat_length. pose proof (div64_room (Z.of_nat (length l)) ltac:(lia)).
    assert (0 <= (Z.of_nat (length l) + 63) / 64) by (apply Z.div_pos; lia). lia. }
  destruct (set_bits_ok l 0 (fresh_words garbage (length l)) R) as (words & E & L & H). exists words. split; [exact E|].
  cbv zeta. split; [|split].
  - split; cbn [bit_bytes]; [apply words_bytes_buffer|]. rewrite words_bytes_length, L. unfold zlen in R. lia.
  - unfold flags, bits_of. cbn [bit_bytes]. rewrite <- (nth_seq_map l false) at 2. apply map_ext_in. intros i Hi. apply in_seq in Hi.
    rewrite words_bytes_bit by lia. rewrite H by lia. cbn [Z.of_nat plus]. rewrite (proj2 (Z.leb_le _ _)), (proj2 (Z.ltb_lt _ _)) by lia.
    cbn [andb]. now rewrite Nat2Z.id, Nat.sub_0_r.
  - unfold zlen in *. now rewrite L.
Qed.

Lemma Dedup_ok h col k f (t : table) : table_ok h t -> nth_error (sc_columns (t_schema t)) col = Some f -> cf_bit f = false ->
  Z.of_nat (Count t) < 2 ^ 32 ->
  exists t' m, Dedup garbage veq h col k t = Ret (t', m) /\ same_rows t t' /\ table_ok h t' /\
    bit_size m = Count t /\ mask_for m (Count t) /\ flags m (Count t) = first_few veq k (column_values h t f).
Proof.
  intros T F B LC. unfold Dedup. rewrite F. destruct (Load_ok h col f t T F) as (t' & c & -> & S & T' & _ & _ & _ & Hm & Hn).
  cbn [obind]. rewrite B. set (m := match memory c with Some m => m | None => [] end).
  assert (X : (Count t <= length m)%nat /\ firstn (Count t) m = column_values h t f).
  { unfold m. destruct (memory c) as [m0|]; [auto|]. pose proof (Hn eq_refl) as Z. rewrite Z. split; [cbn; lia|].
    pose proof (values_length h t f) as LV. rewrite Z in LV. now destruct (column_values h t f). }
  destruct X as (Lm & ->). rewrite (proj2 (Nat.ltb_ge _ _)) by lia.
  rewrite dedup_first_few by now rewrite values_length.
  pose proof (first_few_length k (column_values h t f)) as LF. rewrite values_length in LF.
  destruct (set_flags (first_few veq k (column_values h t f))) as (words & E & MF & FL & _). rewrite LF in *.
  rewrite E. cbn [obind]. exists t', (mk_bits (words_bytes words) (Count t)).
  split; [reflexivity|]. split; [exact S|]. split; [exact T'|]. split; [reflexivity|]. split; [exact MF|exact FL].
Qed.

(** ** Distinct *)
Definition both (n : nat) (a b : list bool) : list bool := map (fun i => nth i a false && nth i b false) (seq 0 n).
Lemma nth_flags m n i : (i < n)%nat -> nth i (flags m n) false = bit_of (bit_bytes m) (Z.of_nat i).
Proof. intros H. unfold flags, bits_of. rewrite (nth_map_lt _ _ _ _ 0%nat) by (rewrite seq_length; auto). now rewrite seq_nth. Qed.
Lemma distinct_mask_ok h fs ks : forall t : table, table_ok h t -> fields_of t ks fs -> Forall (fun f => cf_bit f = false) fs ->
  Z.of_nat (Count t) < 2 ^ 32 -> forall sel, (bit_size sel = 0%nat \/ bit_size sel = Count t /\ mask_for sel (Count t)) ->
  (fs <> [] \/ bit_size sel = Count t /\ mask_for sel (Count t)) ->
  exists t' m, distinct_mask lanes8 garbage veq h ks sel t = Ret (t', m) /\ same_rows t t' /\ table_ok h t' /\
    mask_for m (Count t) /\
    flags m (Count t) = map (fun i => forallb (fun f => nth i (first_few veq 1 (column_values h t f)) false) fs &&
                                      (Nat.eqb (bit_size sel) 0 || nth i (flags sel (Count t)) false)) (seq 0 (Count t)).
Proof.
  intros t T F. unfold fields_of in F. remember (sc_columns (t_schema t)) as cols eqn:EC. revert t T EC.
  induction F as [|k f ks fs F1 F IH]; intros t T EC B LC sel D NE.
  - destruct NE as [NE|(Z & M)]; [contradiction|]. exists t, sel. split; [reflexivity|]. split; [apply same_rows_refl|].
    split; auto. split; auto. cbn [forallb andb]. rewrite <- (nth_seq_map (flags sel (Count t)) false) at 1. rewrite flags_length.
    apply map_ext_in. intros i Hi. apply in_seq in Hi. rewrite Z. destruct (Nat.eqb_spec (Count t) 0); [lia|reflexivity].
  - inversion B as [|? ? B1 B2]; subst. cbn [distinct_mask]. 
    destruct (Dedup_ok h k 1 f t T) as (t1 & m1 & -> & S1 & T1 & Z1 & M1 & FL1); auto. cbn [obind].
    destruct (same_facts t t1 S1) as (C1 & R1 & _). 
    assert (SV : forall f', column_values h t1 f' = column_values h t f') by (intros; now apply same_values).
    assert (EC1 : sc_columns (t_schema t) = sc_columns (t_schema t1)) by now rewrite (proj1 S1).
    destruct (Nat.eqb_spec (bit_size sel) 0) as [Z|NZ].
    + destruct (IH t1 T1 EC1 B2 ltac:(now rewrite C1) m1) as (t' & m & E & S' & T' & M' & FL').
      { right. rewrite C1. auto. } { right. rewrite C1. auto. }
      exists t', m. split; [exact E|]. split; [now apply (same_rows_trans t t1)|]. split; auto. rewrite C1 in *. split; auto.
      rewrite FL'. apply map_ext_in. intros i Hi. apply in_seq in Hi. cbn [forallb orb]. rewrite andb_true_r, FL1, Z1.
      destruct (Nat.eqb_spec (Count t) 0); [lia|]. cbn [orb].
      rewrite andb_comm. f_equal. induction fs as [|f' fs' IHf]; auto. cbn. rewrite SV. f_equal.
      clear -SV. induction fs' as [|f2 fs' IHf]; auto. cbn. now rewrite SV, IHf.
    + destruct D as [D|(D & Ms)]; [contradiction|].
      destruct Ms as (Bs & Ls), M1 as (Bm & Lm). rewrite D.
      pose proof (byte_count_bounds (Z.of_nat (Count t)) ltac:(lia)) as BC.
      destruct (bits_binary_ok lanes8 LAnd true [] (bit_bytes m1) (bit_bytes sel) (Z.of_nat (Count t))) as (out & E & Lo & G1 & _ & G3).
      { apply LN. } { lia. } { exact Bs. } { exact Bm. } { unfold zlen. lia. } { unfold zlen. lia. } { unfold zlen. lia. }
      rewrite E. cbn [obind].
      assert (Mo : mask_for (mk_bits out (Count t)) (Count t)).
      { split; [apply G3; exact Bs|]. cbn [bit_bytes]. unfold zlen in Lo. lia. }
      destruct (IH t1 T1 EC1 B2 ltac:(now rewrite C1) (mk_bits out (Count t))) as (t' & m & E' & S' & T' & M' & FL').
      { right. rewrite C1. auto. } { right. rewrite C1. auto. }
      exists t', m. split; [exact E'|]. split; [now apply (same_rows_trans t t1)|]. split; auto. rewrite C1 in *. split; auto.
      rewrite FL'. apply map_ext_in. intros i Hi. apply in_seq in Hi. cbn [forallb orb bit_size].
      destruct (Nat.eqb_spec (Count t) 0); [lia|]. cbn [orb].
      rewrite nth_flags by lia. cbn [bit_bytes]. rewrite G1 by lia. cbn [logic].
      rewrite <- !nth_flags with (n := Count t) by lia. rewrite FL1.
      replace (forallb (fun f0 => nth i (first_few veq 1 (column_values h t1 f0)) false) fs) with
        (forallb (fun f0 => nth i (first_few veq 1 (column_values h t f0)) false) fs).
      * destruct (forallb _ fs), (nth i (first_few _ _ _) _), (nth i (flags sel _) _); reflexivity.
      * clear -SV. induction fs as [|f2 fs' IHf]; auto. cbn. now rewrite SV, IHf.
Qed.

Lemma Distinct_ok h ks fs (t : table) : table_ok h t -> fields_of t ks fs -> fs <> [] -> Forall (fun f => cf_bit f = false) fs ->
  Z.of_nat (Count t) < 2 ^ 32 ->
  exists t', Distinct lanes64 lanes8 garbage veq h ks t = Ret t' /\ t_schema t' = t_schema t /\ table_ok h t' /\
    records t' = select (first_in_each veq h t fs) (records t).
Proof.
  intros T F NE B LC. unfold Distinct.
  destruct (distinct_mask_ok h fs ks t T F B LC (mk_bits [] 0)) as (t1 & m & -> & S & T1 & M & FL); [now left|now left|].
  cbn [obind]. destruct (same_facts t t1 S) as (C1 & R1 & _). destruct T1 as (P1 & O1 & A1 & K1).
  rewrite (DoFilter_rows lanes64 lanes8 garbage LN) by (auto; now rewrite C1). eexists. split; [reflexivity|].
  split; [apply S|]. rewrite C1.
  assert (FF : flags m (Count t) = first_in_each veq h t fs).
  { rewrite FL. unfold first_in_each. rewrite count_records. apply map_ext. intros i. cbn [bit_size Nat.eqb orb]. apply andb_true_r. }
  set (idx := select (flags m (Count t)) (seq 0 (Count t))).
  assert (LT : Forall (fun i => i < count_of (t_rows t1))%nat idx).
  { change (count_of (t_rows t1)) with (Count t1). rewrite C1. apply chosen_lt. }
  split.
  - split; [exact P1|]. split; [|split; [apply at_rows_aligned|]].
    + destruct O1 as (O1 & O2). split; cbn; [now rewrite at_rows_fst|now rewrite map_length].
    + cbn. eapply unload_cols_ok. exact K1.
  - unfold records at 1. cbn. rewrite at_rows_records by exact LT. fold (records t1). rewrite R1, <- FF.
    unfold idx. rewrite <- count_records. symmetry. apply select_at. apply flags_length.
Qed.
End T.

(** ** Foreach *)
Section F.
Context {St : Type}.
Variable f : St -> nat -> list Z -> St * visit_code.
Variables (mask : option (list bool)) (rs : list (nat * list Z)).
Hypothesis A : aligned_rows rs.
Let n := count_of rs.
Let rows := records_of rs.
Definition rest (i : nat) : list (nat * list Z) :=
  filter (fun r => match mask with Some m => nth (fst r) m false | None => true end) (combine (seq i (n - i)) (skipn i rows)).
Lemma rest_stop i : (n <= i)%nat -> rest i = [].
Proof. intros H. unfold rest. now replace (n - i)%nat with 0%nat by lia. Qed.
Lemma rest_step i : (i < n)%nat ->
  rest i = if match mask with Some m => nth i m false | None => true end then (i, nth i rows []) :: rest (S i) else rest (S i).
Proof.
  intros H. unfold rest. replace (n - i)%nat with (S (n - S i)) by lia. cbn [seq].
  assert (L : length rows = n) by (unfold rows, records_of; now rewrite map_length, seq_length).
  rewrite (skipn_nth rows i []) by lia. cbn [combine filter fst]. reflexivity.
Qed.
(** From row [i], with enough fuel for [k] more passes. *)
Lemma foreach_pass : forall d i s, (d = n - i)%nat -> forall s' b, pass f (rest i) s = (s', b) ->
  forall fuel, (d < fuel)%nat ->
  exists fuel', (fuel <= fuel' + d + 1)%nat /\ (b = true -> (fuel' < fuel)%nat) /\
    foreach_from fuel f mask rs n i s = if b then foreach_from fuel' f mask rs n 0 s' else Ret s'.
Proof.
  induction d as [|d IH]; intros i s Hd s' b P fuel Hf.
  - rewrite rest_stop in P by lia. cbn in P. injection P as <- <-. exists fuel. split; [lia|]. split; [discriminate|].
    destruct fuel; [lia|]. cbn. now rewrite (proj2 (Nat.leb_le _ _)) by lia.
  - destruct fuel as [|fuel]; [lia|]. cbn [foreach_from]. rewrite (proj2 (Nat.leb_gt _ _)) by lia. rewrite rest_step in P by lia.
    destruct (match mask with Some m => nth i m false | None => true end).
    + rewrite row_of_aligned by (auto; unfold n in *; lia). cbn [obind]. cbn [pass] in P.
      change (nth i (records_of rs) []) with (nth i rows []). destruct (f s i (nth i rows [])) as [s1 [| |]].
      * destruct (IH (S i) s1 ltac:(lia) s' b P fuel ltac:(lia)) as (fuel' & L1 & L2 & E). exists fuel'. split; [lia|]. split; [|exact E].
        intros Hb. specialize (L2 Hb). lia.
      * injection P as <- <-. exists (fuel)%nat. split; [lia|]. split; [discriminate|reflexivity].
      * injection P as <- <-. exists fuel. split; [lia|]. split; [lia|reflexivity].
    + destruct (IH (S i) s ltac:(lia) s' b P fuel ltac:(lia)) as (fuel' & L1 & L2 & E). exists fuel'. split; [lia|]. split; [|exact E].
      intros Hb. specialize (L2 Hb). lia.
Qed.
Lemma rest_zero : rest 0 = visited mask rows.
Proof.
  unfold rest, visited. rewrite Nat.sub_0_r. cbn [skipn]. do 3 f_equal. unfold rows, records_of, n. now rewrite map_length, seq_length.
Qed.
Lemma foreach_passes s s' : passes f (visited mask rows) s s' ->
  exists enough, forall fuel, (enough <= fuel)%nat -> foreach_from fuel f mask rs n 0 s = Ret s'.
Proof.
  induction 1 as [s s' P|s s1 s' P _ IH].
  - exists (S n). intros fuel L. rewrite <- rest_zero in P.
    destruct (foreach_pass (n - 0) 0 s eq_refl s' false P fuel ltac:(lia)) as (fuel' & _ & _ & E). exact E.
  - destruct IH as (enough & IH). exists (enough + n + 1)%nat. intros fuel L. rewrite <- rest_zero in P.
    destruct (foreach_pass (n - 0) 0 s eq_refl s1 true P fuel ltac:(lia)) as (fuel' & L1 & _ & E). rewrite E. apply IH. lia.
Qed.
Lemma foreach_only : forall fuel s s', foreach_from fuel f mask rs n 0 s = Ret s' -> passes f (visited mask rows) s s'.
Proof.
  assert (X : forall fuel i s s', foreach_from fuel f mask rs n i s = Ret s' ->
    exists s1 b, pass f (rest i) s = (s1, b) /\ if b then exists fuel', (fuel' < fuel)%nat /\ foreach_from fuel' f mask rs n 0 s1 = Ret s' else s1 = s').
  { induction fuel as [|fuel IH]; intros i s s' E; [discriminate|]. cbn [foreach_from] in E.
    destruct (Nat.leb_spec n i).
    - injection E as <-. rewrite rest_stop by auto. exists s, false. auto.
    - rewrite rest_step by auto. destruct (match mask with Some m => nth i m false | None => true end).
      + rewrite row_of_aligned in E by auto. cbn [obind] in E. change (nth i (records_of rs) []) with (nth i rows []) in E. cbn [pass].
        destruct (f s i (nth i rows [])) as [s1 [| |]].
        * apply IH in E. destruct E as (s2 & b & P & H2). exists s2, b. split; auto. destruct b; auto. destruct H2 as (f' & L & E). exists f'. split; auto; lia.
        * injection E as <-. exists s1, false. auto.
        * exists s1, true. split; auto. exists fuel. split; auto.
      + apply IH in E. destruct E as (s2 & b & P & H2). exists s2, b. split; auto. destruct b; auto. destruct H2 as (f' & L & E). exists f'. split; auto; lia. }
  intros fuel. induction fuel as [fuel IH] using lt_wf_ind. intros s s' E.
  apply X in E. destruct E as (s1 & b & P & H). rewrite rest_zero in P. destruct b.
  - destruct H as (fuel' & L & E). apply (P_again f _ s s1); auto. now apply (IH fuel').
  - subst. now apply P_last.
Qed.
Lemma foreach_forever (Q : St -> Prop) : (forall s, Q s -> exists s1, pass f (visited mask rows) s = (s1, true) /\ Q s1) ->
  forall fuel s, Q s -> foreach_from fuel f mask rs n 0 s = Hang.
Proof.
  intros H. assert (X : forall fuel i s, foreach_from fuel f mask rs n i s = Hang \/ exists s', foreach_from fuel f mask rs n i s = Ret s').
  { induction fuel as [|fuel IH]; intros i s; [now left|]. cbn [foreach_from]. destruct (Nat.leb_spec n i); [right; eauto|].
    destruct (match mask with Some m => nth i m false | None => true end); [|apply IH].
    rewrite row_of_aligned by auto. cbn [obind]. destruct (f s i _) as [s1 [| |]]; eauto. }
  intros fuel s Hs. destruct (X fuel 0%nat s) as [E|(s' & E)]; auto. exfalso. apply foreach_only in E.
  induction E as [s s' P|s s1 s' P _ IH].
  - destruct (H s Hs) as (s1 & P' & _). congruence.
  - destruct (H s Hs) as (s2 & P' & Q2). apply IH. congruence.
Qed.
End F.
