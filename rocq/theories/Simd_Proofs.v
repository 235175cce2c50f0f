(** Proofs about the vector functions. *)
From Coq Require Import List ZArith Bool Lia Permutation.
Import ListNotations.
From Verif Require Import Base StringView_Spec StringView_Model StringView_Proofs.
From Verif Require Import Vector_Spec Vector_Model Vector_Proofs Simd_Spec Simd_Model.
Local Open Scope Z_scope.

(** ** Loops *)
Lemma simd_loop_from {S} (P : Z -> S -> Prop) (body : Z -> S -> outcome S) count N (HN : 1 <= N)
  (step : forall idx s, 0 <= idx -> idx + N <= count -> (N | idx) -> P idx s ->
     exists s', body idx s = Ret s' /\ P (idx + N) s') :
  forall fuel idx s, 0 <= idx <= count -> (N | idx) -> (Z.to_nat (count - idx) < fuel)%nat -> P idx s ->
  exists s', simd_loop fuel idx count N body s = Ret (N * (count / N), s') /\ P (N * (count / N)) s'.
Proof.
  induction fuel as [|fuel IH]; intros idx s Hi D F HP; [lia|]. cbn [simd_loop].
  destruct (Z.leb_spec (idx + N) count).
  - destruct (step idx s) as (s' & E & HP'); try lia; auto. rewrite E. cbn [obind].
    apply IH; try lia; auto. apply Z.divide_add_r; auto. apply Z.divide_refl.
  - destruct D as [q ->]. assert (count / N = q) as ->.
    { symmetry. apply Z.div_unique with (r := count - q * N); lia. }
    exists s. rewrite (Z.mul_comm N q). split; auto.
Qed.

Lemma simd_loop_inv {S} (P : Z -> S -> Prop) (body : Z -> S -> outcome S) count N s : 1 <= N -> 0 <= count ->
  (forall idx s, 0 <= idx -> idx + N <= count -> (N | idx) -> P idx s ->
     exists s', body idx s = Ret s' /\ P (idx + N) s') ->
  P 0 s ->
  exists s', simd_loop (fuel_for count) 0 count N body s = Ret (N * (count / N), s') /\ P (N * (count / N)) s'.
Proof.
  intros HN Hc step HP. apply simd_loop_from with (P := P); auto; try lia.
  - apply Z.divide_0_r.
  - unfold fuel_for. lia.
Qed.

Lemma blocks_bound count N : 1 <= N -> 0 <= count ->
  0 <= N * (count / N) <= count /\ count - N * (count / N) < N /\ (N | N * (count / N)).
Proof.
  intros. pose proof (Z.div_mod count N ltac:(lia)). pose proof (Z.mod_pos_bound count N ltac:(lia)).
  assert (0 <= count / N) by (apply Z.div_pos; lia). repeat split; try nia. apply Z.divide_factor_l.
Qed.

(** ** Buffers *)
Lemma zlen_nonneg {A} (l : list A) : 0 <= zlen l. Proof. unfold zlen. lia. Qed.
Lemma window_length {A} (l : list A) i n : 0 <= i -> 0 <= n -> i + n <= zlen l -> zlen (window l i n) = n.
Proof. unfold zlen, window. intros. rewrite firstn_length, skipn_length. lia. Qed.
Lemma nth_firstn {A} (l : list A) n k d : (k < n)%nat -> nth k (firstn n l) d = nth k l d.
Proof. revert n k. induction l; intros [|n] [|k] H; simpl; try lia; auto. apply IHl. lia. Qed.
Lemma nth_skipn {A} (l : list A) n k d : nth k (skipn n l) d = nth (n + k) l d.
Proof. revert n. induction l; intros [|n]; simpl; auto. now destruct k. Qed.
Lemma nth_window {A} (l : list A) i n k d : 0 <= i -> 0 <= k < n ->
  nth (Z.to_nat k) (window l i n) d = nth (Z.to_nat (i + k)) l d.
Proof. intros. unfold window. rewrite nth_firstn, nth_skipn by lia. f_equal. lia. Qed.

Lemma loadU_ret {A} (mem : list A) i N : 0 <= i -> i + N <= zlen mem -> loadU mem i N = Ret (window mem i N).
Proof. intros. unfold loadU. now rewrite !(proj2 (Z.leb_le _ _)) by lia. Qed.
Lemma loadN_ret {A} (zero : A) mem i n N : 0 <= i -> i + n <= zlen mem ->
  loadN zero mem i n N = Ret (window mem i n ++ repeat zero (Z.to_nat (N - n))).
Proof. intros. unfold loadN. now rewrite !(proj2 (Z.leb_le _ _)) by lia. Qed.

Lemma overwrite_ret {A} (mem : list A) i v d : 0 <= i -> i + zlen v <= zlen mem ->
  exists mem', overwrite mem i v = Ret mem' /\ zlen mem' = zlen mem /\
    (forall j, 0 <= j -> nth (Z.to_nat j) mem' d =
       if (i <=? j) && (j <? i + zlen v) then nth (Z.to_nat (j - i)) v d else nth (Z.to_nat j) mem d).
Proof.
  intros Hi Hv. unfold overwrite. rewrite !(proj2 (Z.leb_le _ _)) by lia. cbn [andb].
  eexists. split; [reflexivity|]. unfold zlen in *. split.
  - rewrite !app_length, firstn_length, skipn_length. lia.
  - intros j Hj. destruct (Z.leb_spec i j); cbn [andb].
    + rewrite app_nth2; rewrite firstn_length; [|lia].
      destruct (Z.ltb_spec j (i + Z.of_nat (length v))).
      * rewrite app_nth1 by lia. f_equal. lia.
      * rewrite app_nth2 by lia. rewrite nth_skipn. f_equal. lia.
    + rewrite app_nth1 by (rewrite firstn_length; lia). now rewrite nth_firstn by lia.
Qed.

Lemma list_ext {A} (a b : list A) d : length a = length b ->
  (forall k, (k < length a)%nat -> nth k a d = nth k b d) -> a = b.
Proof. intros. apply nth_ext with d d; auto. Qed.

(** ** Bits: writing [f] bytewise *)
Section Bytewise.
  Variables (N count : Z) (dst : list Z) (f : Z -> Z) (body : Z -> list Z -> outcome (list Z))
            (tail : Z -> list Z -> outcome (list Z)) (rest : list Z -> outcome (list Z)).
  Hypothesis HN : 1 <= N.
  Hypothesis Hc : 0 <= count <= zlen dst.
  Definition same (idx : Z) (out : list Z) : Prop :=
    zlen out = zlen dst /\ forall j, idx <= j -> 0 <= j -> nth (Z.to_nat j) out 0 = nth (Z.to_nat j) dst 0.
  Hypothesis Hb : forall idx out, 0 <= idx -> idx + N <= count -> same idx out ->
    exists v, body idx out = storeU out idx v /\ zlen v = N /\
      forall k, 0 <= k < N -> nth (Z.to_nat k) v 0 = f (idx + k).
  Hypothesis Ht : forall idx r out, 0 <= idx -> 0 < r < N -> r = count - idx -> same idx out ->
    exists v, tail idx out = (do! out <- storeN out idx v r; rest out) /\ r <= zlen v /\
      forall k, 0 <= k < r -> nth (Z.to_nat k) v 0 = f (idx + k).
  Definition good (idx : Z) (out : list Z) : Prop :=
    zlen out = zlen dst /\
    forall j, 0 <= j -> nth (Z.to_nat j) out 0 = if j <? idx then f j else nth (Z.to_nat j) dst 0.

  Lemma bytewise :
    (forall out, good count out -> rest out = Ret out) ->
    exists out, (do! (idx, out) <- simd_loop (fuel_for count) 0 count N body dst;
         if idx =? count then rest out else tail idx out) = Ret out /\ good count out.
  Proof using HN Hc Hb Ht.
    intros Hrest.
    destruct (simd_loop_inv good body count N dst) as (out & -> & G); auto; try lia.
    - intros idx out Hi Hn _ (L & G). destruct (Hb idx out) as (v & E & Lv & Gv); auto.
      { split; auto. intros j Hj Hj0. rewrite G by auto. now rewrite (proj2 (Z.ltb_ge _ _)) by lia. }
      rewrite E. destruct (overwrite_ret out idx v 0) as (out' & E' & L' & G'); try lia.
      exists out'. split; [exact E'|]. split; [lia|]. intros j Hj. rewrite G' by auto. rewrite Lv.
      destruct (Z.leb_spec idx j); cbn [andb].
      + destruct (Z.ltb_spec j (idx + N)); [rewrite Gv by lia; f_equal; lia|].
        rewrite G by auto. now rewrite (proj2 (Z.ltb_ge _ _)) by lia.
      + rewrite G by auto. rewrite !(proj2 (Z.ltb_lt _ _)) by lia. reflexivity.
    - split; auto. intros j Hj. now rewrite (proj2 (Z.ltb_ge _ _)) by lia.
    - cbn [obind]. pose proof (blocks_bound count N HN ltac:(lia)) as (B1 & B2 & _).
      set (idx := N * (count / N)) in *. destruct (Z.eqb_spec idx count) as [E|NE].
      + rewrite E in G. exists out. split; auto.
      + destruct G as (L & G).
        destruct (Ht idx (count - idx) out) as (v & E & Lv & Gv); auto; try lia.
        { split; auto. intros j Hj Hj0. rewrite G by auto. now rewrite (proj2 (Z.ltb_ge _ _)) by lia. }
        rewrite E. unfold storeN.
        assert (Lf : zlen (firstn (Z.to_nat (count - idx)) v) = count - idx).
        { unfold zlen in *. rewrite firstn_length. lia. }
        destruct (overwrite_ret out idx (firstn (Z.to_nat (count - idx)) v) 0) as (out' & E' & L' & G'); try lia.
        rewrite E'. cbn [obind]. assert (GG : good count out').
        { split; [lia|]. intros j Hj. rewrite G' by auto. rewrite Lf.
          destruct (Z.leb_spec idx j); cbn [andb].
          * replace (idx + (count - idx)) with count by lia. destruct (Z.ltb_spec j count).
            -- rewrite nth_firstn by lia. rewrite Gv by lia. f_equal. lia.
            -- rewrite G by auto. now rewrite (proj2 (Z.ltb_ge _ _)) by lia.
          * rewrite G by auto. rewrite !(proj2 (Z.ltb_lt _ _)) by lia. reflexivity. }
        exists out'. split; auto.
  Qed.
End Bytewise.

Lemma byte_count_eq n : 0 <= n -> byte_count_of n = (n + 7) / 8.
Proof.
  intros. unfold byte_count_of. pose proof (Z.div_mod n 8 ltac:(lia)). pose proof (Z.mod_pos_bound n 8 ltac:(lia)).
  cbv zeta. destruct (Z.ltb_spec 0 (n mod 8)).
  - apply Z.div_unique with (r := n mod 8 - 1); lia.
  - apply Z.div_unique with (r := 7); lia.
Qed.
Lemma byte_count_bounds n : 0 <= n -> n <= 8 * byte_count_of n < n + 8.
Proof.
  intros. rewrite byte_count_eq by lia. pose proof (Z.div_mod (n + 7) 8 ltac:(lia)).
  pose proof (Z.mod_pos_bound (n + 7) 8 ltac:(lia)). lia.
Qed.
Lemma padding_eq n : 0 <= n -> padding_bits_of n = 8 * byte_count_of n - n.
Proof.
  intros. unfold padding_bits_of, byte_count_of. pose proof (Z.div_mod n 8 ltac:(lia)).
  pose proof (Z.mod_pos_bound n 8 ltac:(lia)). cbv zeta. destruct (Z.ltb_spec 0 (n mod 8)).
  - rewrite Z.mod_small by lia. lia.
  - replace (n mod 8) with 0 by lia. change ((8 - 0) mod 8) with 0. lia.
Qed.

Lemma shift_ones p : 0 <= p -> wrapu 8 (Z.shiftr (-1) p) = 255.
Proof.
  intros. replace (Z.shiftr (-1) p) with (-1); [reflexivity|].
  apply Z.bits_inj'. intros k Hk. rewrite Z.shiftr_spec, !Z.bits_m1 by lia. reflexivity.
Qed.
Lemma land_255 b : 0 <= b < 256 -> Z.land b 255 = b.
Proof. intros. change 255 with (Z.ones 8). rewrite Z.land_ones by lia. apply Z.mod_small. pows; lia. Qed.

Lemma upd_same {A} (l : list A) n d : (n < length l)%nat -> upd l n (nth n l d) = l.
Proof. revert n. induction l; intros [|n] H; simpl in *; try lia; auto. f_equal. apply IHl. lia. Qed.

Lemma clear_padding_noop out byte_count p : 0 <= p -> (0 < p -> 0 < byte_count <= zlen out) ->
  (forall j, 0 <= j < byte_count -> 0 <= nth (Z.to_nat j) out 0 < 256) ->
  clear_padding out byte_count p = Ret out.
Proof.
  intros Hp Hb B. unfold clear_padding. destruct (Z.ltb_spec 0 p); [|reflexivity].
  unfold zlen in *. rewrite (load_ret _ _ 0) by lia. cbn [obind].
  rewrite shift_ones by lia. rewrite land_255 by (apply B; lia).
  rewrite store_ret by lia. f_equal. apply upd_same. lia.
Qed.

(** What a bytewise result says about single bits. *)
Lemma nth_byte mem k : byte_buffer mem -> 0 <= nth k mem 0 < 256.
Proof.
  intros B. unfold byte_buffer in B. rewrite Forall_forall in B. destruct (nth_in_or_default k mem 0) as [H|E]; [|rewrite E; lia].
  now apply B.
Qed.

Lemma nth_map_not8 (v : list Z) k : (k < length v)%nat -> nth k (map not8 v) 0 = not8 (nth k v 0).
Proof. intros. rewrite (nth_indep _ 0 (not8 0)) by (rewrite map_length; lia). apply map_nth. Qed.

Lemma div8_bounds i bc : 0 <= i < 8 * bc -> 0 <= i / 8 < bc /\ 0 <= i mod 8 < 8.
Proof.
  intros. pose proof (Z.div_mod i 8 ltac:(lia)). pose proof (Z.mod_pos_bound i 8 ltac:(lia)). lia.
Qed.
Lemma div8_ge i bc : 8 * bc <= i -> bc <= i / 8.
Proof.
  intros. pose proof (Z.div_mod i 8 ltac:(lia)). pose proof (Z.mod_pos_bound i 8 ltac:(lia)). lia.
Qed.

Lemma good_bits dst f bc out (g : Z -> bool) : 0 <= bc ->
  good dst f bc out ->
  (forall i, 0 <= i < 8 * bc -> Z.testbit (f (i / 8)) (i mod 8) = g i) ->
  (forall i, 0 <= i < 8 * bc -> bit_of out i = g i) /\
  (forall i, 8 * bc <= i -> bit_of out i = bit_of dst i).
Proof.
  intros Hbc (L & G) Hf. split; intros i Hi; unfold bit_of.
  - destruct (div8_bounds i bc Hi). rewrite G by lia. rewrite (proj2 (Z.ltb_lt _ _)) by lia. auto.
  - pose proof (div8_ge i bc Hi). rewrite G by lia. now rewrite (proj2 (Z.ltb_ge _ _)) by lia.
Qed.

Lemma good_bytes dst f bc out : (forall j, 0 <= f j < 256) -> byte_buffer dst -> good dst f bc out -> byte_buffer out.
Proof.
  intros Hf B (L & G). unfold byte_buffer. apply Forall_forall. intros b Hb. destruct (In_nth _ _ 0 Hb) as (k & Hk & <-).
  rewrite <- (Nat2Z.id k), G by lia. destruct (_ <? _); auto. now apply nth_byte.
Qed.
Lemma not8_bit b k : 0 <= k < 8 -> Z.testbit (not8 b) k = negb (Z.testbit b k).
Proof. intros. unfold not8, wrapu. rewrite Z.mod_pow2_bits_low, Z.lnot_spec by lia. reflexivity. Qed.

Lemma bits_not_ok N (alias : bool) src dst n : 1 <= N -> 0 <= n ->
  let source := if alias then dst else src in
  byte_count_of n <= zlen source -> byte_count_of n <= zlen dst ->
  exists out, bits_not N alias src dst n = Ret out /\ zlen out = zlen dst /\
    (forall i, 0 <= i < 8 * byte_count_of n -> bit_of out i = negb (bit_of source i)) /\
    (forall i, 8 * byte_count_of n <= i -> bit_of out i = bit_of dst i) /\
    (byte_buffer dst -> byte_buffer out).
Proof.
  intros HN Hn source Ls Ld. pose proof (byte_count_bounds n Hn) as Hbc.
  pose proof (padding_eq n Hn) as Hp. unfold bits_not. cbv zeta.
  set (bc := byte_count_of n) in *. set (p := padding_bits_of n) in *.
  pose (f := fun j => not8 (nth (Z.to_nat j) source 0)).
  assert (Hf : forall j, 0 <= f j < 256). { intros. unfold f, not8. change 256 with (2 ^ 8). apply wrapu_range. lia. }
  match goal with |- exists out, (do! (idx, out) <- simd_loop _ _ _ _ ?b _; if _ then ?r else @?t idx out) = _ /\ _ =>
    destruct (bytewise N bc dst f b (fun idx out => t idx out) (fun out => clear_padding out bc p)) as (out & E & G) end;
    auto; try lia.
  - intros idx out Hi Hc (Lo & S).
    assert (Lf : zlen (if alias then out else src) = zlen source) by (unfold source; destruct alias; lia).
    rewrite loadU_ret by lia. cbn [obind]. eexists; split; [reflexivity|].
    assert (W : zlen (window (if alias then out else src) idx N) = N) by (apply window_length; lia).
    split; [unfold zlen in *; rewrite map_length; exact W|]. intros k Hk. unfold zlen in W.
    rewrite nth_map_not8 by lia. rewrite nth_window by lia. unfold f. f_equal. unfold source. destruct alias; [|reflexivity].
    apply S; lia.
  - intros idx r out Hi Hr -> (Lo & S).
    assert (Lf : zlen (if alias then out else src) = zlen source) by (unfold source; destruct alias; lia).
    rewrite loadN_ret by lia. cbn [obind]. eexists; split; [reflexivity|].
    assert (W : zlen (window (if alias then out else src) idx (bc - idx)) = bc - idx) by (apply window_length; lia).
    unfold zlen in W. split; [unfold zlen; rewrite map_length, app_length, repeat_length; lia|].
    intros k Hk. rewrite nth_map_not8 by (rewrite app_length; lia). rewrite app_nth1 by lia.
    rewrite nth_window by lia. unfold f. f_equal. unfold source. destruct alias; [|reflexivity]. apply S; lia.
  - intros out (L & G). apply clear_padding_noop; try lia.
    intros j Hj. rewrite G by lia. rewrite (proj2 (Z.ltb_lt _ _)) by lia. apply Hf.
  - exists out. split; [exact E|]. split; [apply G|].
    destruct (good_bits dst f bc out (fun i => negb (bit_of source i))) as (X1 & X2); auto; try lia.
    { intros i Hi. destruct (div8_bounds i bc Hi). unfold f. rewrite not8_bit by lia. reflexivity. }
    split; [exact X1|]. split; [exact X2|]. intros B. exact (good_bytes dst f bc out Hf B G).
Qed.

Definition logic (op : logic_op) : bool -> bool -> bool :=
  match op with LAnd => andb | LOr => orb | LXor => xorb end.
Lemma op8_bit op a b k : Z.testbit (op8 op a b) k = logic op (Z.testbit a k) (Z.testbit b k).
Proof. destruct op; cbn; [apply Z.land_spec|apply Z.lor_spec|apply Z.lxor_spec]. Qed.
Lemma op8_byte op a b : 0 <= a < 256 -> 0 <= b < 256 -> 0 <= op8 op a b < 256.
Proof.
  intros Ha Hb. assert (E : op8 op a b = op8 op a b mod 2 ^ 8).
  { apply Z.bits_inj'. intros k Hk. destruct (Z.lt_ge_cases k 8).
    - now rewrite Z.mod_pow2_bits_low by lia.
    - rewrite Z.mod_pow2_bits_high, op8_bit by lia.
      assert (X : forall x, 0 <= x < 256 -> Z.testbit x k = false).
      { intros x Hx. rewrite <- (Z.mod_small x (2 ^ 8)) by (pows; lia). apply Z.mod_pow2_bits_high. lia. }
      rewrite !X by lia. now destruct op. }
  rewrite E. change 256 with (2 ^ 8). apply Z.mod_pos_bound. pows; lia.
Qed.
Lemma zip2_length {A B C} (f : A -> B -> C) a b : length (zip2 f a b) = Nat.min (length a) (length b).
Proof. revert b. induction a; intros [|]; simpl; auto. Qed.
Lemma nth_zip2 {A B C} (f : A -> B -> C) a b k da db dc : (k < length a)%nat -> (k < length b)%nat ->
  nth k (zip2 f a b) dc = f (nth k a da) (nth k b db).
Proof. revert a b. induction k; intros [|x a] [|y b] Ha Hb; simpl in *; try lia; auto. apply IHk; lia. Qed.

Lemma bits_binary_ok N op (alias : bool) left right dst n : 1 <= N -> 0 <= n ->
  let source := if alias then dst else left in
  byte_buffer source -> byte_buffer right ->
  byte_count_of n <= zlen source -> byte_count_of n <= zlen right -> byte_count_of n <= zlen dst ->
  exists out, bits_binary N op alias left right dst n = Ret out /\ zlen out = zlen dst /\
    (forall i, 0 <= i < 8 * byte_count_of n -> bit_of out i = logic op (bit_of source i) (bit_of right i)) /\
    (forall i, 8 * byte_count_of n <= i -> bit_of out i = bit_of dst i) /\
    (byte_buffer dst -> byte_buffer out).
Proof.
  intros HN Hn source Bs Br Ls Lr Ld. pose proof (byte_count_bounds n Hn) as Hbc.
  pose proof (padding_eq n Hn) as Hp. unfold bits_binary. cbv zeta.
  set (bc := byte_count_of n) in *. set (p := padding_bits_of n) in *.
  pose (f := fun j => op8 op (nth (Z.to_nat j) source 0) (nth (Z.to_nat j) right 0)).
  assert (Hf : forall j, 0 <= f j < 256). { intros. apply op8_byte; apply nth_byte; auto. }
  match goal with |- exists out, (do! (idx, out) <- simd_loop _ _ _ _ ?b _; if _ then ?r else @?t idx out) = _ /\ _ =>
    destruct (bytewise N bc dst f b (fun idx out => t idx out) (fun out => clear_padding out bc p)) as (out & E & G) end;
    auto; try lia.
  - intros idx out Hi Hc (Lo & S).
    assert (Lf : zlen (if alias then out else left) = zlen source) by (unfold source; destruct alias; lia).
    rewrite !loadU_ret by lia. cbn [obind]. eexists; split; [reflexivity|].
    assert (W : zlen (window (if alias then out else left) idx N) = N) by (apply window_length; lia).
    assert (W2 : zlen (window right idx N) = N) by (apply window_length; lia). unfold zlen in W, W2.
    split; [unfold zlen in *; rewrite zip2_length; lia|]. intros k Hk.
    rewrite (nth_zip2 _ _ _ _ 0 0) by lia. rewrite !nth_window by lia. unfold f. f_equal. unfold source.
    destruct alias; [|reflexivity]. apply S; lia.
  - intros idx r out Hi Hr -> (Lo & S).
    assert (Lf : zlen (if alias then out else left) = zlen source) by (unfold source; destruct alias; lia).
    rewrite !loadN_ret by lia. cbn [obind]. eexists; split; [reflexivity|].
    assert (W : zlen (window (if alias then out else left) idx (bc - idx)) = bc - idx) by (apply window_length; lia).
    assert (W2 : zlen (window right idx (bc - idx)) = bc - idx) by (apply window_length; lia). unfold zlen in W, W2.
    split; [unfold zlen; rewrite zip2_length, !app_length, !repeat_length; lia|].
    intros k Hk. rewrite (nth_zip2 _ _ _ _ 0 0) by (rewrite app_length; lia). rewrite !app_nth1 by lia.
    rewrite !nth_window by lia. unfold f. f_equal. unfold source. destruct alias; [|reflexivity]. apply S; lia.
  - intros out (L & G). apply clear_padding_noop; try lia.
    intros j Hj. rewrite G by lia. rewrite (proj2 (Z.ltb_lt _ _)) by lia. apply Hf.
  - exists out. split; [exact E|]. split; [apply G|].
    destruct (good_bits dst f bc out (fun i => logic op (bit_of source i) (bit_of right i))) as (X1 & X2); auto; try lia.
    { intros i Hi. destruct (div8_bounds i bc Hi). unfold f. rewrite op8_bit. reflexivity. }
    split; [exact X1|]. split; [exact X2|]. intros B. exact (good_bytes dst f bc out Hf B G).
Qed.

(** ** count_true *)
Definition cnt (p : nat -> bool) (a len : nat) : Z := Z.of_nat (length (filter p (seq a len))).
Definition bitp (mem : list Z) (i : nat) : bool := bit_of mem (Z.of_nat i).
Lemma cnt_app p a m n : cnt p a (m + n) = cnt p a m + cnt p (a + m) n.
Proof. unfold cnt. rewrite seq_app, filter_app, app_length. lia. Qed.
Lemma cnt_nonneg p a n : 0 <= cnt p a n. Proof. unfold cnt. lia. Qed.
Lemma cnt_le p a n : cnt p a n <= Z.of_nat n.
Proof.
  unfold cnt. assert (length (filter p (seq a n)) <= n)%nat; [|lia].
  revert a. induction n; intros a; simpl; [lia|]. specialize (IHn (S a)). destruct (p a); simpl; lia.
Qed.
Lemma cnt_ext p q a b n : (forall k, (k < n)%nat -> p (a + k)%nat = q (b + k)%nat) -> cnt p a n = cnt q b n.
Proof.
  unfold cnt. revert a b. induction n as [|n IH]; intros a b H; [reflexivity|]. cbn [seq filter].
  pose proof (H 0%nat ltac:(lia)) as H0. rewrite !Nat.add_0_r in H0. rewrite H0.
  assert (E : Z.of_nat (length (filter p (seq (S a) n))) = Z.of_nat (length (filter q (seq (S b) n)))).
  { apply IH. intros k Hk. specialize (H (S k) ltac:(lia)). now rewrite <- !Nat.add_succ_comm in H. }
  destruct (q b); simpl; lia.
Qed.
Lemma cnt_none p a n : (forall k, (k < n)%nat -> p (a + k)%nat = false) -> cnt p a n = 0.
Proof.
  unfold cnt. revert a. induction n as [|n IH]; intros a H; [reflexivity|]. cbn [seq filter].
  pose proof (H 0%nat ltac:(lia)) as H0. rewrite Nat.add_0_r in H0. rewrite H0. apply IH.
  intros k Hk. specialize (H (S k) ltac:(lia)). now rewrite <- Nat.add_succ_comm in H.
Qed.
Lemma cnt_all p a n : (forall k, (k < n)%nat -> p (a + k)%nat = true) -> cnt p a n = Z.of_nat n.
Proof.
  unfold cnt. revert a. induction n as [|n IH]; intros a H; [reflexivity|]. cbn [seq filter].
  pose proof (H 0%nat ltac:(lia)) as H0. rewrite Nat.add_0_r in H0. rewrite H0. cbn [length].
  specialize (IH (S a)). rewrite !Nat2Z.inj_succ, IH; auto.
  intros k Hk. specialize (H (S k) ltac:(lia)). now rewrite <- Nat.add_succ_comm in H.
Qed.

Lemma count_spec_cnt mem n : count_true_spec (bits_of mem n) = cnt (bitp mem) 0 n.
Proof.
  unfold count_true_spec, bits_of, cnt. f_equal. generalize (seq 0 n) as l. induction l as [|x l IH]; [reflexivity|].
  cbn [map filter]. unfold bitp at 1. destruct (bit_of mem (Z.of_nat x)); simpl; auto.
Qed.

Lemma popcount_cnt b : popcount b = cnt (fun k => Z.testbit b (Z.of_nat k)) 0 8.
Proof.
  unfold popcount, cnt. generalize (seq 0 8) as l. induction l as [|x l IH]; [reflexivity|].
  cbn [map sum_list filter]. destruct (Z.testbit b (Z.of_nat x)); cbn [length]; rewrite ?Nat2Z.inj_succ; lia.
Qed.
Lemma popcount_byte mem j : popcount (nth j mem 0) = cnt (bitp mem) (8 * j) 8.
Proof.
  rewrite popcount_cnt. apply cnt_ext. intros k Hk. unfold bitp, bit_of.
  replace (Z.of_nat (8 * j + k)) with (8 * Z.of_nat j + Z.of_nat k) by lia.
  rewrite global_div, global_mod, Z.div_small, Z.mod_small by lia. f_equal; f_equal; lia.
Qed.
Lemma skipn_nth {A} (l : list A) n d : (n < length l)%nat -> skipn n l = nth n l d :: skipn (S n) l.
Proof. revert n. induction l; intros [|n] H; simpl in *; try lia; auto. apply IHl. lia. Qed.
Lemma sum_popcount mem i len : (i + len <= length mem)%nat ->
  sum_list (map popcount (firstn len (skipn i mem))) = cnt (bitp mem) (8 * i) (8 * len).
Proof.
  revert i. induction len as [|len IH]; intros i H; [reflexivity|].
  rewrite (skipn_nth mem i 0) by lia. cbn [firstn map sum_list].
  rewrite IH, popcount_byte by lia.
  replace (8 * S len)%nat with (8 + 8 * len)%nat by lia. rewrite cnt_app. f_equal. f_equal. lia.
Qed.
Lemma sum_zeros n : sum_list (map popcount (repeat 0 n)) = 0.
Proof. induction n; [reflexivity|]. cbn [repeat map sum_list]. rewrite IHn. reflexivity. Qed.
Lemma sum_list_app a b : sum_list (a ++ b) = sum_list a + sum_list b.
Proof. induction a; cbn [app sum_list]; lia. Qed.

Lemma subtract_padding_ok src n total : 0 <= n -> byte_count_of n <= zlen src -> byte_buffer src ->
  total = cnt (bitp src) 0 (Z.to_nat (8 * byte_count_of n)) -> n < 2 ^ 62 ->
  subtract_padding src (byte_count_of n) (padding_bits_of n) total = Ret (cnt (bitp src) 0 (Z.to_nat n)).
Proof.
  intros Hn L B -> Hb. pose proof (byte_count_bounds n Hn) as Hbc. rewrite padding_eq by lia.
  set (bc := byte_count_of n) in *. unfold subtract_padding.
  replace (Z.to_nat (8 * bc)) with (Z.to_nat n + Z.to_nat (8 * bc - n))%nat by lia. rewrite cnt_app.
  destruct (Z.ltb_spec 0 (8 * bc - n)).
  - unfold zlen in L. rewrite (load_ret _ _ 0) by lia. cbn [obind]. rewrite popcount_cnt.
    assert (E : cnt (fun k => Z.testbit (Z.land (nth (Z.to_nat (bc - 1)) src 0)
        (wrapu 8 (Z.shiftl (-1) (8 - (8 * bc - n))))) (Z.of_nat k)) 0 8
      = cnt (bitp src) (0 + Z.to_nat n) (Z.to_nat (8 * bc - n))).
    { set (p := 8 * bc - n) in *. replace 8%nat with (Z.to_nat (8 - p) + Z.to_nat p)%nat at 1 by lia.
      assert (M : forall k, (k < 8)%nat -> Z.testbit (wrapu 8 (Z.shiftl (-1) (8 - p))) (Z.of_nat k) = (8 - p <=? Z.of_nat k)).
      { intros k Hk. unfold wrapu. rewrite Z.mod_pow2_bits_low, Z.shiftl_spec by lia.
        destruct (Z.leb_spec (8 - p) (Z.of_nat k)); [apply Z.bits_m1; lia|apply Z.testbit_neg_r; lia]. }
      rewrite cnt_app, cnt_none.
      - rewrite Z.add_0_l. apply cnt_ext. intros k Hk. rewrite Z.land_spec, M by lia.
        rewrite (proj2 (Z.leb_le _ _)), andb_true_r by lia. unfold bitp, bit_of.
        assert (Hd : Z.of_nat (0 + Z.to_nat n + k) = 8 * (bc - 1) + (8 - p + Z.of_nat k)) by lia.
        rewrite Hd, global_div, global_mod, Z.div_small, Z.mod_small by lia. f_equal; [f_equal|]; lia.
      - intros k Hk. rewrite Z.land_spec, M by lia. rewrite (proj2 (Z.leb_gt _ _)) by lia. apply andb_false_r. }
    rewrite E. f_equal. rewrite wrapu_id; [lia|]. unfold in_u.
    pose proof (cnt_nonneg (bitp src) 0 (Z.to_nat n)). pose proof (cnt_le (bitp src) 0 (Z.to_nat n)). pows; lia.
  - f_equal. replace (Z.to_nat (8 * bc - n)) with 0%nat by lia. unfold cnt at 2. cbn. lia.
Qed.

Lemma count_true_ok N src n : 1 <= N -> 0 <= n < 2 ^ 62 -> byte_buffer src -> byte_count_of n <= zlen src ->
  (forall a len, 0 <= a -> 0 <= len <= N -> (N | a) -> a + len <= byte_count_of n ->
     count_true_spec (bits_of (window src a len) (Z.to_nat (8 * len))) < 256) ->
  count_true N src n = Ret (count_true_spec (bits_of src (Z.to_nat n))).
Proof.
  intros HN Hn B L Hsmall. rewrite count_spec_cnt. pose proof (byte_count_bounds n ltac:(lia)) as Hbc.
  assert (Hw : forall a len, 0 <= a -> 0 <= len <= N -> (N | a) -> a + len <= byte_count_of n ->
     cnt (bitp src) (Z.to_nat (8 * a)) (Z.to_nat (8 * len)) < 256).
  { intros a len Ha Hl D H. specialize (Hsmall a len Ha Hl D H). rewrite count_spec_cnt in Hsmall.
    erewrite cnt_ext in Hsmall; [exact Hsmall|]. intros k Hk. unfold bitp, bit_of.
    replace (Z.of_nat (Z.to_nat (8 * a) + k)) with (8 * a + Z.of_nat k) by lia. rewrite global_div, global_mod.
    destruct (div8_bounds (Z.of_nat k) len ltac:(lia)). f_equal. change (0 + k)%nat with k. apply nth_window; lia. }
  pose proof (subtract_padding_ok src n _ ltac:(lia) L B eq_refl ltac:(lia)) as SP.
  unfold count_true. cbv zeta. set (bc := byte_count_of n) in *.
  assert (Red : forall a len, 0 <= a -> 0 <= len <= N -> (N | a) -> a + len <= bc ->
    reduce_sum_u8 (map popcount (window src a len)) = cnt (bitp src) (Z.to_nat (8 * a)) (Z.to_nat (8 * len))).
  { intros a len Ha Hl D H. unfold reduce_sum_u8, window. unfold zlen in L. rewrite sum_popcount by lia.
    replace (8 * Z.to_nat a)%nat with (Z.to_nat (8 * a)) by lia.
    replace (8 * Z.to_nat len)%nat with (Z.to_nat (8 * len)) by lia.
    apply wrapu_id. unfold in_u. pose proof (cnt_nonneg (bitp src) (Z.to_nat (8 * a)) (Z.to_nat (8 * len))).
    specialize (Hw a len Ha Hl D H). pows; lia. }
  assert (Add : forall a len, 0 <= a -> 0 <= len -> a + len <= bc ->
    wrapu 64 (cnt (bitp src) 0 (Z.to_nat (8 * a)) + cnt (bitp src) (Z.to_nat (8 * a)) (Z.to_nat (8 * len)))
     = cnt (bitp src) 0 (Z.to_nat (8 * (a + len)))).
  { intros a len Ha Hl H. replace (Z.to_nat (8 * (a + len))) with (Z.to_nat (8 * a) + Z.to_nat (8 * len))%nat by lia.
    rewrite cnt_app. cbn [Nat.add]. apply wrapu_id.
    pose proof (cnt_nonneg (bitp src) 0 (Z.to_nat (8 * a))). pose proof (cnt_le (bitp src) 0 (Z.to_nat (8 * a))).
    pose proof (cnt_nonneg (bitp src) (Z.to_nat (8 * a)) (Z.to_nat (8 * len))).
    pose proof (cnt_le (bitp src) (Z.to_nat (8 * a)) (Z.to_nat (8 * len))). unfold in_u. pows; lia. }
  match goal with |- (do! (_, _) <- simd_loop _ _ _ _ ?b _; _) = _ =>
    destruct (simd_loop_inv (fun idx s => s = cnt (bitp src) 0 (Z.to_nat (8 * idx))) b bc N 0) as (s & -> & ->) end; auto; try lia.
  - intros idx s Hi Hc D ->. rewrite loadU_ret by lia. cbn [obind]. eexists; split; [reflexivity|].
    rewrite Red by (auto; lia). apply Add; lia.
  - pose proof (blocks_bound bc N HN ltac:(lia)) as (B1 & B2 & B3). cbn [obind]. cbv beta iota.
    set (idx := N * (bc / N)) in *.
    destruct (Z.eqb_spec idx bc) as [->|NE]; [exact SP|].
    rewrite loadN_ret by lia. cbn [obind].
    replace (reduce_sum_u8 _) with (cnt (bitp src) (Z.to_nat (8 * idx)) (Z.to_nat (8 * (bc - idx)))).
    2:{ rewrite <- Red by (auto; lia). unfold reduce_sum_u8. rewrite map_app, sum_list_app, sum_zeros. f_equal. lia. }
    rewrite Add by lia. replace (idx + (bc - idx)) with bc by lia. exact SP.
Qed.

Lemma count_true_narrow N src n : 1 <= N < 32 -> 0 <= n < 2 ^ 62 -> byte_buffer src -> byte_count_of n <= zlen src ->
  count_true N src n = Ret (count_true_spec (bits_of src (Z.to_nat n))).
Proof.
  intros HN Hn B L. apply count_true_ok; auto; try lia. intros a len Ha Hl D H. rewrite count_spec_cnt.
  pose proof (cnt_le (bitp (window src a len)) 0 (Z.to_nat (8 * len))). lia.
Qed.
Lemma count_true_nonneg l : 0 <= count_true_spec l <= Z.of_nat (length l).
Proof. unfold count_true_spec. split; [lia|]. apply inj_le. induction l as [|[] l IH]; simpl; lia. Qed.
Lemma count_split l : Z.of_nat (length l) - count_true_spec l = count_true_spec (map negb l).
Proof. unfold count_true_spec. induction l as [|[] l IH]; cbn [map filter negb length]; lia. Qed.
Lemma bits_of_length mem n : length (bits_of mem n) = n.
Proof. unfold bits_of. now rewrite map_length, seq_length. Qed.
Lemma count_false_narrow N src n : 1 <= N < 32 -> 0 <= n < 2 ^ 62 -> byte_buffer src -> byte_count_of n <= zlen src ->
  count_false N src n = Ret (count_true_spec (map negb (bits_of src (Z.to_nat n)))).
Proof.
  intros HN Hn B L. unfold count_false. rewrite count_true_narrow by auto. cbn [obind]. f_equal.
  rewrite <- count_split. pose proof (count_true_nonneg (bits_of src (Z.to_nat n))) as C.
  rewrite bits_of_length in *. rewrite Z2Nat.id in * by lia. apply wrapu_id. unfold in_u. pows; lia.
Qed.

Lemma bit_of_ones m i : 0 <= i < 8 * Z.of_nat m -> bit_of (repeat 255 m) i = true.
Proof.
  intros H. destruct (div8_bounds i _ H) as [H1 H2]. unfold bit_of.
  replace (nth (Z.to_nat (i / 8)) (repeat 255 m) 0) with 255.
  - change 255 with (Z.ones 8). apply Z.ones_spec_low. lia.
  - assert (Z.to_nat (i / 8) < m)%nat as X by lia. revert X. generalize (Z.to_nat (i / 8)).
    clear. induction m; intros [|k] X; simpl; try lia; auto. apply IHm; lia.
Qed.
Lemma count_true_wide N : 32 <= N ->
  count_true N (repeat 255 (Z.to_nat N)) (8 * N) = Ret (8 * N mod 256) /\
  count_true_spec (bits_of (repeat 255 (Z.to_nat N)) (Z.to_nat (8 * N))) = 8 * N.
Proof.
  intros HN. set (src := repeat 255 (Z.to_nat N)).
  assert (C : cnt (bitp src) 0 (Z.to_nat (8 * N)) = 8 * N).
  { rewrite cnt_all; [lia|]. intros k Hk. unfold bitp, src. apply bit_of_ones. lia. }
  split; [|rewrite count_spec_cnt; exact C].
  assert (Ls : zlen src = N) by (unfold zlen, src; rewrite repeat_length; lia).
  assert (M : (8 * N) mod 8 = 0) by (rewrite Z.mul_comm; apply Z.mod_mul; lia).
  assert (Q : 8 * N / 8 = N) by (rewrite Z.mul_comm; apply Z.div_mul; lia).
  unfold count_true, byte_count_of, padding_bits_of. rewrite M, Q. change (0 <? 0) with false. cbv zeta iota.
  unfold fuel_for. destruct (Z.to_nat N) as [|m] eqn:EN; [lia|]. cbn [simd_loop].
  rewrite (proj2 (Z.leb_le (0 + N) N)) by lia. rewrite loadU_ret by lia. cbn [obind simd_loop].
  rewrite (proj2 (Z.leb_gt (0 + N + N) N)) by lia. cbn [obind].
  rewrite (proj2 (Z.eqb_eq (0 + N) N)) by lia. change ((8 - 0) mod 8) with 0. unfold subtract_padding.
  change (0 <? 0) with false. cbv iota. f_equal. unfold reduce_sum_u8, window.
  unfold zlen in Ls. rewrite sum_popcount by lia. change (8 * Z.to_nat 0)%nat with 0%nat.
  replace (8 * Z.to_nat N)%nat with (Z.to_nat (8 * N)) by lia. rewrite C.
  unfold wrapu. rewrite Z.add_0_l. change (2 ^ 8) with 256. apply Z.mod_small.
  pose proof (Z.mod_pos_bound (8 * N) 256 ltac:(lia)). pows; lia.
Qed.

(** ** filter *)
Lemma firstn_add {A} (l : list A) a b : firstn (a + b) l = firstn a l ++ firstn b (skipn a l).
Proof. revert a. induction l as [|x l IH]; intros [|a]; simpl; auto. - now destruct b. - now rewrite IH. Qed.
Lemma firstn_window {A} (l : list A) a b : 0 <= a -> 0 <= b ->
  firstn (Z.to_nat (a + b)) l = firstn (Z.to_nat a) l ++ window l a b.
Proof. intros. rewrite Z2Nat.inj_add by lia. apply firstn_add. Qed.
Lemma select_app {A} m1 m2 (l1 l2 : list A) : length m1 = length l1 ->
  select (m1 ++ m2) (l1 ++ l2) = select m1 l1 ++ select m2 l2.
Proof.
  revert l1. induction m1 as [|m m1 IH]; intros [|x l1] H; simpl in *; try lia; auto.
  injection H as H. destruct m; rewrite IH by auto; auto.
Qed.
Lemma select_false {A} n (l : list A) : select (repeat false n) l = [].
Proof. revert l. induction n; intros [|x l]; simpl; auto. Qed.
Lemma select_length {A} m (l : list A) : (length (select m l) <= length l)%nat.
Proof. revert l. induction m as [|[] m IH]; intros [|x l]; simpl; try lia; specialize (IH l); lia. Qed.
Lemma select_length_m {A} m (l : list A) : (length (select m l) <= length m)%nat.
Proof. revert l. induction m as [|[] m IH]; intros [|x l]; simpl; try lia; specialize (IH l); lia. Qed.

Definition block_mask (bytes : list Z) (a : Z) (b : nat) : list bool :=
  map (fun k => bit_of bytes (a + Z.of_nat k)) (seq 0 b).
Lemma block_mask_length bytes a b : length (block_mask bytes a b) = b.
Proof. unfold block_mask. now rewrite map_length, seq_length. Qed.
Lemma bits_of_add bytes a b : bits_of bytes (a + b) = bits_of bytes a ++ block_mask bytes (Z.of_nat a) b.
Proof.
  unfold bits_of, block_mask. rewrite seq_app, map_app. f_equal. cbn [Nat.add].
  revert a. induction b as [|b IH]; intros a; [reflexivity|]. cbn [seq map]. f_equal.
  - f_equal. lia.
  - rewrite IH. rewrite <- seq_shift, map_map. apply map_ext. intros k. f_equal. lia.
Qed.
Lemma bits_of_addZ bytes a b : 0 <= a -> 0 <= b ->
  bits_of bytes (Z.to_nat (a + b)) = bits_of bytes (Z.to_nat a) ++ block_mask bytes a (Z.to_nat b).
Proof. intros. rewrite Z2Nat.inj_add, bits_of_add by lia. rewrite Z2Nat.id by lia. reflexivity. Qed.

(** What has been written when the blocks below [idx] are done. *)
Definition filtered {A} (inp : list A) (bytes : list Z) (fresh : list A) (idx : Z) (st : list A * Z) : Prop :=
  let sel := select (bits_of bytes (Z.to_nat idx)) (firstn (Z.to_nat idx) inp) in
  zlen (fst st) = zlen fresh /\ snd st = zlen sel /\ firstn (Z.to_nat (snd st)) (fst st) = sel.

Lemma overwrite_prefix {A} (out : list A) off sel pad pre : 0 <= off -> off + zlen sel + zlen pad <= zlen out ->
  firstn (Z.to_nat off) out = pre ->
  exists out', overwrite out off (sel ++ pad) = Ret out' /\ zlen out' = zlen out /\
    firstn (Z.to_nat (off + zlen sel)) out' = pre ++ sel.
Proof.
  intros Ho Hl <-. unfold overwrite. unfold zlen in *. rewrite app_length.
  rewrite !(proj2 (Z.leb_le _ _)) by lia. cbn [andb]. eexists; split; [reflexivity|]. split.
  - rewrite !app_length, firstn_length, skipn_length. lia.
  - assert (L : length (firstn (Z.to_nat off) out) = Z.to_nat off) by (rewrite firstn_length; lia).
    rewrite firstn_app, L. rewrite (firstn_all2 (firstn (Z.to_nat off) out)) by lia. f_equal.
    replace (Z.to_nat (off + Z.of_nat (length sel)) - Z.to_nat off)%nat with (length sel) by lia.
    rewrite <- app_assoc, firstn_app, firstn_all, Nat.sub_diag. cbn [firstn]. now rewrite app_nil_r.
Qed.

Lemma filtered_step {A} (inp : list A) bytes fresh idx r st mask v pad :
  0 <= idx -> 0 <= r -> idx + r <= zlen inp -> filtered inp bytes fresh idx st ->
  select mask v = select (block_mask bytes idx (Z.to_nat r)) (window inp idx r) ->
  snd st + zlen (select mask v) + zlen pad <= zlen fresh ->
  exists out', overwrite (fst st) (snd st) (select mask v ++ pad) = Ret out' /\
    filtered inp bytes fresh (idx + r) (out', snd st + zlen (select mask v)).
Proof.
  intros Hi Hr Hc (L & Eo & Ep) Hsel Hroom. unfold zlen in Hc.
  destruct (overwrite_prefix (fst st) (snd st) (select mask v) pad _ ltac:(unfold zlen in Eo; lia) ltac:(lia) Ep)
    as (out' & E & L' & F).
  exists out'. split; [exact E|]. unfold filtered. cbn [fst snd].
  rewrite bits_of_addZ, firstn_window by lia.
  rewrite select_app by (rewrite bits_of_length, firstn_length; lia). rewrite <- Hsel.
  split; [lia|]. split; [|exact F]. rewrite Eo. unfold zlen. rewrite app_length. lia.
Qed.

Lemma filtered_off {A} (inp : list A) bytes fresh idx st : 0 <= idx -> filtered inp bytes fresh idx st -> 0 <= snd st <= idx.
Proof.
  intros Hi (_ & E & _). rewrite E. unfold zlen. pose proof (select_length_m (bits_of bytes (Z.to_nat idx)) (firstn (Z.to_nat idx) inp)).
  rewrite bits_of_length in H. lia.
Qed.

Lemma byte_high b k : 0 <= b < 256 -> 8 <= k -> Z.testbit b k = false.
Proof. intros. rewrite <- (Z.mod_small b (2 ^ 8)) by (pows; lia). apply Z.mod_pow2_bits_high. lia. Qed.

Lemma get_mask_bits_ok bytes idx bc : byte_buffer bytes -> 0 <= idx < 8 * bc -> bc <= zlen bytes ->
  exists w, get_mask_bits bytes idx bc = Ret w /\
    forall k, 0 <= k -> idx + k < 8 * bc -> idx mod 8 + k < 16 -> Z.testbit w k = bit_of bytes (idx + k).
Proof.
  intros B Hi L. destruct (div8_bounds idx bc Hi) as [D M]. unfold zlen in L. unfold get_mask_bits. cbv zeta.
  assert (HI : idx = 8 * (idx / 8) + idx mod 8) by (apply Z.div_mod; lia).
  set (off := idx / 8) in *. set (c := idx mod 8) in *.
  rewrite (load_ret _ _ 0) by lia. cbn [obind].
  pose proof (nth_byte bytes (Z.to_nat off) B) as B0.
  assert (Bit : forall k, 0 <= k -> Z.testbit (nth (Z.to_nat (off + (c + k) / 8)) bytes 0) ((c + k) mod 8) = bit_of bytes (idx + k)).
  { intros k Hk. unfold bit_of. rewrite HI. rewrite <- Z.add_assoc, global_div, global_mod. reflexivity. }
  destruct (Z.ltb_spec (off + 1) bc).
  - rewrite (load_ret _ _ 0) by lia. cbn [obind]. eexists; split; [reflexivity|]. intros k Hk Hb Hc.
    rewrite <- Bit by lia. unfold wrapu. rewrite Z.shiftr_spec, Z.mod_pow2_bits_low, Z.lor_spec, Z.shiftl_spec by lia.
    replace (k + c) with (c + k) by lia.
    destruct (Z.lt_ge_cases (c + k) 8).
    + rewrite (Z.testbit_neg_r _ (c + k - 8)), orb_false_r, Z.div_small, Z.mod_small, Z.add_0_r by lia. reflexivity.
    + rewrite byte_high by lia. cbn [orb].
      assert ((c + k) / 8 = 1) as -> by (symmetry; apply Z.div_unique with (r := c + k - 8); lia).
      assert ((c + k) mod 8 = c + k - 8) as -> by (symmetry; apply Z.mod_unique with (q := 1); lia). reflexivity.
  - cbn [obind]. eexists; split; [reflexivity|]. intros k Hk Hb Hc. rewrite <- Bit by lia.
    rewrite Z.shiftr_spec by lia. replace (k + c) with (c + k) by lia.
    rewrite Z.div_small, Z.mod_small, Z.add_0_r by lia. reflexivity.
Qed.

Lemma map_seq_ext {B} (f g : nat -> B) n : (forall k, (k < n)%nat -> f k = g k) -> map f (seq 0 n) = map g (seq 0 n).
Proof. intros H. apply map_ext_in. intros k Hk. apply in_seq in Hk. apply H. lia. Qed.

Lemma first_n_mask (f : nat -> bool) bytes idx N r : 0 <= r <= N ->
  (forall k, (Z.of_nat k < r) -> f k = bit_of bytes (idx + Z.of_nat k)) ->
  first_n (map f (seq 0 (Z.to_nat N))) r = block_mask bytes idx (Z.to_nat r) ++ repeat false (Z.to_nat (N - r)).
Proof.
  intros Hr Hf. unfold first_n. rewrite map_length, seq_length. f_equal; [|f_equal; lia].
  replace (Z.to_nat N) with (Z.to_nat r + Z.to_nat (N - r))%nat by lia.
  rewrite seq_app, map_app, firstn_app, map_length, seq_length, Nat.sub_diag, app_nil_r.
  rewrite firstn_all2 by (rewrite map_length, seq_length; lia).
  unfold block_mask. apply map_seq_ext. intros k Hk. apply Hf. lia.
Qed.

Lemma compress_bits_eq {A} (junk : A) N out off mask v :
  compress_bits_store junk N out off mask v =
  (do! out <- overwrite out off (select mask v ++ repeat junk (Z.to_nat (N - zlen (select mask v)))); Ret (out, zlen (select mask v))).
Proof. reflexivity. Qed.

Definition lane_counts : list Z := [1; 2; 4; 8; 16; 32; 64].

Lemma filter_impl_ok {A} (zero junk : A) N inp bytes fresh : In N lane_counts ->
  byte_buffer bytes -> byte_count_of (zlen inp) <= zlen bytes -> (N < 8 \/ zlen bytes mod (N / 8) = 0) ->
  zlen inp <= zlen fresh ->
  exists st, filter_impl zero junk N inp bytes fresh (zlen inp) = Ret st /\ filtered inp bytes fresh (zlen inp) st.
Proof.
  intros HN B Lb M8 Lf. pose proof (zlen_nonneg inp) as Hn. set (n := zlen inp) in *.
  pose proof (byte_count_bounds n Hn) as Hbc. rewrite (byte_count_eq n Hn) in *.
  unfold filter_impl. fold n. set (bc := (n + 7) / 8) in *. cbv zeta.
  assert (H1 : 1 <= N) by (unfold lane_counts in HN; simpl in HN; lia).
  pose proof (blocks_bound n N H1 Hn) as (B1 & B2 & B3).
  assert (F0 : filtered inp bytes fresh 0 (fresh, 0)) by (unfold filtered; cbn; auto).
  assert (Pass : forall (l : list bool) st idx, select l (@nil A) = [] -> filtered inp bytes fresh idx st ->
     filtered inp bytes fresh idx (fst st, snd st)) by (intros ? [? ?]; auto).
  destruct (Z.eqb_spec (N mod 8) 0) as [E8|N8]; cbn [negb].
  - (* whole bytes of mask per block *)
    assert (HN8 : N = 8 * (N / 8)) by (pose proof (Z.div_mod N 8 ltac:(lia)); lia).
    assert (Hload : forall idx, 0 <= idx -> (N | idx) -> idx / 8 + N / 8 <= zlen bytes ->
      load_mask_bits bytes (idx / 8) N = Ret (block_mask bytes idx (Z.to_nat N))).
    { intros idx Hi [q Hq] Hr. unfold load_mask_bits.
      assert (E : (N + 7) / 8 = N / 8) by (symmetry; apply Z.div_unique with (r := 7); lia). rewrite E.
      assert (idx / 8 = q * (N / 8)) by (rewrite Hq, HN8 at 1; replace (q * (8 * (N / 8))) with (q * (N / 8) * 8) by lia; apply Z.div_mul; lia).
      rewrite !(proj2 (Z.leb_le _ _)) by (try apply Z.div_pos; lia). cbn [andb]. f_equal. unfold block_mask.
      apply map_seq_ext. intros k Hk. f_equal. nia. }
    match goal with |- exists st, obind (simd_loop _ _ _ _ ?b _) _ = _ /\ _ =>
      destruct (simd_loop_inv (filtered inp bytes fresh) b n N (fresh, 0)) as ([out off] & -> & G) end; auto.
    + intros idx [out off] Hi Hc D F. rewrite loadU_ret by (fold n; lia). cbn [obind].
      rewrite Hload; auto. 2:{ assert (idx / 8 + N / 8 = (idx + N) / 8) by (rewrite HN8 at 2; rewrite Z.mul_comm, Z.div_add by lia; lia).
        rewrite H. apply Z.le_trans with bc; [|lia]. unfold bc. apply Z.div_le_mono; lia. }
      cbn [obind]. rewrite compress_bits_eq. pose proof (filtered_off _ _ _ _ _ Hi F) as Ho. cbn [snd] in Ho.
      set (mask := block_mask bytes idx (Z.to_nat N)). set (v := window inp idx N).
      assert (Sl : zlen (select mask v) <= N).
      { unfold zlen, mask. pose proof (select_length_m mask v). unfold mask in H. rewrite block_mask_length in H. lia. }
      destruct (filtered_step inp bytes fresh idx N (out, off) mask v (repeat junk (Z.to_nat (N - zlen (select mask v)))))
        as (out' & E & F'); auto; try (fold n; lia).
      { unfold zlen at 2. rewrite repeat_length. pose proof (zlen_nonneg (select mask v)). cbn [snd]. lia. }
      cbn [fst snd] in E. rewrite E. cbn [obind]. eexists; split; [reflexivity|]. exact F'.
    + cbn [obind]. set (idx := N * (n / N)) in *. destruct (Z.eqb_spec idx n) as [E|NE].
      * rewrite E in G. exists (out, off). split; auto.
      * rewrite loadN_ret by (fold n; lia). cbn [obind]. rewrite Hload; auto; try lia.
        2:{ destruct M8 as [M8|M8]; [lia|]. destruct B3 as [q Hq].
            assert (idx / 8 = q * (N / 8)) by (rewrite Hq, HN8 at 1; replace (q * (8 * (N / 8))) with (q * (N / 8) * 8) by lia; apply Z.div_mul; lia).
            assert (0 < N / 8) by lia.
            pose proof (Z.div_mod (zlen bytes) (N / 8) ltac:(lia)) as Hz. rewrite M8 in Hz. set (z := zlen bytes / (N / 8)) in *.
            assert (8 * (idx / 8) < 8 * zlen bytes) by nia.
            set (M := N / 8) in *. assert (q * M < z * M) by lia. assert (q < z) by nia. nia. }
        cbn [obind]. unfold compress_blended_store. pose proof (filtered_off _ _ _ _ _ (proj1 B1) G) as Ho. cbn [snd] in Ho.
        unfold block_mask. rewrite (first_n_mask _ bytes idx) by (auto; lia). fold (block_mask bytes idx (Z.to_nat (n - idx))).
        set (mask := block_mask bytes idx (Z.to_nat (n - idx)) ++ _). set (v := window inp idx (n - idx) ++ _).
        assert (Es : select mask v = select (block_mask bytes idx (Z.to_nat (n - idx))) (window inp idx (n - idx))).
        { unfold mask, v. pose proof (window_length inp idx (n - idx) ltac:(lia) ltac:(lia) ltac:(fold n; lia)) as W. unfold zlen in W.
          rewrite select_app by (rewrite block_mask_length; lia). rewrite select_false. apply app_nil_r. }
        destruct (filtered_step inp bytes fresh idx (n - idx) (out, off) mask v []) as (out' & E & F'); auto; try (fold n; lia).
        { cbn [snd]. rewrite Es. unfold zlen at 1 2. pose proof (select_length_m (block_mask bytes idx (Z.to_nat (n - idx))) (window inp idx (n - idx))) as X.
          rewrite block_mask_length in X. cbn [length]. lia. }
        cbn [fst snd] in E. rewrite app_nil_r in E. rewrite E. cbn [obind]. eexists; split; [reflexivity|].
        replace n with (idx + (n - idx)) by lia. exact F'.
  - (* masks taken from one or two bytes *)
    assert (HN7 : N < 8). { unfold lane_counts in HN; simpl in HN. destruct HN as [<-|[<-|[<-|[<-|[<-|[<-|[<-|[]]]]]]]]; try lia; exfalso; apply N8; reflexivity. }
    assert (Hmask : forall idx r, 0 <= idx -> 0 < r <= N -> idx + r <= n ->
      exists w, get_mask_bits bytes idx bc = Ret w /\
        forall k, (Z.of_nat k < r) -> Z.testbit w (Z.of_nat k) = bit_of bytes (idx + Z.of_nat k)).
    { intros idx r Hi Hr Hc. destruct (get_mask_bits_ok bytes idx bc B ltac:(lia) Lb) as (w & E & W).
      exists w. split; auto. intros k Hk. apply W; try lia. pose proof (Z.mod_pos_bound idx 8 ltac:(lia)). lia. }
    match goal with |- exists st, obind (simd_loop _ _ _ _ ?b _) _ = _ /\ _ =>
      destruct (simd_loop_inv (filtered inp bytes fresh) b n N (fresh, 0)) as ([out off] & -> & G) end; auto.
    + intros idx [out off] Hi Hc D F. rewrite loadU_ret by (fold n; lia). cbn [obind].
      destruct (Hmask idx N) as (w & -> & W); try lia. cbn [obind].
      unfold compress_blended_store. pose proof (filtered_off _ _ _ _ _ Hi F) as Ho. cbn [snd] in Ho.
      assert (Em : mask_of_word w N = block_mask bytes idx (Z.to_nat N)).
      { apply map_seq_ext. intros k Hk. apply W. lia. }
      rewrite Em. set (mask := block_mask bytes idx (Z.to_nat N)). set (v := window inp idx N).
      assert (Sl : zlen (select mask v) <= N).
      { unfold zlen, mask. pose proof (select_length_m mask v). unfold mask in H. rewrite block_mask_length in H. lia. }
      destruct (filtered_step inp bytes fresh idx N (out, off) mask v []) as (out' & E & F'); auto; try (fold n; lia).
      { unfold zlen at 2. cbn [snd length]. lia. }
      cbn [fst snd] in E. rewrite app_nil_r in E. rewrite E. cbn [obind]. eexists; split; [reflexivity|]. exact F'.
    + cbn [obind]. set (idx := N * (n / N)) in *. destruct (Z.eqb_spec idx n) as [E|NE].
      * rewrite E in G. exists (out, off). split; auto.
      * rewrite loadN_ret by (fold n; lia). cbn [obind]. destruct (Hmask idx (n - idx)) as (w & -> & W); try lia. cbn [obind].
        unfold compress_blended_store. pose proof (filtered_off _ _ _ _ _ (proj1 B1) G) as Ho. cbn [snd] in Ho.
        unfold mask_of_word. rewrite (first_n_mask _ bytes idx) by (auto; lia).
        set (mask := block_mask bytes idx (Z.to_nat (n - idx)) ++ _). set (v := window inp idx (n - idx) ++ _).
        assert (Es : select mask v = select (block_mask bytes idx (Z.to_nat (n - idx))) (window inp idx (n - idx))).
        { unfold mask, v. pose proof (window_length inp idx (n - idx) ltac:(lia) ltac:(lia) ltac:(fold n; lia)) as W'. unfold zlen in W'.
          rewrite select_app by (rewrite block_mask_length; lia). rewrite select_false. apply app_nil_r. }
        destruct (filtered_step inp bytes fresh idx (n - idx) (out, off) mask v []) as (out' & E & F'); auto; try (fold n; lia).
        { cbn [snd]. rewrite Es. unfold zlen at 1 2. pose proof (select_length_m (block_mask bytes idx (Z.to_nat (n - idx))) (window inp idx (n - idx))) as X.
          rewrite block_mask_length in X. cbn [length]. lia. }
        cbn [fst snd] in E. rewrite app_nil_r in E. rewrite E. cbn [obind]. eexists; split; [reflexivity|].
        replace n with (idx + (n - idx)) by lia. exact F'.
Qed.

Lemma filter_num_ok {A} (zero junk : A) N inp bytes fresh : In N lane_counts ->
  byte_buffer bytes -> zlen inp <= 8 * zlen bytes -> (N < 8 \/ zlen bytes mod (N / 8) = 0) -> zlen inp <= zlen fresh ->
  filter_num zero junk N inp bytes fresh = Ret (select (bits_of bytes (length inp)) inp).
Proof.
  intros HN B Lb M Lf. unfold filter_num. pose proof (zlen_nonneg inp). pose proof (byte_count_bounds (zlen inp) H).
  destruct (filter_impl_ok zero junk N inp bytes fresh) as ([out off] & -> & F); auto; try lia.
  cbn [obind]. destruct F as (_ & E & F). cbn [fst snd] in *. rewrite F. unfold zlen. rewrite Nat2Z.id, firstn_all. reflexivity.
Qed.

Lemma filter_mask_overrun {A} (zero junk : A) N inp bytes fresh : 0 < N -> N mod 8 = 0 ->
  0 < zlen inp < N -> zlen bytes < N / 8 ->
  filter_num zero junk N inp bytes fresh = UB.
Proof.
  intros HN M Hn Hb. unfold filter_num, filter_impl. rewrite M, Z.eqb_refl. cbn [negb]. cbv zeta.
  unfold fuel_for. cbn [simd_loop]. rewrite (proj2 (Z.leb_gt (0 + N) _)) by lia. cbn [obind].
  rewrite (proj2 (Z.eqb_neq 0 (zlen inp))) by lia. rewrite loadN_ret by lia. cbn [obind].
  unfold load_mask_bits. change (0 / 8) with 0. rewrite Z.leb_refl. cbn [andb].
  assert ((N + 7) / 8 = N / 8) as ->.
  { pose proof (Z.div_mod N 8 ltac:(lia)). symmetry. apply Z.div_unique with (r := 7); lia. }
  rewrite (proj2 (Z.leb_gt _ _)) by lia. reflexivity.
Qed.

Lemma bit_at_ok bytes i : byte_buffer bytes -> 0 <= i < 8 * zlen bytes -> bit_at bytes i = Ret (bit_of bytes i).
Proof.
  intros B H. unfold bit_at. change (bit_of bytes i) with (bit_of bytes (8 * 0 + i)).
  change (bit_get bytes (mk_vec 0 0 0 false) i) with (bit_get bytes (mk_vec 0 (8 * zlen bytes) 0 false) i).
  apply (bit_get_ok bytes (mk_vec 0 (8 * zlen bytes) 0 false)); [|cbn; lia].
  unfold bits_fit, zlen; cbn. repeat split; auto; lia.
Qed.

Lemma block_mask_S bytes i n :
  block_mask bytes (Z.of_nat i) (S n) = bit_of bytes (Z.of_nat i) :: block_mask bytes (Z.of_nat (S i)) n.
Proof.
  unfold block_mask. cbn [seq map]. f_equal; [f_equal; lia|].
  rewrite <- seq_shift, map_map. apply map_ext. intros k. f_equal. lia.
Qed.
Lemma bits_of_block bytes n : bits_of bytes n = block_mask bytes 0 n.
Proof. reflexivity. Qed.

Lemma firstn_upd {A} (l : list A) n x : (n < length l)%nat -> firstn (S n) (upd l n x) = firstn n l ++ [x].
Proof. revert n. induction l as [|y l IH]; intros [|n] H; simpl in *; try lia; auto. f_equal. apply IH. lia. Qed.

Lemma filter_strings_ok {A} bytes (B : byte_buffer bytes) (data : list A) : forall i raw cursor,
  0 <= cursor -> cursor + zlen data <= zlen raw -> Z.of_nat i + zlen data <= 8 * zlen bytes ->
  exists raw', filter_strings i data bytes raw cursor =
      Ret (raw', cursor + zlen (select (block_mask bytes (Z.of_nat i) (length data)) data)) /\
    firstn (Z.to_nat (cursor + zlen (select (block_mask bytes (Z.of_nat i) (length data)) data))) raw' =
    firstn (Z.to_nat cursor) raw ++ select (block_mask bytes (Z.of_nat i) (length data)) data.
Proof.
  induction data as [|x data IH]; intros i raw cursor Hc Hr Hb.
  - exists raw. cbn [filter_strings select length block_mask seq map]. unfold zlen. cbn [length].
    rewrite Z.add_0_r, app_nil_r. auto.
  - unfold zlen in *. cbn [length] in *. cbn [filter_strings]. rewrite bit_at_ok by (auto; unfold zlen; lia). cbn [obind].
    rewrite block_mask_S. cbn [select]. destruct (bit_of bytes (Z.of_nat i)).
    + rewrite store_ret by lia. cbn [obind].
      destruct (IH (S i) (upd raw (Z.to_nat cursor) x) (cursor + 1)) as (raw' & E & F); rewrite ?upd_length; try lia.
      exists raw'. cbn [length]. rewrite E. split; [f_equal; f_equal; lia|].
      replace (cursor + Z.of_nat (S _)) with (cursor + 1 + Z.of_nat (length (select (block_mask bytes (Z.of_nat (S i)) (length data)) data))) by lia.
      rewrite F. replace (Z.to_nat (cursor + 1)) with (S (Z.to_nat cursor)) by lia.
      rewrite firstn_upd by lia. now rewrite <- app_assoc.
    + apply IH; try lia.
Qed.
Lemma filter_string_ok {A} (data : list A) bytes fresh : byte_buffer bytes -> zlen data <= 8 * zlen bytes ->
  zlen data <= zlen fresh ->
  filter_string data bytes fresh = Ret (select (bits_of bytes (length data)) data).
Proof.
  intros B Hb Hf. unfold filter_string. destruct (filter_strings_ok bytes B data 0 fresh 0) as (raw & E & F); try lia.
  rewrite E. cbn [obind]. rewrite F. reflexivity.
Qed.

(** 64-bit words *)
Definition wbit (ws : list Z) (i : Z) : bool := Z.testbit (nth (Z.to_nat (i / 64)) ws 0) (i mod 64).
Lemma word_bytes_nth w j : 0 <= j < 8 -> nth (Z.to_nat j) (word_bytes w 8) 0 = Z.shiftr w (8 * j) mod 256.
Proof.
  intros H. unfold word_bytes. pose (f := fun k => Z.shiftr w (8 * Z.of_nat k) mod 256).
  assert (E : map f (seq 0 (Z.to_nat 8)) = [f 0; f 1; f 2; f 3; f 4; f 5; f 6; f 7]%nat) by reflexivity.
  fold f. rewrite E.
  assert (D : j = 0 \/ j = 1 \/ j = 2 \/ j = 3 \/ j = 4 \/ j = 5 \/ j = 6 \/ j = 7) by lia.
  decompose [or] D; subst j; reflexivity.
Qed.
Lemma word_bytes_length w : length (word_bytes w 8) = 8%nat.
Proof. unfold word_bytes. now rewrite map_length, seq_length. Qed.
Lemma words_bytes_nth ws : forall j, 0 <= j ->
  nth (Z.to_nat j) (words_bytes ws) 0 = Z.shiftr (nth (Z.to_nat (j / 8)) ws 0) (8 * (j mod 8)) mod 256.
Proof.
  induction ws as [|w ws IH]; intros j Hj.
  - cbn [words_bytes flat_map]. assert (forall n, nth n (@nil Z) 0 = 0) as X by (intros []; reflexivity).
    rewrite !X, Z.shiftr_0_l. reflexivity.
  - change (words_bytes (w :: ws)) with (word_bytes w 8 ++ words_bytes ws).
    destruct (Z.lt_ge_cases j 8).
    + rewrite app_nth1 by (rewrite word_bytes_length; lia). rewrite word_bytes_nth by lia.
      rewrite (Z.div_small j 8), (Z.mod_small j 8) by lia. reflexivity.
    + rewrite app_nth2 by (rewrite word_bytes_length; lia). rewrite word_bytes_length.
      replace (Z.to_nat j - 8)%nat with (Z.to_nat (j - 8)) by lia. rewrite IH by lia.
      replace (j / 8) with ((j - 8) / 8 + 1) by (replace j with (j - 8 + 1 * 8) at 2 by lia; rewrite Z.div_add by lia; lia).
      replace (j mod 8) with ((j - 8) mod 8) by (replace j with (j - 8 + 1 * 8) at 2 by lia; rewrite Z_mod_plus_full; lia).
      assert (0 <= (j - 8) / 8) by (apply Z.div_pos; lia).
      replace (Z.to_nat ((j - 8) / 8 + 1)) with (S (Z.to_nat ((j - 8) / 8))) by lia. reflexivity.
Qed.
Lemma words_bytes_bit ws i : 0 <= i -> bit_of (words_bytes ws) i = wbit ws i.
Proof.
  intros Hi. unfold bit_of, wbit. assert (0 <= i / 8) by (apply Z.div_pos; lia). rewrite words_bytes_nth by lia.
  pose proof (Z.mod_pos_bound i 8 ltac:(lia)). pose proof (Z.mod_pos_bound (i / 8) 8 ltac:(lia)).
  change 256 with (2 ^ 8). rewrite Z.mod_pow2_bits_low, Z.shiftr_spec by lia. rewrite Z.div_div by lia. change (8 * 8) with 64.
  f_equal. change 64 with (8 * 8). rewrite Z.rem_mul_r by lia. lia.
Qed.

Lemma div64_bounds i bc : 0 <= i < 64 * bc -> 0 <= i / 64 < bc /\ 0 <= i mod 64 < 64.
Proof. intros. pose proof (Z.div_mod i 64 ltac:(lia)). pose proof (Z.mod_pos_bound i 64 ltac:(lia)). lia. Qed.

Lemma bits64_set_spec w n k : 0 <= n < 64 -> 0 <= k < 64 ->
  Z.testbit (bits64_set w n) k = (k =? n) || Z.testbit w k.
Proof.
  intros Hn Hk. unfold bits64_set, wrapu. rewrite Z.mod_pow2_bits_low, Z.lor_spec by lia.
  rewrite Z.shiftl_1_l, Z.pow2_bits_eqb by lia. rewrite (Z.eqb_sym n k), orb_comm. reflexivity.
Qed.
Lemma bits64_clear_spec w n k : 0 <= n < 64 -> 0 <= k < 64 ->
  Z.testbit (bits64_clear w n) k = negb (k =? n) && Z.testbit w k.
Proof.
  intros Hn Hk. unfold bits64_clear, wrapu. rewrite Z.mod_pow2_bits_low, Z.land_spec by lia.
  rewrite Z.lnot_spec by lia. rewrite Z.shiftl_1_l, Z.pow2_bits_eqb by lia.
  rewrite (Z.eqb_sym n k), andb_comm. reflexivity.
Qed.
Lemma wbit_upd ws c w (g : bool) : 0 <= c < 64 * zlen ws ->
  (forall k, 0 <= k < 64 -> Z.testbit w k = if k =? c mod 64 then g else Z.testbit (nth (Z.to_nat (c / 64)) ws 0) k) ->
  forall i, 0 <= i -> wbit (upd ws (Z.to_nat (c / 64)) w) i = if i =? c then g else wbit ws i.
Proof.
  intros Hc Hw i Hi. destruct (div64_bounds c _ Hc). unfold zlen in *. unfold wbit. rewrite nth_upd by lia.
  assert (0 <= i / 64) by (apply Z.div_pos; lia). pose proof (Z.mod_pos_bound i 64 ltac:(lia)).
  pose proof (Z.div_mod i 64 ltac:(lia)). pose proof (Z.div_mod c 64 ltac:(lia)).
  destruct (Nat.eqb_spec (Z.to_nat (i / 64)) (Z.to_nat (c / 64))) as [E|NE].
  - assert (E' : i / 64 = c / 64) by lia. rewrite Hw by lia. rewrite <- E'.
    destruct (Z.eqb_spec (i mod 64) (c mod 64)) as [F|F], (Z.eqb_spec i c) as [G|G]; subst; auto; exfalso; lia.
  - destruct (Z.eqb_spec i c); auto. exfalso. apply NE. now subst.
Qed.

Lemma wbits_ext ws ws' n : (forall i, 0 <= i < Z.of_nat n -> wbit ws i = wbit ws' i) ->
  map (fun i => wbit ws (Z.of_nat i)) (seq 0 n) = map (fun i => wbit ws' (Z.of_nat i)) (seq 0 n).
Proof. intros H. apply map_seq_ext. intros k Hk. apply H. lia. Qed.

Lemma filter_bits_ok data bytes (Bd : byte_buffer data) (B : byte_buffer bytes) n : forall i ws cursor,
  Z.of_nat (i + n) <= 8 * zlen data -> Z.of_nat (i + n) <= 8 * zlen bytes ->
  0 <= cursor -> cursor + Z.of_nat n <= 64 * zlen ws ->
  exists ws', let sel := select (block_mask bytes (Z.of_nat i) n) (block_mask data (Z.of_nat i) n) in
    filter_bits_loop n i data bytes ws cursor = Ret (ws', cursor + zlen sel) /\
    map (fun i => wbit ws' (Z.of_nat i)) (seq 0 (Z.to_nat (cursor + zlen sel))) =
    map (fun i => wbit ws (Z.of_nat i)) (seq 0 (Z.to_nat cursor)) ++ sel.
Proof.
  induction n as [|n IH]; intros i ws cursor Hd Hb Hc Hw.
  - exists ws. cbn [filter_bits_loop block_mask seq map select]. unfold zlen. cbn [length]. rewrite Z.add_0_r, app_nil_r. auto.
  - cbn [filter_bits_loop]. rewrite bit_at_ok by (auto; lia). cbn [obind]. rewrite !block_mask_S. cbn [select].
    destruct (bit_of bytes (Z.of_nat i)).
    + rewrite bit_at_ok by (auto; lia). cbn [obind]. destruct (div64_bounds cursor (zlen ws) ltac:(lia)) as [D M].
      unfold zlen in D. rewrite (load_ret _ _ 0) by lia. cbn [obind]. rewrite store_ret by lia. cbn [obind].
      set (x := bit_of data (Z.of_nat i)). set (w := if x then _ else _).
      destruct (IH (S i) (upd ws (Z.to_nat (cursor / 64)) w) (cursor + 1)) as (ws' & E & F); try lia.
      { unfold zlen in *. rewrite upd_length. lia. }
      exists ws'. cbv zeta. rewrite E. set (sel := select _ _) in *. unfold zlen in *. cbn [length]. split; [f_equal; f_equal; lia|].
      replace (cursor + Z.of_nat (S (length sel))) with (cursor + 1 + Z.of_nat (length sel)) by lia. rewrite F.
      change (x :: sel) with ([x] ++ sel). rewrite app_assoc. f_equal.
      replace (Z.to_nat (cursor + 1)) with (Z.to_nat cursor + 1)%nat by lia. rewrite seq_app, map_app. cbn [seq map Nat.add].
      assert (U : forall j, 0 <= j -> wbit (upd ws (Z.to_nat (cursor / 64)) w) j = if j =? cursor then x else wbit ws j).
      { apply wbit_upd; [unfold zlen; lia|]. intros k Hk. unfold w.
        destruct x; [rewrite bits64_set_spec by lia|rewrite bits64_clear_spec by lia]; destruct (k =? cursor mod 64); reflexivity. }
      f_equal.
      * apply wbits_ext. intros j Hj. rewrite U by lia. destruct (Z.eqb_spec j cursor); auto; lia.
      * rewrite U, Z2Nat.id, Z.eqb_refl by lia. reflexivity.
    + apply IH; lia.
Qed.

Lemma div64_room n : 0 <= n -> n <= 64 * ((n + 63) / 64).
Proof.
  intros. pose proof (Z.div_mod (n + 63) 64 ltac:(lia)). pose proof (Z.mod_pos_bound (n + 63) 64 ltac:(lia)). lia.
Qed.
Lemma filter_bit_ok data bytes n : byte_buffer data -> byte_buffer bytes -> 0 <= n ->
  n <= 8 * zlen data -> n <= 8 * zlen bytes ->
  let sel := select (bits_of bytes (Z.to_nat n)) (bits_of data (Z.to_nat n)) in
  exists out, filter_bit data bytes n = Ret (out, zlen sel) /\ bits_of out (length sel) = sel.
Proof.
  intros Bd B Hn Ld Lb sel. unfold filter_bit. pose proof (div64_room n Hn).
  assert (0 <= (n + 63) / 64) by (apply Z.div_pos; lia).
  destruct (filter_bits_ok data bytes Bd B (Z.to_nat n) 0 (repeat 0 (Z.to_nat ((n + 63) / 64))) 0) as (ws & E & F); try lia.
  { unfold zlen. rewrite repeat_length. lia. }
  cbv zeta in E, F. change (block_mask bytes (Z.of_nat 0) (Z.to_nat n)) with (bits_of bytes (Z.to_nat n)) in E, F.
  change (block_mask data (Z.of_nat 0) (Z.to_nat n)) with (bits_of data (Z.to_nat n)) in E, F. fold sel in E, F.
  rewrite E. cbn [obind]. eexists; split; [reflexivity|].
  cbn [Z.to_nat seq map app] in F. unfold zlen in F. rewrite Z.add_0_l, Nat2Z.id in F. change (seq 0 (Z.to_nat 0)) with (@nil nat) in F. cbn [map app] in F.
  rewrite <- F at 2. unfold bits_of. apply map_seq_ext. intros k Hk. apply words_bytes_bit. lia.
Qed.

(** ** gather *)
Lemma index_or_in {A} (zero : A) data ix : 0 <= ix < zlen data -> load data ix = Ret (index_or zero data ix).
Proof.
  intros H. unfold index_or. rewrite (proj2 (Z.ltb_ge _ _)) by lia. apply load_ret. unfold zlen in H. lia.
Qed.
Lemma index_or_out {A} (zero : A) data ix : (ix < 0 \/ zlen data <= ix) -> index_or zero data ix = zero.
Proof.
  intros H. unfold index_or. destruct (Z.ltb_spec ix 0); auto. apply nth_overflow. unfold zlen in H. lia.
Qed.
Lemma gather_loop_ok {A} (zero : A) data indices : forall i dst,
  (i + length indices <= length dst)%nat ->
  exists dst', gather_loop zero data i indices dst = Ret dst' /\ length dst' = length dst /\
    firstn (i + length indices) dst' = firstn i dst ++ map (index_or zero data) indices.
Proof.
  induction indices as [|ix indices IH]; intros i dst H; cbn [gather_loop length] in *.
  - exists dst. rewrite Nat.add_0_r. cbn [map]. rewrite app_nil_r. auto.
  - assert (E : (if (0 <=? ix) && (ix <? zlen data) then load data ix else Ret zero) = Ret (index_or zero data ix)).
    { destruct (Z.leb_spec 0 ix); cbn [andb]; [destruct (Z.ltb_spec ix (zlen data))|].
      - apply index_or_in. lia. - rewrite index_or_out by lia. reflexivity. - rewrite index_or_out by lia. reflexivity. }
    rewrite E. cbn [obind]. rewrite store_ret by lia. cbn [obind].
    destruct (IH (S i) (upd dst (Z.to_nat (Z.of_nat i)) (index_or zero data ix))) as (dst' & E' & L & F).
    { rewrite upd_length. lia. }
    exists dst'. split; [exact E'|]. rewrite upd_length in L. split; [exact L|].
    replace (i + S (length indices))%nat with (S i + length indices)%nat by lia. rewrite F.
    rewrite Nat2Z.id, firstn_upd by lia. cbn [map]. now rewrite <- app_assoc.
Qed.
Lemma gather_small_ok {A} (zero : A) data indices fresh : length fresh = length indices ->
  gather_small zero data indices fresh = Ret (map (index_or zero data) indices).
Proof.
  intros L. destruct (gather_loop_ok zero data indices 0 fresh ltac:(lia)) as (dst & E & L' & F).
  unfold gather_small. rewrite E. f_equal. cbn [Nat.add firstn app] in F. rewrite <- F. symmetry. apply firstn_all2. lia.
Qed.

Lemma gather_index_ok {A} (zero : A) data ix : Forall (fun i => 0 <= i < zlen data) ix ->
  gather_index data ix = Ret (map (index_or zero data) ix).
Proof.
  induction 1 as [|i ix Hi H IH]; [reflexivity|]. cbn [gather_index map]. rewrite (index_or_in zero) by auto. cbn [obind].
  rewrite IH. reflexivity.
Qed.
Lemma gather_index_total {A} (data : list A) ix :
  gather_index data ix = UB \/ exists v, gather_index data ix = Ret v /\ length v = length ix.
Proof.
  induction ix as [|i ix IH]; [right; exists []; auto|]. cbn [gather_index].
  unfold load. destruct (i <? 0); [left; reflexivity|]. destruct (nth_error data (Z.to_nat i)); [|left; reflexivity].
  cbn [obind]. destruct IH as [->|(v & -> & L)]; [left; reflexivity|]. right. exists (a :: v). cbn. auto.
Qed.
Lemma gather_index_bad {A} (data : list A) ix : Exists (fun i => i < 0 \/ zlen data <= i) ix -> gather_index data ix = UB.
Proof.
  induction 1 as [i ix Hi|i ix H IH]; cbn [gather_index].
  - unfold load. destruct (Z.ltb_spec i 0); [reflexivity|].
    assert (nth_error data (Z.to_nat i) = None) as -> by (apply nth_error_None; unfold zlen in *; lia). reflexivity.
  - destruct (load data i) eqn:E; try reflexivity.
    + cbn [obind]. now rewrite IH.
    + unfold load in E. destruct (i <? 0); [discriminate|]. destruct (nth_error data (Z.to_nat i)); discriminate.
    + unfold load in E. destruct (i <? 0); [discriminate|]. destruct (nth_error data (Z.to_nat i)); discriminate.
Qed.

Lemma Forall_window {A} (P : A -> Prop) l a b c : 0 <= a -> 0 <= b -> a + b <= c ->
  Forall P (firstn (Z.to_nat c) l) -> Forall P (window l a b).
Proof.
  intros Ha Hb Hc H. rewrite Forall_forall in *. intros x Hx. apply H. unfold window in Hx.
  replace (Z.to_nat c) with (Z.to_nat a + (Z.to_nat b + Z.to_nat (c - a - b)))%nat by lia.
  rewrite firstn_add, (firstn_add _ (Z.to_nat b)). apply in_or_app. right. apply in_or_app. now left.
Qed.

Lemma gather_impl_ok {A} (zero : A) N data indices fresh : 1 <= N -> length fresh = length indices ->
  (forall p i, nth_error indices p = Some i -> Z.of_nat p < N * (zlen indices / N) -> 0 <= i < zlen data) ->
  gather_impl zero N data indices fresh = Ret (map (index_or zero data) indices).
Proof.
  intros HN L H. unfold gather_impl. cbv zeta. pose proof (zlen_nonneg indices) as Hn. set (n := zlen indices) in *.
  pose proof (blocks_bound n N HN Hn) as (B1 & B2 & B3).
  assert (HF : Forall (fun i => 0 <= i < zlen data) (firstn (Z.to_nat (N * (n / N))) indices)).
  { apply Forall_forall. intros x Hx. apply In_nth_error in Hx. destruct Hx as [p Hp].
    assert (p < length (firstn (Z.to_nat (N * (n / N))) indices))%nat as Lp by (apply nth_error_Some; congruence).
    rewrite firstn_length in Lp. apply (H p); [|lia]. rewrite <- Hp.
    rewrite <- (firstn_skipn (Z.to_nat (N * (n / N))) indices) at 1. rewrite nth_error_app1; auto. rewrite firstn_length. lia. }
  pose (P := fun idx (dst : list A) => length dst = length fresh /\
     firstn (Z.to_nat idx) dst = map (index_or zero data) (firstn (Z.to_nat idx) indices)).
  match goal with |- obind (simd_loop _ _ _ _ ?b _) _ = _ =>
      destruct (simd_loop_inv P b n N fresh) as (dst & -> & G) end; auto.
  - intros idx dst Hi Hc [q Hq] (Ld & F). rewrite loadU_ret by (fold n; lia). cbn [obind].
    rewrite (gather_index_ok zero). 2:{ apply Forall_window with (c := N * (n / N)); auto; try lia.
      assert (q + 1 <= n / N) by (apply Z.div_le_lower_bound; lia). nia. }
    cbn [obind]. set (v := map _ (window indices idx N)).
    assert (Lv : zlen v = N). { unfold zlen, v. rewrite map_length. apply window_length; fold n; lia. }
    unfold zlen in n. pose proof (overwrite_prefix dst idx v [] _ Hi ltac:(unfold zlen in *; cbn [length]; lia) F) as (dst' & E & Ld' & F').
    rewrite app_nil_r in E. exists dst'. split; [exact E|]. split; [unfold zlen in Ld'; lia|].
    rewrite Lv in F'. rewrite F', firstn_window, map_app by lia. reflexivity.
  - split; auto.
  - cbn [obind]. set (idx := N * (n / N)) in *. destruct G as (Ld & F). destruct (Z.eqb_spec idx n) as [E|NE].
    + rewrite E in F. unfold n, zlen in F. rewrite Nat2Z.id in F. rewrite firstn_all in F. rewrite <- F. f_equal. symmetry. apply firstn_all2. lia.
    + unfold n, zlen in *. destruct (gather_loop_ok zero data (skipn (Z.to_nat idx) indices) (Z.to_nat idx) dst) as (dst' & E & L' & F').
      { rewrite skipn_length. lia. }
      rewrite E. f_equal. rewrite F, <- map_app, firstn_skipn, skipn_length in F'. rewrite <- F'. symmetry. apply firstn_all2. lia.
Qed.

Lemma gather_impl_bad {A} (zero : A) N data indices fresh p i : 1 <= N -> length fresh = length indices ->
  nth_error indices p = Some i -> Z.of_nat p < N * (zlen indices / N) -> (i < 0 \/ zlen data <= i) ->
  gather_impl zero N data indices fresh = UB.
Proof.
  intros HN L Hp Hb Hi. unfold gather_impl. cbv zeta. pose proof (zlen_nonneg indices) as Hn. set (n := zlen indices) in *.
  pose proof (blocks_bound n N HN Hn) as (B1 & B2 & B3).
  match goal with |- obind (simd_loop _ _ _ _ ?b _) _ = _ => set (body := b) end.
  assert (X : forall fuel idx dst, 0 <= idx <= Z.of_nat p -> (N | idx) -> length dst = length fresh ->
    (Z.to_nat (n - idx) < fuel)%nat -> simd_loop fuel idx n N body dst = UB).
  2:{ rewrite X; auto. - lia. - apply Z.divide_0_r. - unfold fuel_for. lia. }
  induction fuel as [|fuel IH]; intros idx dst Hx D Ld Hf; [lia|]. cbn [simd_loop].
  destruct D as [q Hq].
  assert (idx + N <= N * (n / N)).
  { assert (q < n / N) by nia. nia. }
  rewrite (proj2 (Z.leb_le _ _)) by lia. unfold body at 1. rewrite loadU_ret by (fold n; lia). cbn [obind].
  destruct (Z.lt_ge_cases (Z.of_nat p) (idx + N)).
  - rewrite gather_index_bad; [reflexivity|]. apply Exists_exists. exists i. split; auto.
    assert (E : nth (Z.to_nat (Z.of_nat p - idx)) (window indices idx N) i = i).
    { rewrite nth_window by lia. replace (Z.to_nat (idx + (Z.of_nat p - idx))) with p by lia. now apply nth_error_nth. }
    rewrite <- E at 1. apply nth_In. pose proof (window_length indices idx N ltac:(lia) ltac:(lia) ltac:(fold n; lia)) as W.
    unfold zlen in W. lia.
  - destruct (gather_index_total data (window indices idx N)) as [->|(v & -> & Lv)]; [reflexivity|]. cbn [obind].
    pose proof (window_length indices idx N ltac:(lia) ltac:(lia) ltac:(fold n; lia)) as W. unfold zlen in W, n.
    pose proof (overwrite_prefix dst idx v [] _ ltac:(lia) ltac:(unfold zlen in *; cbn [length]; lia) eq_refl) as (dst' & E & Ld' & _).
    rewrite app_nil_r in E. unfold storeU. rewrite E. cbn [obind]. unfold zlen in Ld'. apply IH; try lia.
    exists (q + 1). lia.
Qed.

Lemma gather_bits_ok data size (B : byte_buffer data) : 0 <= size <= 8 * zlen data ->
  forall indices i ws, Z.of_nat (i + length indices) <= 64 * zlen ws ->
  exists ws', gather_bits_loop data size i indices ws = Ret ws' /\
    forall j, 0 <= j -> wbit ws' j =
      wbit ws j || ((Z.of_nat i <=? j) && (j <? Z.of_nat (i + length indices)) &&
                    index_or false (bits_of data (Z.to_nat size)) (nth (Z.to_nat j - i) indices (-1))).
Proof.
  intros Hs. assert (BI : forall ix, 0 <= ix < size -> index_or false (bits_of data (Z.to_nat size)) ix = bit_of data ix).
  { intros ix Hix. unfold index_or. rewrite (proj2 (Z.ltb_ge _ _)) by lia. unfold bits_of.
    rewrite (nth_indep _ false (bit_of data (Z.of_nat 0))) by (rewrite map_length, seq_length; lia).
    rewrite map_nth with (f := fun i => bit_of data (Z.of_nat i)). rewrite seq_nth by lia. f_equal. lia. }
  assert (BO : forall ix, ix < 0 \/ size <= ix -> index_or false (bits_of data (Z.to_nat size)) ix = false).
  { intros ix Hix. apply index_or_out. unfold zlen. rewrite bits_of_length. lia. }
  induction indices as [|ix indices IH]; intros i ws Hw; cbn [gather_bits_loop length] in *.
  - exists ws. split; auto. intros j Hj.
    destruct (Z.leb_spec (Z.of_nat i) j), (Z.ltb_spec j (Z.of_nat (i + 0))); try lia; cbn [andb]; now rewrite orb_false_r.
  - assert (Step : forall ws1, zlen ws1 = zlen ws ->
      (forall j, 0 <= j -> wbit ws1 j = wbit ws j || ((j =? Z.of_nat i) && index_or false (bits_of data (Z.to_nat size)) ix)) ->
      exists ws', gather_bits_loop data size (S i) indices ws1 = Ret ws' /\
       forall j, 0 <= j -> wbit ws' j = wbit ws j || ((Z.of_nat i <=? j) && (j <? Z.of_nat (i + S (length indices))) &&
                    index_or false (bits_of data (Z.to_nat size)) (nth (Z.to_nat j - i) (ix :: indices) (-1)))).
    { intros ws1 L1 W1. destruct (IH (S i) ws1 ltac:(lia)) as (ws' & E & F). exists ws'. split; auto. intros j Hj.
      rewrite F, W1 by auto. rewrite <- orb_assoc. f_equal.
      destruct (Z.eqb_spec j (Z.of_nat i)) as [->|NE].
      - rewrite (proj2 (Z.leb_gt (Z.of_nat (S i)) _)), (proj2 (Z.leb_le (Z.of_nat i) _)), (proj2 (Z.ltb_lt (Z.of_nat i) (Z.of_nat (i + S (length indices))))) by lia.
        cbn [andb]. rewrite orb_false_r. rewrite Nat2Z.id, Nat.sub_diag. reflexivity.
      - cbn [andb orb]. destruct (Z.leb_spec (Z.of_nat (S i)) j), (Z.leb_spec (Z.of_nat i) j); try lia; cbn [andb]; auto.
        replace (S i + length indices)%nat with (i + S (length indices))%nat by lia. f_equal. f_equal.
        replace (Z.to_nat j - i)%nat with (S (Z.to_nat j - S i)) by lia. reflexivity. }
    destruct (Z.ltb_spec ix 0); cbn [orb].
    + apply Step; auto. intros j Hj. rewrite BO by lia. now rewrite andb_false_r, orb_false_r.
    + destruct (Z.leb_spec size ix).
      * apply Step; auto. intros j Hj. rewrite BO by lia. now rewrite andb_false_r, orb_false_r.
      * rewrite bit_at_ok by (auto; lia). cbn [obind]. rewrite <- BI in * by lia.
        destruct (index_or false (bits_of data (Z.to_nat size)) ix) eqn:E.
        -- destruct (div64_bounds (Z.of_nat i) (zlen ws) ltac:(lia)) as [D M]. unfold zlen in D.
           rewrite (load_ret _ _ 0) by lia. cbn [obind]. rewrite store_ret by lia. cbn [obind].
           apply Step; [unfold zlen; now rewrite upd_length|]. intros j Hj.
           rewrite (wbit_upd ws (Z.of_nat i) _ true) by (try (intros; rewrite bits64_set_spec by lia; destruct (k =? Z.of_nat i mod 64); reflexivity); auto; unfold zlen in *; lia).
           destruct (Z.eqb_spec j (Z.of_nat i)); cbn [andb]; now rewrite ?orb_true_r, ?orb_false_r.
        -- apply Step; auto. intros j Hj. now rewrite andb_false_r, orb_false_r.
Qed.
Lemma gather_bit_ok data size indices : byte_buffer data -> 0 <= size <= 8 * zlen data ->
  exists out, gather_bit data size indices = Ret out /\
    bits_of out (length indices) = map (index_or false (bits_of data (Z.to_nat size))) indices.
Proof.
  intros B Hs. unfold gather_bit. pose proof (zlen_nonneg indices) as Hn. pose proof (div64_room _ Hn).
  assert (0 <= (zlen indices + 63) / 64) by (apply Z.div_pos; lia).
  destruct (gather_bits_ok data size B Hs indices 0 (repeat 0 (Z.to_nat ((zlen indices + 63) / 64)))) as (ws & -> & W).
  { unfold zlen in *. rewrite repeat_length. cbn [Nat.add]. lia. }
  cbn [obind]. eexists; split; [reflexivity|].
  apply list_ext with (d := false); rewrite bits_of_length, ?map_length; auto. intros k Hk.
  unfold bits_of at 1. rewrite (nth_indep _ false (bit_of (words_bytes ws) (Z.of_nat 0))) by (rewrite map_length, seq_length; lia).
  rewrite map_nth with (f := fun i => bit_of (words_bytes ws) (Z.of_nat i)). rewrite seq_nth by lia. cbn [Nat.add].
  rewrite words_bytes_bit, W by lia. rewrite (proj2 (Z.leb_le _ _)), (proj2 (Z.ltb_lt _ _)) by lia. cbn [andb].
  replace (wbit (repeat 0 _) (Z.of_nat k)) with false.
  2:{ unfold wbit. symmetry. generalize (Z.to_nat (Z.of_nat k / 64)), (Z.to_nat ((zlen indices + 63) / 64)). intros a b.
      replace (nth a (repeat 0 b) 0) with 0; [apply Z.bits_0|]. symmetry. revert a. induction b; intros [|a]; simpl; auto. }
  cbn [orb]. rewrite Nat2Z.id, Nat.sub_0_r.
  rewrite (nth_indep (map _ _) false (index_or false (bits_of data (Z.to_nat size)) (-1))) by (rewrite map_length; lia).
  symmetry. apply map_nth.
Qed.

(** ** find *)
Lemma simd_search_from {R} (P : Z -> Prop) (Q : R -> Prop) (body : Z -> outcome (option R)) count N (HN : 1 <= N)
  (step : forall idx, 0 <= idx -> idx + N <= count -> (N | idx) -> P idx ->
     (exists r, body idx = Ret (Some r) /\ Q r) \/ (body idx = Ret None /\ P (idx + N))) :
  forall fuel idx, 0 <= idx <= count -> (N | idx) -> (Z.to_nat (count - idx) < fuel)%nat -> P idx ->
  (exists r, simd_search fuel idx count N body = Ret (inr r) /\ Q r) \/
  (simd_search fuel idx count N body = Ret (inl (N * (count / N))) /\ P (N * (count / N))).
Proof.
  induction fuel as [|fuel IH]; intros idx Hi D F HP; [lia|]. cbn [simd_search].
  destruct (Z.leb_spec (idx + N) count).
  - destruct (step idx) as [(r & E & HQ)|(E & HP')]; try lia; auto; rewrite E; cbn [obind].
    + left. eauto.
    + apply IH; try lia; auto. apply Z.divide_add_r; auto. apply Z.divide_refl.
  - right. destruct D as [q ->]. assert (count / N = q) as ->.
    { symmetry. apply Z.div_unique with (r := count - q * N); lia. }
    rewrite (Z.mul_comm N q). split; auto.
Qed.

Lemma find_first_true_some m i : find_first_true m = Some i ->
  0 <= i < zlen m /\ nth (Z.to_nat i) m false = true /\ forall j, 0 <= j < i -> nth (Z.to_nat j) m true = false.
Proof.
  revert i. induction m as [|b m IH]; intros i H; [discriminate|]. cbn [find_first_true] in H. unfold zlen in *. cbn [length].
  destruct b.
  - injection H as <-. split; [lia|]. split; [reflexivity|]. intros; lia.
  - destruct (find_first_true m) as [k|]; [|discriminate]. injection H as <-. destruct (IH k eq_refl) as (A & B & C).
    split; [lia|]. replace (Z.to_nat (k + 1)) with (S (Z.to_nat k)) by lia. split; [exact B|].
    intros j Hj. destruct (Z.eq_dec j 0) as [->|NZ]; [reflexivity|].
    replace (Z.to_nat j) with (S (Z.to_nat (j - 1))) by lia. apply C. lia.
Qed.
Lemma find_first_true_none m : find_first_true m = None -> forall b, In b m -> b = false.
Proof.
  induction m as [|[] m IH]; intros H b Hb; [destruct Hb|discriminate|]. cbn [find_first_true] in H.
  destruct (find_first_true m); [discriminate|]. destruct Hb as [<-|Hb]; auto.
Qed.

Definition none_before {A} (p : A -> bool) (l : list A) (n : Z) : Prop :=
  forall j x, Z.of_nat j < n -> nth_error l j = Some x -> p x = false.
Definition is_first {A} (p : A -> bool) (l : list A) (r : Z) : Prop :=
  0 <= r < zlen l /\ (exists x, nth_error l (Z.to_nat r) = Some x /\ p x = true) /\ none_before p l r.

Lemma nth_error_window {A} (l : list A) a b k : 0 <= a -> Z.of_nat k < b ->
  nth_error (window l a b) k = nth_error l (Z.to_nat a + k).
Proof.
  intros Ha Hk. unfold window. generalize (Z.to_nat a). intros n. assert (k < Z.to_nat b)%nat as Hk' by lia.
  revert Hk'. generalize (Z.to_nat b). intros m Hk'. transitivity (nth_error (skipn n l) k).
  - clear Hk Ha. revert m k Hk'. generalize (skipn n l). induction l0; intros [|m] [|k] H; simpl; try lia; auto. apply IHl0. lia.
  - clear. revert n. induction l; intros [|n]; simpl; auto. destruct k; auto.
Qed.

(** The first hit in a mask over the block at [idx] is the first in the whole vector. *)
Lemma block_hit {A} (p : A -> bool) (l : list A) idx r m : 0 <= idx -> 0 < r -> idx + r <= zlen l ->
  none_before p l idx ->
  (forall k, (Z.of_nat k < r) -> nth_error m k = option_map p (nth_error l (Z.to_nat idx + k))) ->
  (forall k b, r <= Z.of_nat k -> nth_error m k = Some b -> b = false) ->
  match find_first_true m with
  | Some pos => is_first p l (idx + pos)
  | None => none_before p l (idx + r)
  end.
Proof.
  intros Hi Hr Hc HP Hm Hm2. destruct (find_first_true m) as [pos|] eqn:E.
  - apply find_first_true_some in E. destruct E as (Hpos & E1 & E2). unfold zlen in Hpos.
    assert (X : nth_error m (Z.to_nat pos) = Some true) by (rewrite (nth_error_nth' m false) by lia; now rewrite E1).
    assert (pos < r). { destruct (Z.lt_ge_cases pos r); auto. specialize (Hm2 (Z.to_nat pos) true ltac:(lia) X). discriminate. }
    rewrite Hm in X by lia. replace (Z.to_nat idx + Z.to_nat pos)%nat with (Z.to_nat (idx + pos)) in X by lia.
    split; [lia|]. split.
    + destruct (nth_error l (Z.to_nat (idx + pos))) as [x|]; [|discriminate]. exists x. split; auto. now injection X.
    + intros j x Hj Ex. destruct (Z.lt_ge_cases (Z.of_nat j) idx); [eapply HP; eauto|].
      pose proof (E2 (Z.of_nat j - idx) ltac:(lia)) as Y.
      assert (Y' : nth_error m (Z.to_nat (Z.of_nat j - idx)) = Some false) by (rewrite (nth_error_nth' m true) by lia; now rewrite Y).
      rewrite Hm in Y' by lia. replace (Z.to_nat idx + Z.to_nat (Z.of_nat j - idx))%nat with j in Y' by lia.
      rewrite Ex in Y'. now injection Y'.
  - intros j x Hj Ex. destruct (Z.lt_ge_cases (Z.of_nat j) idx); [eapply HP; eauto|].
    pose proof (find_first_true_none m E (p x)) as Y. apply Y. apply nth_error_In with (Z.to_nat (Z.of_nat j - idx)).
    rewrite Hm by lia. replace (Z.to_nat idx + Z.to_nat (Z.of_nat j - idx))%nat with j by lia. now rewrite Ex.
Qed.

Lemma nth_error_map' {A B} (f : A -> B) l k : nth_error (map f l) k = option_map f (nth_error l k).
Proof. revert k. induction l; intros [|k]; simpl; auto. Qed.

Lemma hwy_find_ok {A} (zero : A) N p (l : list A) : 1 <= N ->
  exists r, hwy_find zero N p l = Ret r /\ (is_first p l r \/ (r = zlen l /\ none_before p l r)).
Proof.
  intros HN. unfold hwy_find. cbv zeta. pose proof (zlen_nonneg l) as Hn. set (n := zlen l) in *.
  pose proof (blocks_bound n N HN Hn) as (B1 & B2 & B3).
  match goal with |- exists r, obind (simd_search _ _ _ _ ?b) _ = _ /\ _ =>
    destruct (simd_search_from (none_before p l) (is_first p l) b n N HN) with (fuel := fuel_for n) (idx := 0)
      as [(r & -> & Q)|(-> & P)] end.
  - intros idx Hi Hc D HP. rewrite loadU_ret by (fold n; lia). cbn [obind].
    pose proof (block_hit p l idx N (map p (window l idx N)) Hi ltac:(lia) ltac:(fold n; lia) HP) as BH.
    destruct (find_first_true (map p (window l idx N))) as [pos|].
    + left. exists (idx + pos). split; auto. apply BH.
      * intros k Hk. rewrite nth_error_map', nth_error_window by lia. reflexivity.
      * intros k b Hk E. assert (k < length (map p (window l idx N)))%nat by (apply nth_error_Some; congruence).
        rewrite map_length in H. pose proof (window_length l idx N Hi ltac:(lia) ltac:(fold n; lia)) as W. unfold zlen in W. lia.
    + right. split; auto. apply BH.
      * intros k Hk. rewrite nth_error_map', nth_error_window by lia. reflexivity.
      * intros k b Hk E. assert (k < length (map p (window l idx N)))%nat by (apply nth_error_Some; congruence).
        rewrite map_length in H. pose proof (window_length l idx N Hi ltac:(lia) ltac:(fold n; lia)) as W. unfold zlen in W. lia.
  - lia.
  - apply Z.divide_0_r.
  - unfold fuel_for. lia.
  - intros j x Hj. lia.
  - cbn [obind]. exists r. auto.
  - cbn [obind]. set (idx := N * (n / N)) in *. destruct (Z.eqb_spec idx n) as [E|NE]; cbn [negb].
    + exists n. split; auto. right. split; auto. now rewrite <- E.
    + rewrite loadN_ret by (fold n; lia). cbn [obind].
      pose proof (window_length l idx (n - idx) ltac:(lia) ltac:(lia) ltac:(fold n; lia)) as W. unfold zlen in W.
      set (m := first_n (map p (window l idx (n - idx) ++ repeat zero (Z.to_nat (N - (n - idx))))) (n - idx)).
      pose proof (block_hit p l idx (n - idx) m (proj1 B1) ltac:(lia) ltac:(fold n; lia) P) as BH.
      assert (M1 : m = map p (window l idx (n - idx)) ++ repeat false (Z.to_nat (N - (n - idx)))).
      { unfold m, first_n. rewrite map_app, app_length, !map_length, repeat_length. f_equal.
        - rewrite firstn_app, map_length. replace (Z.to_nat (n - idx)) with (length (window l idx (n - idx))) at 1 by lia.
          rewrite firstn_all2 by (rewrite map_length; lia).
          replace (Z.to_nat (n - idx) - length (window l idx (n - idx)))%nat with 0%nat by lia. cbn [firstn]. apply app_nil_r.
        - f_equal. lia. }
      assert (H1 : forall k, Z.of_nat k < n - idx -> nth_error m k = option_map p (nth_error l (Z.to_nat idx + k))).
      { intros k Hk. rewrite M1, nth_error_app1 by (rewrite map_length; lia). rewrite nth_error_map', nth_error_window by lia. reflexivity. }
      assert (H2 : forall k b, n - idx <= Z.of_nat k -> nth_error m k = Some b -> b = false).
      { intros k b Hk E. rewrite M1, nth_error_app2 in E by (rewrite map_length; lia).
        apply nth_error_In, repeat_spec in E. exact E. }
      specialize (BH H1 H2). destruct (find_first_true m) as [pos|].
      * exists (idx + pos). auto.
      * exists n. split; auto. right. split; auto. now replace n with (idx + (n - idx)) by lia.
Qed.

Lemma is_first_index {A} (p : A -> bool) l r : is_first p l r -> first_index p l r.
Proof.
  intros (H & (x & E & Px) & NB). right. exists (Z.to_nat r), x. split; [lia|]. split; auto. split; auto.
  intros j y Hj Ey. apply (NB j y); auto. lia.
Qed.
Lemma none_index {A} (p : A -> bool) l : none_before p l (zlen l) -> first_index p l (-1).
Proof.
  intros NB. left. split; auto. intros x Hx. apply In_nth_error in Hx. destruct Hx as [j Hj].
  apply (NB j x); auto. unfold zlen. apply inj_lt. apply nth_error_Some. congruence.
Qed.

Lemma vector_find_ok N op data v : 1 <= N -> zlen data < 2 ^ 31 ->
  exists r, vector_find N op data v = Ret r /\ first_index (find_cmp op v) data r.
Proof.
  intros HN L. unfold vector_find. destruct (hwy_find_ok 0 N (find_cmp op v) data HN) as (r & -> & [F|(-> & NB)]); cbn [obind].
  - pose proof F as (H & _). rewrite (proj2 (Z.eqb_neq _ _)) by lia. eexists; split; [reflexivity|].
    rewrite wraps_id by (unfold in_s; pows; lia). now apply is_first_index.
  - rewrite Z.eqb_refl. eexists; split; [reflexivity|]. now apply none_index.
Qed.

Lemma find_string_loop_ok op t w jt (Bt : bytes t) (St : short t) (Ew : of_string jt t = Ret w) :
  forall (data : list sv) texts, Forall2 (fun v s => exists j, of_string j s = Ret v) data texts ->
  forall i, Forall bytes texts -> Forall short texts -> Z.of_nat i + zlen data < 2 ^ 31 ->
  exists r, find_string_loop op i data w = Ret r /\
    ((r = -1 /\ forall s, In s texts -> op_holds op (lex s t) = false) \/
     (exists k s, r = Z.of_nat (i + k) /\ nth_error texts k = Some s /\ op_holds op (lex s t) = true /\
        forall j s', (j < k)%nat -> nth_error texts j = Some s' -> op_holds op (lex s' t) = false)).
Proof.
  rewrite of_string_view in Ew by now apply short_short32. injection Ew as <-.
  induction 1 as [|v s data texts (j & E) F IH]; intros i HB HS Hi.
  - exists (-1). split; [reflexivity|]. left. split; auto. intros s [].
  - inversion HB; subst. inversion HS; subst. rewrite of_string_view in E by now apply short_short32. injection E as <-.
    cbn [find_string_loop]. rewrite compare_string_view_spec by auto. cbn [obind]. unfold zlen in Hi. cbn [length] in Hi.
    destruct (op_holds op (lex s t)) eqn:Eo.
    + rewrite wraps_id by (unfold in_s; pows; lia). eexists; split; [reflexivity|]. right. exists 0%nat, s.
      rewrite Nat.add_0_r. split; auto. split; auto. split; auto. intros j0 s' Hj. lia.
    + destruct (IH (S i)) as (r & Er & D); auto. { unfold zlen. lia. }
      exists r. split; [exact Er|]. destruct D as [(-> & N)|(k & s' & -> & K1 & K2 & K3)].
      * left. split; auto. intros s' [<-|Hs']; auto.
      * right. exists (S k), s'. split; [f_equal; lia|]. split; auto. split; auto.
        intros j0 s0 Hj Es. destruct j0 as [|j0]; [injection Es as <-; auto|]. apply (K3 j0); auto. lia.
Qed.
Lemma find_string_ok op data texts w t jt : bytes t -> short t -> of_string jt t = Ret w ->
  Forall2 (fun v s => exists j, of_string j s = Ret v) data texts ->
  Forall bytes texts -> Forall short texts -> zlen data < 2 ^ 31 ->
  exists r, vector_find_string op data w = Ret r /\ first_index (fun s => op_holds op (lex s t)) texts r.
Proof.
  intros Bt St Ew F HB HS L. destruct (find_string_loop_ok op t w jt Bt St Ew data texts F 0 HB HS) as (r & E & D); [lia|].
  exists r. split; [exact E|]. unfold first_index. destruct D as [D|(k & s & -> & D)]; [left; exact D|].
  right. exists k, s. split; [reflexivity|exact D].
Qed.

(** ** Reductions *)
Lemma wf_bits t : wf_itype t -> 8 <= bits t <= 64.
Proof. unfold wf_itype. simpl. lia. Qed.
Lemma wrap_mod t x : 1 <= bits t -> wrap t x mod 2 ^ bits t = x mod 2 ^ bits t.
Proof.
  intros H. pose proof (Z.pow_pos_nonneg 2 (bits t) ltac:(lia) ltac:(lia)). unfold wrap. destruct (signed t).
  - exact (wrapu_wraps (bits t) x H).
  - unfold wrapu. apply Z.mod_mod. lia.
Qed.
Lemma wrap_cong t x y : x mod 2 ^ bits t = y mod 2 ^ bits t -> wrap t x = wrap t y.
Proof. intros H. unfold wrap, wraps, wrapu. now rewrite H. Qed.
Lemma wrap_add_l t x y : 1 <= bits t -> wrap t (wrap t x + y) = wrap t (x + y).
Proof.
  intros H. pose proof (Z.pow_pos_nonneg 2 (bits t) ltac:(lia) ltac:(lia)). apply wrap_cong.
  rewrite Zplus_mod, wrap_mod, <- Zplus_mod by auto. reflexivity.
Qed.
Lemma wrap_add_r t x y : 1 <= bits t -> wrap t (x + wrap t y) = wrap t (x + y).
Proof. intros. rewrite Z.add_comm, wrap_add_l by auto. f_equal. lia. Qed.
Lemma wrap_wrapu64 t x : 1 <= bits t <= 64 -> wrap t (wrapu 64 x) = wrap t x.
Proof. intros. apply wrap_cong. unfold wrapu. apply mod_mod_pow. lia. Qed.
Lemma in_type_bounds t x : 1 <= bits t -> in_type t x <-> lowest t <= x <= highest t.
Proof. intros. unfold in_type, in_s, in_u, lowest, highest. destruct (signed t); lia. Qed.
Lemma wrap_id t x : 1 <= bits t -> lowest t <= x <= highest t -> wrap t x = x.
Proof.
  intros H R. apply in_type_bounds in R; auto. unfold in_type in R. unfold wrap. destruct (signed t).
  - now apply wraps_id. - now apply wrapu_id.
Qed.
Lemma highest_pos t : 1 <= bits t -> lowest t <= 0 <= highest t.
Proof.
  intros. unfold lowest, highest. pose proof (Z.pow_pos_nonneg 2 (bits t) ltac:(lia) ltac:(lia)).
  pose proof (Z.pow_pos_nonneg 2 (bits t - 1) ltac:(lia) ltac:(lia)). destruct (signed t); lia.
Qed.

Definition no_overflow_ub (t : itype) : Prop := signed t = false \/ bits t < 32.
Lemma add_assign_cases t a b : 1 <= bits t ->
  (add_assign t a b = UB /\ ~ (lowest t <= a + b <= highest t) /\ ~ no_overflow_ub t) \/
  add_assign t a b = Ret (wrap t (a + b)).
Proof.
  intros H. unfold add_assign, no_overflow_ub. destruct (signed t) eqn:S; cbn [andb]; [|auto].
  destruct (Z.leb_spec 32 (bits t)); [|auto].
  destruct (Z.leb_spec (lowest t) (a + b)), (Z.leb_spec (a + b) (highest t)); cbn [andb];
    try (left; split; [reflexivity|]; split; [lia|]; intros [?|?]; [discriminate|lia]).
  right. rewrite wrap_id by (auto; lia). reflexivity.
Qed.

(** What the sum loop maintains, when additions may be undefined. *)
Lemma simd_loop_ub {S} (P : Z -> S -> Prop) (body : Z -> S -> outcome S) count N (HN : 1 <= N)
  (step : forall idx s, 0 <= idx -> idx + N <= count -> (N | idx) -> P idx s ->
     body idx s = UB \/ exists s', body idx s = Ret s' /\ P (idx + N) s') :
  forall fuel idx s, 0 <= idx <= count -> (N | idx) -> (Z.to_nat (count - idx) < fuel)%nat -> P idx s ->
  simd_loop fuel idx count N body s = UB \/
  exists s', simd_loop fuel idx count N body s = Ret (N * (count / N), s') /\ P (N * (count / N)) s'.
Proof.
  induction fuel as [|fuel IH]; intros idx s Hi D F HP; [lia|]. cbn [simd_loop].
  destruct (Z.leb_spec (idx + N) count).
  - destruct (step idx s) as [E|(s' & E & HP')]; try lia; auto; rewrite E; cbn [obind]; [auto|].
    apply IH; try lia; auto. apply Z.divide_add_r; auto. apply Z.divide_refl.
  - right. destruct D as [q ->]. assert (count / N = q) as ->.
    { symmetry. apply Z.div_unique with (r := count - q * N); lia. }
    exists s. rewrite (Z.mul_comm N q). split; auto.
Qed.

Lemma sum_rest_cases t l : 1 <= bits t -> forall s,
  (sum_rest t l (wrap t s) = UB /\ ~ no_overflow_ub t) \/ sum_rest t l (wrap t s) = Ret (wrap t (s + sum_list l)).
Proof.
  intros H. induction l as [|x l IH]; intros s; cbn [sum_rest sum_list].
  - right. f_equal. f_equal. lia.
  - destruct (add_assign_cases t (wrap t s) x H) as [(-> & _ & U)| ->]; cbn [obind]; [auto|].
    rewrite wrap_add_l by auto. destruct (IH (s + x)) as [?|E]; [auto|]. right. rewrite E. do 2 f_equal. lia.
Qed.

Lemma vector_sum_cases t N data : wf_itype t -> 1 <= N ->
  (vector_sum t N data = UB /\ ~ no_overflow_ub t) \/ vector_sum t N data = Ret (wrap t (sum_list data)).
Proof.
  intros W HN. pose proof (wf_bits t W) as Hb. unfold vector_sum. cbv zeta. pose proof (zlen_nonneg data) as Hn.
  set (n := zlen data) in *. pose proof (blocks_bound n N HN Hn) as (B1 & B2 & B3).
  pose (P := fun idx s => s = wrap t (sum_list (firstn (Z.to_nat idx) data))).
  assert (P0 : P 0 0). { unfold P. cbn. symmetry. apply wrap_id; [lia|]. apply highest_pos. lia. }
  destruct (Z_le_dec 32 (bits t)) as [H32|H32]; [destruct (signed t) eqn:Sg|].
  1:{ match goal with |- (obind (simd_loop _ _ _ _ ?b _) _ = UB /\ _) \/ _ =>
      destruct (simd_loop_ub P b n N HN) with (fuel := fuel_for n) (idx := 0) (s := 0) as [->|(s & -> & Ps)] end;
      try lia; auto.
      - intros idx s Hi Hc D ->. rewrite loadU_ret by (fold n; lia). cbn [obind].
        destruct (add_assign_cases t (wrap t (sum_list (firstn (Z.to_nat idx) data))) (reduce_sum t (window data idx N)) ltac:(lia))
          as [(-> & _)| ->]; auto. right. eexists; split; [reflexivity|]. unfold P, reduce_sum.
        rewrite wrap_add_l, wrap_add_r, firstn_window, sum_list_app by lia. reflexivity.
      - apply Z.divide_0_r.
      - unfold fuel_for. lia.
      - left. split; auto. intros [?|?]; [congruence|lia].
      - cbn [obind]. rewrite Ps. destruct (sum_rest_cases t (skipn (Z.to_nat (N * (n / N))) data) ltac:(lia) (sum_list (firstn (Z.to_nat (N * (n / N))) data)))
          as [?|E]; [auto|]. right. rewrite E. rewrite <- sum_list_app, firstn_skipn. reflexivity. }
  all: assert (NU : no_overflow_ub t) by (unfold no_overflow_ub; auto; right; lia).
  all: match goal with |- (obind (simd_loop _ _ _ _ ?b _) _ = UB /\ _) \/ _ =>
      destruct (simd_loop_inv P b n N 0) as (s & -> & Ps) end; auto.
  1,3: intros idx s Hi Hc D ->; rewrite loadU_ret by (fold n; lia); cbn [obind];
       destruct (add_assign_cases t (wrap t (sum_list (firstn (Z.to_nat idx) data))) (reduce_sum t (window data idx N)) ltac:(lia))
          as [(_ & _ & X)| ->]; [contradiction|]; eexists; split; [reflexivity|]; unfold P, reduce_sum;
        rewrite wrap_add_l, wrap_add_r, firstn_window, sum_list_app by lia; reflexivity.
  all: cbn [obind]; rewrite Ps; destruct (sum_rest_cases t (skipn (Z.to_nat (N * (n / N))) data) ltac:(lia) (sum_list (firstn (Z.to_nat (N * (n / N))) data)))
          as [?|E]; [auto|]; right; rewrite E; rewrite <- sum_list_app, firstn_skipn; reflexivity.
Qed.
Lemma vector_sum_wraps t N data : wf_itype t -> 1 <= N -> (signed t = false \/ bits t < 32) ->
  vector_sum t N data = Ret (wrap t (sum_list data)).
Proof. intros W HN NU. destruct (vector_sum_cases t N data W HN) as [(_ & X)|E]; auto. contradiction. Qed.
Lemma vector_sum_ub_or t N data : wf_itype t -> 1 <= N ->
  vector_sum t N data = UB \/ vector_sum t N data = Ret (wrap t (sum_list data)).
Proof. intros W HN. destruct (vector_sum_cases t N data W HN) as [(? & _)|?]; auto. Qed.

Definition abs_sum (l : list Z) : Z := sum_list (map Z.abs l).
Lemma abs_sum_app a b : abs_sum (a ++ b) = abs_sum a + abs_sum b.
Proof. unfold abs_sum. now rewrite map_app, sum_list_app. Qed.
Lemma abs_sum_bound l : - abs_sum l <= sum_list l <= abs_sum l.
Proof. unfold abs_sum. induction l; cbn [map sum_list]; lia. Qed.
Lemma abs_sum_nonneg l : 0 <= abs_sum l. Proof. pose proof (abs_sum_bound l). lia. Qed.

Lemma unsigned_nonneg (l : list Z) t : signed t = false -> Forall (in_type t) l -> sum_list l = abs_sum l.
Proof.
  intros S H. unfold abs_sum. induction H as [|x l Hx H IH]; [reflexivity|]. cbn [map sum_list].
  unfold in_type in Hx. rewrite S in Hx. destruct Hx. lia.
Qed.

Lemma vector_sum_exact t N data : wf_itype t -> 1 <= N -> Forall (in_type t) data -> abs_sum data <= highest t ->
  vector_sum t N data = Ret (sum_list data).
Proof.
  intros W HN HT HA. pose proof (wf_bits t W) as Hb. pose proof (zlen_nonneg data) as Hn.
  assert (InR : lowest t <= sum_list data <= highest t).
  { pose proof (abs_sum_bound data). unfold lowest, highest in *. destruct (signed t) eqn:S; [lia|].
    rewrite (unsigned_nonneg data t S HT) in *. pose proof (abs_sum_nonneg data). lia. }
  destruct (signed t) eqn:S.
  2:{ rewrite vector_sum_wraps by auto. f_equal. apply wrap_id; lia. }
  assert (HL : lowest t = - highest t - 1) by (unfold lowest, highest; rewrite S; lia).
  assert (Ok : forall a b, Z.abs a + Z.abs b <= highest t -> add_assign t a b = Ret (a + b)).
  { intros a b Hab. destruct (add_assign_cases t a b ltac:(lia)) as [(_ & X & _)| ->]; [exfalso; apply X; lia|].
    f_equal. apply wrap_id; lia. }
  unfold vector_sum. cbv zeta. set (n := zlen data) in *. pose proof (blocks_bound n N HN Hn) as (B1 & B2 & B3).
  assert (Pre : forall k, abs_sum (firstn k data) <= highest t).
  { intros k. rewrite <- (firstn_skipn k data) in HA. rewrite abs_sum_app in HA. pose proof (abs_sum_nonneg (skipn k data)). lia. }
  match goal with |- obind (simd_loop _ _ _ _ ?b _) _ = _ =>
    destruct (simd_loop_inv (fun idx s => s = sum_list (firstn (Z.to_nat idx) data)) b n N 0) as (s & -> & ->) end; auto.
  - intros idx s Hi Hc D ->. rewrite loadU_ret by (fold n; lia). cbn [obind].
    pose proof (Pre (Z.to_nat (idx + N))) as Pr. rewrite firstn_window, abs_sum_app in Pr by lia.
    pose proof (abs_sum_bound (firstn (Z.to_nat idx) data)). pose proof (abs_sum_bound (window data idx N)).
    unfold reduce_sum. rewrite wrap_id by (try lia).
    rewrite Ok by lia. eexists; split; [reflexivity|]. rewrite firstn_window, sum_list_app by lia. reflexivity.
  - cbn [obind]. set (i := Z.to_nat (N * (n / N))) in *.
    assert (X : forall l pre, Z.abs (sum_list pre) <= abs_sum pre -> abs_sum pre + abs_sum l <= highest t ->
       sum_rest t l (sum_list pre) = Ret (sum_list pre + sum_list l)).
    { induction l as [|x l IH]; intros pre H1 H2; cbn [sum_rest sum_list].
      - f_equal; lia.
      - unfold abs_sum in H2 at 2. cbn [map sum_list] in H2. fold (abs_sum l) in H2. pose proof (abs_sum_nonneg l).
        rewrite Ok by lia. cbn [obind]. specialize (IH (pre ++ [x])). rewrite sum_list_app, abs_sum_app in IH.
        unfold abs_sum in IH at 2 4. cbn [map sum_list] in IH. rewrite !Z.add_0_r in IH. rewrite IH by lia. f_equal. lia. }
    rewrite X.
    + rewrite <- sum_list_app, firstn_skipn. reflexivity.
    + pose proof (abs_sum_bound (firstn i data)). lia.
    + rewrite <- abs_sum_app, firstn_skipn. exact HA.
Qed.

Lemma sum_zeros_list n : sum_list (repeat 0 n) = 0.
Proof. induction n; cbn [repeat sum_list]; lia. Qed.
(** A running sum that leaves the range of a 32- or 64-bit signed type is undefined. *)
Lemma vector_sum_overflow b N : b = 32 \/ b = 64 -> 1 <= N ->
  vector_sum (mk_itype b true) N ((highest (mk_itype b true) :: repeat 0 (Z.to_nat (N - 1))) ++ [1]) = UB.
Proof.
  intros Hb HN. set (t := mk_itype b true). set (blk := highest t :: repeat 0 (Z.to_nat (N - 1))).
  assert (Lb : length blk = Z.to_nat N) by (unfold blk; cbn [length]; rewrite repeat_length; lia).
  assert (L : zlen (blk ++ [1]) = N + 1) by (unfold zlen; rewrite app_length; cbn [length]; lia).
  assert (Sb : sum_list blk = highest t) by (unfold blk; cbn [sum_list]; rewrite sum_zeros_list; lia).
  assert (Hh : lowest t = - highest t - 1 /\ 1 <= highest t) by (destruct Hb; subst b; unfold lowest, highest, t; cbn [signed bits]; pows; lia).
  assert (A1 : add_assign t (0) (highest t) = Ret (highest t)).
  { unfold add_assign. replace (signed t && (32 <=? bits t)) with true by (destruct Hb; subst b; reflexivity).
    rewrite !(proj2 (Z.leb_le _ _)) by lia. cbn [andb]. f_equal. }
  assert (A2 : add_assign t (highest t) 1 = UB).
  { unfold add_assign. replace (signed t && (32 <=? bits t)) with true by (destruct Hb; subst b; reflexivity).
    rewrite (proj2 (Z.leb_gt (highest t + 1) _)), andb_false_r by lia. reflexivity. }
  unfold vector_sum. cbv zeta. rewrite L. unfold fuel_for. replace (Z.to_nat (N + 1)) with (S (Z.to_nat N)) by lia.
  cbn [simd_loop]. rewrite (proj2 (Z.leb_le (0 + N) _)) by lia. rewrite loadU_ret by lia. cbn [obind].
  replace (window (blk ++ [1]) 0 N) with blk.
  2:{ unfold window. cbn [Z.to_nat skipn]. change (Z.to_nat 0) with 0%nat. cbn [skipn].
      rewrite firstn_app, Lb, Nat.sub_diag, app_nil_r, <- Lb. symmetry. apply firstn_all. }
  unfold reduce_sum. rewrite Sb, wrap_id by (try lia; destruct Hb; subst b; cbn; lia).
  rewrite A1. cbn [obind]. destruct (Z.to_nat N) as [|m] eqn:EN; [lia|]. cbn [simd_loop].
  destruct (Z.leb_spec (0 + N + N) (N + 1)).
  - assert (N = 1) by lia. subst N. cbn [Z.to_nat] in EN.
    rewrite loadU_ret by lia. cbn [obind].
    replace (window (blk ++ [1]) (0 + 1) 1) with [1] by (unfold blk; reflexivity).
    cbn [sum_list]. change (1 + 0) with 1. rewrite wrap_id by (try lia; destruct Hb; subst b; cbn; lia). rewrite A2. reflexivity.
  - cbn [obind]. replace (skipn (Z.to_nat (0 + N)) (blk ++ [1])) with [1].
    2:{ rewrite skipn_app. rewrite skipn_all2 by lia. replace (Z.to_nat (0 + N) - length blk)%nat with 0%nat by lia. reflexivity. }
    cbn [sum_rest]. rewrite A2. reflexivity.
Qed.

Lemma vector_avg_ok t N data : wf_itype t -> 1 <= N -> data <> [] -> Forall (in_type t) data ->
  abs_sum data <= highest t -> zlen data <= highest t ->
  vector_avg t N data = Ret (Z.quot (sum_list data) (zlen data)).
Proof.
  intros W HN NE HT HA HZ. pose proof (wf_bits t W) as Hb. pose proof (highest_pos t ltac:(lia)).
  assert (0 < zlen data) by (unfold zlen; destruct data; [congruence|cbn [length]; lia]).
  unfold vector_avg. rewrite (proj2 (Z.eqb_neq _ _)) by lia. rewrite vector_sum_exact by auto. cbn [obind].
  rewrite (wrap_id t (zlen data)) by lia. rewrite (proj2 (Z.eqb_neq (zlen data) 0)), (proj2 (Z.eqb_neq (zlen data) (-1))), andb_false_r by lia.
  f_equal. apply wrap_id; [lia|].
  pose proof (abs_sum_bound data) as AB.
  assert (Q : Z.abs (Z.quot (sum_list data) (zlen data)) <= abs_sum data).
  { rewrite <- Z.quot_abs by lia. rewrite Z.quot_div_nonneg by lia. apply Z.le_trans with (Z.abs (sum_list data)); [|lia].
    apply Z.div_le_upper_bound; nia. }
  destruct (signed t) eqn:S.
  - unfold lowest, highest in *. rewrite S in *. lia.
  - assert (0 <= Z.quot (sum_list data) (zlen data)).
    { apply Z.quot_pos; [|lia]. rewrite (unsigned_nonneg data t S HT). apply abs_sum_nonneg. }
    unfold lowest, highest in *. rewrite S in *. lia.
Qed.

(** ** max and min *)
Lemma fold_max_bound d v : (forall x, In x v -> x <= fold_right Z.max d v) /\ (fold_right Z.max d v = d \/ In (fold_right Z.max d v) v).
Proof.
  induction v as [|y v (IH1 & IH2)]; cbn [fold_right]; [split; [intros ? []|auto]|]. split.
  - intros x [<-|Hx]; [lia|]. specialize (IH1 x Hx). lia.
  - destruct (Z.max_spec y (fold_right Z.max d v)) as [(_ & ->)|(_ & ->)]; [|right; now left].
    destruct IH2 as [->|?]; [now left|right; now right].
Qed.
Lemma fold_min_bound d v : (forall x, In x v -> fold_right Z.min d v <= x) /\ (fold_right Z.min d v = d \/ In (fold_right Z.min d v) v).
Proof.
  induction v as [|y v (IH1 & IH2)]; cbn [fold_right]; [split; [intros ? []|auto]|]. split.
  - intros x [<-|Hx]; [lia|]. specialize (IH1 x Hx). lia.
  - destruct (Z.min_spec y (fold_right Z.min d v)) as [(_ & ->)|(_ & ->)]; [right; now left|].
    destruct IH2 as [->|?]; [now left|right; now right].
Qed.
Definition max_of (d : Z) (l : list Z) (m : Z) : Prop := (forall x, In x l -> x <= m) /\ (m = d \/ In m l) /\ d <= m.
Definition min_of (d : Z) (l : list Z) (m : Z) : Prop := (forall x, In x l -> m <= x) /\ (m = d \/ In m l) /\ m <= d.
Lemma max_of_snoc d l m x : max_of d l m -> max_of d (l ++ [x]) (take_max m x).
Proof.
  intros (A & B & C). unfold take_max. split; [|split].
  - intros y Hy. apply in_app_or in Hy. destruct Hy as [Hy|[<-|[]]]; [specialize (A y Hy)|]; destruct (Z.ltb_spec m x); lia.
  - destruct (Z.ltb_spec m x); [right; apply in_or_app; right; now left|]. destruct B; [now left|right; apply in_or_app; now left].
  - destruct (Z.ltb_spec m x); lia.
Qed.
Lemma min_of_snoc d l m x : min_of d l m -> min_of d (l ++ [x]) (take_min m x).
Proof.
  intros (A & B & C). unfold take_min. split; [|split].
  - intros y Hy. apply in_app_or in Hy. destruct Hy as [Hy|[<-|[]]]; [specialize (A y Hy)|]; destruct (Z.ltb_spec x m); lia.
  - destruct (Z.ltb_spec x m); [right; apply in_or_app; right; now left|]. destruct B; [now left|right; apply in_or_app; now left].
  - destruct (Z.ltb_spec x m); lia.
Qed.
Lemma max_of_block d l m v : v <> [] -> max_of d l m -> max_of d (l ++ v) (take_max m (reduce_max v)).
Proof.
  intros NE (A & B & C). unfold reduce_max. destruct (fold_max_bound (hd 0 v) v) as (F1 & F2).
  set (x := fold_right Z.max (hd 0 v) v) in *.
  assert (Inx : In x v). { destruct F2 as [F2|F2]; auto. rewrite F2. destruct v; [congruence|now left]. }
  unfold take_max. split; [|split].
  - intros y Hy. apply in_app_or in Hy. destruct Hy as [Hy|Hy]; [specialize (A y Hy)|specialize (F1 y Hy)]; destruct (Z.ltb_spec m x); lia.
  - destruct (Z.ltb_spec m x); [right; apply in_or_app; now right|]. destruct B; [now left|right; apply in_or_app; now left].
  - destruct (Z.ltb_spec m x); lia.
Qed.
Lemma min_of_block d l m v : v <> [] -> min_of d l m -> min_of d (l ++ v) (take_min m (reduce_min v)).
Proof.
  intros NE (A & B & C). unfold reduce_min. destruct (fold_min_bound (hd 0 v) v) as (F1 & F2).
  set (x := fold_right Z.min (hd 0 v) v) in *.
  assert (Inx : In x v). { destruct F2 as [F2|F2]; auto. rewrite F2. destruct v; [congruence|now left]. }
  unfold take_min. split; [|split].
  - intros y Hy. apply in_app_or in Hy. destruct Hy as [Hy|Hy]; [specialize (A y Hy)|specialize (F1 y Hy)]; destruct (Z.ltb_spec x m); lia.
  - destruct (Z.ltb_spec x m); [right; apply in_or_app; now right|]. destruct B; [now left|right; apply in_or_app; now left].
  - destruct (Z.ltb_spec x m); lia.
Qed.
Lemma max_of_rest d rest : forall l m, max_of d l m -> max_of d (l ++ rest) (fold_left take_max rest m).
Proof.
  induction rest as [|x rest IH]; intros l m H; cbn [fold_left]; [now rewrite app_nil_r|].
  change (x :: rest) with ([x] ++ rest). rewrite app_assoc. apply IH. now apply max_of_snoc.
Qed.
Lemma min_of_rest d rest : forall l m, min_of d l m -> min_of d (l ++ rest) (fold_left take_min rest m).
Proof.
  induction rest as [|x rest IH]; intros l m H; cbn [fold_left]; [now rewrite app_nil_r|].
  change (x :: rest) with ([x] ++ rest). rewrite app_assoc. apply IH. now apply min_of_snoc.
Qed.
Lemma window_ne {A} (l : list A) i N : 0 <= i -> 1 <= N -> i + N <= zlen l -> window l i N <> [].
Proof. intros Hi HN Hc E. pose proof (window_length l i N Hi ltac:(lia) Hc) as W. rewrite E in W. unfold zlen in W. cbn in W. lia. Qed.

Lemma vector_max_of t N data : 1 <= N -> exists m, vector_max t N data = Ret m /\ max_of (lowest t) data m.
Proof.
  intros HN. unfold vector_max. cbv zeta. pose proof (zlen_nonneg data) as Hn. set (n := zlen data) in *.
  match goal with |- exists m, obind (simd_loop _ _ _ _ ?b _) _ = _ /\ _ =>
    destruct (simd_loop_inv (fun idx s => max_of (lowest t) (firstn (Z.to_nat idx) data) s) b n N (lowest t)) as (s & -> & G) end; auto.
  - intros idx s Hi Hc D P. rewrite loadU_ret by (fold n; lia). cbn [obind]. eexists; split; [reflexivity|].
    rewrite firstn_window by lia. apply max_of_block; auto. apply window_ne; auto; fold n; lia.
  - split; [intros x []|]. split; [now left|lia].
  - cbn [obind]. eexists; split; [reflexivity|]. rewrite <- (firstn_skipn (Z.to_nat (N * (n / N))) data) at 1. now apply max_of_rest.
Qed.
Lemma vector_min_of t N data : 1 <= N -> exists m, vector_min t N data = Ret m /\ min_of (highest t) data m.
Proof.
  intros HN. unfold vector_min. cbv zeta. pose proof (zlen_nonneg data) as Hn. set (n := zlen data) in *.
  match goal with |- exists m, obind (simd_loop _ _ _ _ ?b _) _ = _ /\ _ =>
    destruct (simd_loop_inv (fun idx s => min_of (highest t) (firstn (Z.to_nat idx) data) s) b n N (highest t)) as (s & -> & G) end; auto.
  - intros idx s Hi Hc D P. rewrite loadU_ret by (fold n; lia). cbn [obind]. eexists; split; [reflexivity|].
    rewrite firstn_window by lia. apply min_of_block; auto. apply window_ne; auto; fold n; lia.
  - split; [intros x []|]. split; [now left|lia].
  - cbn [obind]. eexists; split; [reflexivity|]. rewrite <- (firstn_skipn (Z.to_nat (N * (n / N))) data) at 1. now apply min_of_rest.
Qed.
Lemma vector_max_ok t N data : wf_itype t -> 1 <= N -> data <> [] -> Forall (in_type t) data ->
  exists m, vector_max t N data = Ret m /\ In m data /\ forall x, In x data -> x <= m.
Proof.
  intros W HN NE HT. pose proof (wf_bits t W). destruct (vector_max_of t N data HN) as (m & E & A & B & C). exists m.
  split; auto. split; auto. destruct B as [->|B]; auto. destruct data as [|x data]; [congruence|]. left.
  specialize (A x (or_introl eq_refl)). inversion HT; subst. apply in_type_bounds in H2; lia.
Qed.
Lemma vector_min_ok t N data : wf_itype t -> 1 <= N -> data <> [] -> Forall (in_type t) data ->
  exists m, vector_min t N data = Ret m /\ In m data /\ forall x, In x data -> m <= x.
Proof.
  intros W HN NE HT. pose proof (wf_bits t W). destruct (vector_min_of t N data HN) as (m & E & A & B & C). exists m.
  split; auto. split; auto. destruct B as [->|B]; auto. destruct data as [|x data]; [congruence|]. left.
  specialize (A x (or_introl eq_refl)). inversion HT; subst. apply in_type_bounds in H2; lia.
Qed.

(** ** iota *)
Definition iota_list (t : itype) (start : Z) (n : nat) : list Z := map (fun k => wrap t (start + Z.of_nat k)) (seq 0 n).
Lemma iota_list_app t start a b : iota_list t start (a + b) = iota_list t start a ++ iota_list t (start + Z.of_nat a) b.
Proof.
  unfold iota_list. rewrite seq_app, map_app. f_equal. cbn [Nat.add].
  revert start a. induction b as [|b IH]; intros; [reflexivity|]. cbn [seq map]. f_equal; [f_equal; lia|].
  rewrite IH. rewrite <- seq_shift, map_map. apply map_ext. intros k. f_equal. lia.
Qed.
Lemma iota_vec_list t N x : 1 <= bits t <= 64 -> 0 <= N -> iota_vec t N (wrapu 64 x) = iota_list t x (Z.to_nat N).
Proof.
  intros Hb HN. unfold iota_vec, iota_list. apply map_seq_ext. intros k Hk. rewrite wrap_wrapu64 by auto. apply wrap_add_l. lia.
Qed.
Lemma iota_list_length t x n : length (iota_list t x n) = n.
Proof. unfold iota_list. now rewrite map_length, seq_length. Qed.
Lemma iota_list_firstn t x n m : (n <= m)%nat -> firstn n (iota_list t x m) = iota_list t x n.
Proof.
  intros H. replace m with (n + (m - n))%nat by lia. rewrite iota_list_app, firstn_app, iota_list_length, Nat.sub_diag, app_nil_r.
  apply firstn_all2. rewrite iota_list_length. lia.
Qed.
Lemma vector_iota_ok t N start n fresh : wf_itype t -> 1 <= N -> 0 <= n -> zlen fresh = n ->
  vector_iota t N start n fresh = Ret (iota_list t start (Z.to_nat n)).
Proof.
  intros W HN Hn L. pose proof (wf_bits t W) as Hb. unfold vector_iota. cbv zeta.
  pose proof (blocks_bound n N HN Hn) as (B1 & B2 & B3). rewrite (Z.mul_comm (n / N) N). set (full := N * (n / N)) in *.
  assert (Ef : N * (full / N) = full) by (unfold full; rewrite (Z.mul_comm N (n / N)), Z.div_mul by lia; lia).
  pose (P := fun i (out : list Z) => zlen out = n /\ firstn (Z.to_nat i) out = iota_list t start (Z.to_nat i)).
  match goal with |- obind (simd_loop _ _ _ _ ?b _) _ = _ =>
    destruct (simd_loop_from P b full N HN) with (fuel := fuel_for n) (idx := 0) (s := fresh) as (out & E & G) end.
  - intros i out Hi Hc D (Lo & F). rewrite iota_vec_list by lia.
    destruct (overwrite_prefix out i (iota_list t (start + i) (Z.to_nat N)) [] (iota_list t start (Z.to_nat i)) Hi) as (out' & E & Lo' & F').
    { unfold zlen at 1 2. rewrite iota_list_length. cbn [length]. lia. } { exact F. }
    rewrite app_nil_r in E. exists out'. split; [exact E|]. split; [lia|]. unfold zlen in F' at 1. rewrite iota_list_length in F'.
    rewrite Z2Nat.id in F' by lia. rewrite F'. rewrite Z2Nat.inj_add, iota_list_app by lia. rewrite Z2Nat.id by lia. reflexivity.
  - lia.
  - apply Z.divide_0_r.
  - unfold fuel_for. lia.
  - split; auto.
  - rewrite E, Ef in *. cbn [obind]. destruct G as (Lo & F). destruct (Z.ltb_spec full n).
    + rewrite iota_vec_list by lia. unfold storeN. rewrite iota_list_firstn by lia.
      destruct (overwrite_prefix out full (iota_list t (start + full) (Z.to_nat (n - full))) [] (iota_list t start (Z.to_nat full)) (proj1 B1)) as (out' & E' & Lo' & F').
      { unfold zlen at 1 2. rewrite iota_list_length. cbn [length]. lia. } { exact F. }
      rewrite app_nil_r in E'. rewrite E'. f_equal. unfold zlen in F' at 1. rewrite iota_list_length in F'.
      rewrite Z2Nat.id in F' by lia. replace (full + (n - full)) with n in F' by lia.
      rewrite firstn_all2 in F' by (unfold zlen in *; lia). rewrite F'.
      replace (Z.to_nat n) with (Z.to_nat full + Z.to_nat (n - full))%nat by lia. rewrite iota_list_app.
      rewrite Z2Nat.id by lia. reflexivity.
    + f_equal. assert (full = n) by lia. rewrite H0 in F. rewrite firstn_all2 in F by (unfold zlen in *; lia). exact F.
Qed.

(** ** match *)
Lemma mask_word_bit m : forall k, 0 <= k -> Z.testbit (mask_word m) k = nth (Z.to_nat k) m false.
Proof.
  induction m as [|b m IH]; intros k Hk.
  - cbn [mask_word fold_right]. rewrite Z.bits_0. now destruct (Z.to_nat k).
  - unfold mask_word. cbn [fold_right]. fold (mask_word m).
    replace ((if b then 1 else 0) + 2 * mask_word m) with (2 * mask_word m + Z.b2z b) by (destruct b; cbn; lia).
    destruct (Z.eq_dec k 0) as [->|NZ].
    + rewrite Z.testbit_0_r. reflexivity.
    + replace k with (Z.succ (k - 1)) at 1 by lia. rewrite Z.testbit_succ_r by lia. rewrite IH by lia.
      replace (Z.to_nat k) with (S (Z.to_nat (k - 1))) by lia. reflexivity.
Qed.
Lemma mask_word_nonneg m : 0 <= mask_word m.
Proof. induction m as [|[] m IH]; unfold mask_word in *; cbn [fold_right] in *; lia. Qed.
Lemma word_bytes_nth_gen w n j : 0 <= j < n -> nth (Z.to_nat j) (word_bytes w n) 0 = Z.shiftr w (8 * j) mod 256.
Proof.
  intros H. unfold word_bytes. pose (f := fun k => Z.shiftr w (8 * Z.of_nat k) mod 256). fold f.
  rewrite (nth_indep _ 0 (f 0%nat)) by (rewrite map_length, seq_length; lia). rewrite map_nth, seq_nth by lia. unfold f. do 2 f_equal. lia.
Qed.

Lemma nth_byte_buffer mem : (forall k, 0 <= nth k mem 0 < 256) -> byte_buffer mem.
Proof.
  intros H. apply Forall_forall. intros x Hx. apply In_nth with (d := 0) in Hx. destruct Hx as (k & _ & <-). apply H.
Qed.

Lemma store_mask_bits_ok N m bytes idx : In N lane_counts -> length m = Z.to_nat N -> byte_buffer bytes ->
  length bytes = 16%nat -> 0 <= idx -> (N | idx) -> idx + N <= 64 ->
  (forall j, idx <= j -> bit_of bytes j = false) ->
  exists bytes', store_mask_bits N m bytes idx = Ret bytes' /\ byte_buffer bytes' /\ length bytes' = 16%nat /\
    forall j, 0 <= j -> bit_of bytes' j = if (idx <=? j) && (j <? idx + N) then nth (Z.to_nat (j - idx)) m false else bit_of bytes j.
Proof.
  intros HN Lm B Lb Hi D Hc Zr. unfold store_mask_bits. cbv zeta. pose proof (Z.div_mod idx 8 ltac:(lia)) as HD.
  pose proof (Z.mod_pos_bound idx 8 ltac:(lia)) as HM. set (off := idx / 8) in *. set (c := idx mod 8) in *.
  assert (1 <= N) by (unfold lane_counts in HN; simpl in HN; lia).
  destruct (Z.ltb_spec N 8) as [H8|H8].
  - assert (D8 : (N | 8)). { unfold lane_counts in HN; simpl in HN. destruct HN as [<-|[<-|[<-|[<-|[<-|[<-|[<-|[]]]]]]]]; try lia; [now exists 8|now exists 4|now exists 2]. }
    assert (CN : c + N <= 8).
    { assert (DN : (N | c)). { replace c with (idx - 8 * off) by lia. apply Z.divide_sub_r; auto. now apply Z.divide_mul_l. }
      destruct DN as [q Hq], D8 as [r Hr]. assert (q < r) by nia. nia. }
    rewrite (load_ret _ _ 0) by lia. cbn [obind]. rewrite store_ret by lia. cbn [obind].
    rewrite (load_ret _ _ 0) by (rewrite upd_length; lia). cbn [obind]. rewrite store_ret by (rewrite upd_length; lia).
    set (b0 := nth (Z.to_nat off) bytes 0). pose proof (nth_byte bytes (Z.to_nat off) B : 0 <= b0 < 256) as Hb0.
    set (w := wrapu 8 (mask_word m)).
    assert (Wb : forall k, 0 <= k -> Z.testbit w k = if k <? N then nth (Z.to_nat k) m false else false).
    { intros k Hk. unfold w, wrapu. destruct (Z.ltb_spec k N).
      - rewrite Z.mod_pow2_bits_low by lia. now apply mask_word_bit.
      - destruct (Z.lt_ge_cases k 8); [|now apply Z.mod_pow2_bits_high; lia].
        rewrite Z.mod_pow2_bits_low, mask_word_bit by lia. apply nth_overflow. lia. }
    set (v := wrapu 16 (Z.lor b0 (Z.shiftl w c))).
    assert (Vb : forall k, 0 <= k < 16 -> Z.testbit v k = Z.testbit b0 k || ((c <=? k) && (k <? c + N) && nth (Z.to_nat (k - c)) m false)).
    { intros k Hk. unfold v, wrapu. rewrite Z.mod_pow2_bits_low, Z.lor_spec, Z.shiftl_spec by lia. f_equal.
      destruct (Z.leb_spec c k); cbn [andb]; [|apply Z.testbit_neg_r; lia]. rewrite Wb by lia.
      destruct (Z.ltb_spec (k - c) N), (Z.ltb_spec k (c + N)); try lia; reflexivity. }
    assert (Hi8 : wrapu 8 (Z.shiftr v 8) = 0).
    { apply byte_ext; [change 256 with (2 ^ 8); apply wrapu_range; lia|lia|]. intros k Hk. unfold wrapu.
      rewrite Z.mod_pow2_bits_low, Z.shiftr_spec, Z.bits_0 by lia. rewrite Vb by lia. rewrite byte_high by lia.
      rewrite (proj2 (Z.ltb_ge _ _)) by lia. rewrite andb_false_r. reflexivity. }
    rewrite Hi8. rewrite Z.lor_0_r.
    set (bytes1 := upd bytes (Z.to_nat off) (wrapu 8 v)).
    assert (Nx : wrapu 8 (nth (Z.to_nat (off + 1)) bytes1 0) = nth (Z.to_nat (off + 1)) bytes1 0).
    { apply wrapu_id. unfold in_u. change (2 ^ 8) with 256. apply nth_byte. apply upd_bytes; auto. change 256 with (2 ^ 8). apply wrapu_range. lia. }
    rewrite Nx. rewrite upd_same by (unfold bytes1; rewrite upd_length; lia).
    exists bytes1. split; [reflexivity|]. split; [apply upd_bytes; auto; change 256 with (2 ^ 8); apply wrapu_range; lia|].
    split; [unfold bytes1; now rewrite upd_length|]. intros j Hj. unfold bytes1. rewrite bit_of_upd by lia.
    pose proof (Z.div_mod j 8 ltac:(lia)). pose proof (Z.mod_pos_bound j 8 ltac:(lia)).
    destruct (Z.eqb_spec (j / 8) off) as [Eo|Eo].
    + unfold wrapu at 1. rewrite Z.mod_pow2_bits_low by lia. rewrite Vb by lia.
      assert (Bj : bit_of bytes j = Z.testbit b0 (j mod 8)) by (unfold bit_of; rewrite Eo; reflexivity).
      destruct (Z.leb_spec idx j), (Z.ltb_spec j (idx + N)), (Z.leb_spec c (j mod 8)), (Z.ltb_spec (j mod 8) (c + N)); try lia; cbn [andb];
        rewrite <- Bj; rewrite ?orb_false_r; auto.
      rewrite (Zr j) by lia. cbn [orb]. do 2 f_equal. lia.
    + destruct (Z.leb_spec idx j), (Z.ltb_spec j (idx + N)); cbn [andb]; auto. exfalso. lia.
  - assert (D8 : (8 | N)). { unfold lane_counts in HN; simpl in HN. destruct HN as [<-|[<-|[<-|[<-|[<-|[<-|[<-|[]]]]]]]]; try lia; [now exists 1|now exists 2|now exists 4|now exists 8]. }
    destruct D8 as [M HM8]. assert (c = 0). { destruct D as [q Hq]. unfold c. rewrite Hq, HM8, Z.mul_assoc. apply Z.mod_mul. lia. }
    assert (EN : (N + 7) / 8 = M) by (symmetry; apply Z.div_unique with (r := 7); lia). rewrite EN.
    assert (Lw : zlen (word_bytes (mask_word m) M) = M) by (unfold zlen, word_bytes; rewrite map_length, seq_length; lia).
    destruct (overwrite_ret bytes off (word_bytes (mask_word m) M) 0) as (bytes' & E & L' & G); [lia|unfold zlen in *; lia|].
    exists bytes'. split; [exact E|]. rewrite Lw in G. split; [|split].
    + apply nth_byte_buffer. intros k. specialize (G (Z.of_nat k) ltac:(lia)). rewrite Nat2Z.id in G. rewrite G.
      destruct (Z.leb_spec off (Z.of_nat k)), (Z.ltb_spec (Z.of_nat k) (off + M)); cbn [andb]; try apply (nth_byte bytes k B).
      rewrite word_bytes_nth_gen by lia. apply Z.mod_pos_bound. lia.
    + unfold zlen in L'. lia.
    + intros j Hj. pose proof (Z.div_mod j 8 ltac:(lia)). pose proof (Z.mod_pos_bound j 8 ltac:(lia)).
      assert (0 <= j / 8) by (apply Z.div_pos; lia). unfold bit_of. rewrite G by lia.
      destruct (Z.leb_spec off (j / 8)), (Z.ltb_spec (j / 8) (off + M)), (Z.leb_spec idx j), (Z.ltb_spec j (idx + N)); cbn [andb]; try lia; auto.
      rewrite word_bytes_nth_gen by lia. change 256 with (2 ^ 8). rewrite Z.mod_pow2_bits_low, Z.shiftr_spec by lia.
      rewrite mask_word_bit by lia. do 2 f_equal. lia.
Qed.

Definition matched (data : list Z) (cmp idx : Z) (tmp : list Z) : Prop :=
  byte_buffer tmp /\ length tmp = 16%nat /\
  (forall j, 0 <= j < idx -> bit_of tmp j = (nth (Z.to_nat j) data 0 =? cmp)) /\
  (forall j, idx <= j -> bit_of tmp j = false).

Lemma nth_eqmap cmp v k : (k < length v)%nat -> nth k (map (fun x => x =? cmp) v) false = (nth k v 0 =? cmp).
Proof.
  intros H. rewrite (nth_indep _ false (0 =? cmp)) by (rewrite map_length; lia). apply (map_nth (fun x => x =? cmp)).
Qed.
Lemma bit_of_firstn8 tmp j : 0 <= j < 64 -> bit_of (firstn 8 tmp) j = bit_of tmp j.
Proof. intros. destruct (div8_bounds j 8 ltac:(lia)). unfold bit_of. rewrite nth_firstn by lia. reflexivity. Qed.

Lemma match_ok N data cmp : In N lane_counts ->
  let len := Z.min 64 (zlen data) in
  exists mask, match_impl N data (zlen data) cmp = Ret (len, mask) /\ length mask = 8%nat /\
    (forall j, 0 <= j < len -> bit_of mask j = (nth (Z.to_nat j) data 0 =? cmp)) /\
    (cmp <> 0 -> forall j, len <= j < 64 -> bit_of mask j = false) /\
    (cmp = 0 -> forall j, len <= j < N * ((len + N - 1) / N) -> bit_of mask j = true).
Proof.
  intros HN len. pose proof (zlen_nonneg data) as Hn. unfold match_impl. set (n := zlen data) in *. cbv zeta.
  assert (EL : (if 64 <? n then 64 else n) = len) by (unfold len; destruct (Z.ltb_spec 64 n); lia). rewrite EL.
  assert (H1 : 1 <= N <= 64) by (unfold lane_counts in HN; simpl in HN; lia).
  assert (D64 : (N | 64)). { unfold lane_counts in HN; simpl in HN. destruct HN as [<-|[<-|[<-|[<-|[<-|[<-|[<-|[]]]]]]]]; [now exists 64|now exists 32|now exists 16|now exists 8|now exists 4|now exists 2|now exists 1]. }
  pose proof (blocks_bound len N ltac:(lia) ltac:(lia)) as (B1 & B2 & B3).
  assert (P0 : matched data cmp 0 (repeat 0 16)).
  { split; [|split; [reflexivity|split; [intros; lia|]]].
    - unfold byte_buffer. apply Forall_forall. intros x Hx. apply repeat_spec in Hx. lia.
    - intros j Hj. unfold bit_of. replace (nth (Z.to_nat (j / 8)) (repeat 0 16) 0) with 0; [apply Z.bits_0|].
      generalize (Z.to_nat (j / 8)). intros k. do 16 (destruct k; [reflexivity|]). now destruct k. }
  assert (Loop : exists tmp, (if N <=? n then
      simd_loop (fuel_for len) 0 len N
        (fun idx tmp => do! v <- loadU data idx N; store_mask_bits N (map (fun x => x =? cmp) v) tmp idx) (repeat 0 16)
    else Ret (0, repeat 0 16)) = Ret (N * (len / N), tmp) /\ matched data cmp (N * (len / N)) tmp).
  { destruct (Z.leb_spec N n).
    - match goal with |- exists _, simd_loop _ _ _ _ ?b _ = _ /\ _ =>
        destruct (simd_loop_inv (matched data cmp) b len N (repeat 0 16)) as (tmp & E & G) end; eauto; try lia.
      intros idx tmp Hi Hc D (MB & ML & M1 & M2). rewrite loadU_ret by (fold n; lia). cbn [obind].
      pose proof (window_length data idx N Hi ltac:(lia) ltac:(fold n; lia)) as W. unfold zlen in W.
      destruct (store_mask_bits_ok N (map (fun x => x =? cmp) (window data idx N)) tmp idx) as (tmp' & E & MB' & ML' & G); auto; try lia.
      { rewrite map_length. lia. }
      exists tmp'. split; [exact E|]. split; [auto|]. split; [auto|]. split.
      + intros j Hj. rewrite G by lia. destruct (Z.leb_spec idx j), (Z.ltb_spec j (idx + N)); cbn [andb]; try lia; auto.
        2:{ apply M1. lia. }
        rewrite nth_eqmap, nth_window by lia. do 2 f_equal. lia.
      + intros j Hj. rewrite G by lia. rewrite (proj2 (Z.ltb_ge j _)), andb_false_r by lia. apply M2. lia.
    - exists (repeat 0 16). assert (len / N = 0) as -> by (apply Z.div_small; lia). rewrite Z.mul_0_r. auto. }
  destruct Loop as (tmp & -> & G). cbn [obind]. set (idx := N * (len / N)) in *. destruct G as (MB & ML & M1 & M2).
  destruct (Z.eqb_spec idx len) as [E|NE].
  - exists (firstn 8 tmp). split; auto. split; [rewrite firstn_length, ML; reflexivity|]. split; [|split].
    + intros j Hj. rewrite bit_of_firstn8 by lia. apply M1. lia.
    + intros _ j Hj. rewrite bit_of_firstn8 by lia. apply M2. lia.
    + intros _ j Hj. exfalso. assert (N * ((len + N - 1) / N) = len); [|lia].
      assert ((len + N - 1) / N = len / N); [|unfold idx in E; rewrite H; exact E].
      symmetry. apply Z.div_unique with (r := N - 1); [lia|]. fold idx. lia.
  - rewrite loadN_ret by (fold n; lia). cbn [obind].
    pose proof (window_length data idx (len - idx) ltac:(lia) ltac:(lia) ltac:(fold n; lia)) as W. unfold zlen in W.
    assert (Ib : idx + N <= 64). { destruct D64 as [q Hq], B3 as [r Hr]. assert (r < q) by nia. nia. }
    set (v := window data idx (len - idx) ++ repeat 0 (Z.to_nat (N - (len - idx)))).
    destruct (store_mask_bits_ok N (map (fun x => x =? cmp) v) tmp idx) as (tmp' & E & MB' & ML' & G); auto; try lia.
    { unfold v. rewrite map_length, app_length, repeat_length. lia. }
    rewrite E. cbn [obind]. exists (firstn 8 tmp'). split; auto. split; [rewrite firstn_length, ML'; reflexivity|].
    assert (Lv : length v = Z.to_nat N) by (unfold v; rewrite app_length, repeat_length; lia).
    assert (Pad : forall j, len <= j < idx + N -> nth (Z.to_nat (j - idx)) (map (fun x => x =? cmp) v) false = (0 =? cmp)).
    { intros j Hj. rewrite nth_eqmap by lia. unfold v. rewrite app_nth2 by lia. f_equal.
      assert (X : forall n k, nth k (repeat 0 n) 0 = 0) by (clear; induction n; intros [|k]; simpl; auto). apply X. }
    split; [|split].
    + intros j Hj. rewrite bit_of_firstn8, G by lia. destruct (Z.leb_spec idx j), (Z.ltb_spec j (idx + N)); cbn [andb]; try lia.
      2:{ apply M1. lia. }
      rewrite nth_eqmap by lia. unfold v. rewrite app_nth1 by lia. rewrite nth_window by lia. do 2 f_equal. lia.
    + intros NZ j Hj. rewrite bit_of_firstn8, G by lia. destruct (Z.leb_spec idx j), (Z.ltb_spec j (idx + N)); cbn [andb]; try (apply M2; lia).
      rewrite Pad by lia. apply Z.eqb_neq. auto.
    + intros -> j Hj. assert (N * ((len + N - 1) / N) = idx + N).
      { assert ((len + N - 1) / N = len / N + 1) as ->; [|unfold idx; lia].
        symmetry. apply Z.div_unique with (r := len - idx - 1); [lia|]. unfold idx. lia. }
      rewrite bit_of_firstn8, G by lia. rewrite (proj2 (Z.leb_le _ _)), (proj2 (Z.ltb_lt _ _)) by lia. cbn [andb].
      rewrite Pad by lia. reflexivity.
Qed.

(** ** Forms used by the property file *)
Lemma byte_count_room n : 0 <= n -> n <= 8 * byte_count_of n.
Proof. intros. pose proof (byte_count_bounds n). lia. Qed.

Lemma bits_not_pointwise N (alias : bool) src dst n : 1 <= N -> 0 <= n ->
  let source := if alias then dst else src in
  (n + 7) / 8 <= Z.of_nat (length source) -> (n + 7) / 8 <= Z.of_nat (length dst) ->
  exists out, bits_not N alias src dst n = Ret out /\ length out = length dst /\
    (forall i, 0 <= i < n -> bit_of out i = negb (bit_of source i)) /\
    (forall i, 8 * ((n + 7) / 8) <= i -> bit_of out i = bit_of dst i).
Proof.
  intros HN Hn source H1 H2. rewrite <- byte_count_eq in H1, H2 by auto.
  destruct (bits_not_ok N alias src dst n) as (out & E & L & G1 & G2 & _); auto.
  pose proof (byte_count_room n Hn). exists out. split; auto. unfold zlen in L. split; [lia|].
  rewrite <- byte_count_eq by auto. split; auto. intros. apply G1. lia.
Qed.
Lemma bits_not_padding N (alias : bool) src dst n : 1 <= N -> 0 <= n ->
  let source := if alias then dst else src in
  (n + 7) / 8 <= Z.of_nat (length source) -> (n + 7) / 8 <= Z.of_nat (length dst) ->
  (forall i, n <= i < 8 * ((n + 7) / 8) -> bit_of source i = false) ->
  exists out, bits_not N alias src dst n = Ret out /\
    (forall i, n <= i < 8 * ((n + 7) / 8) -> bit_of out i = true).
Proof.
  intros HN Hn source H1 H2 Z0. rewrite <- byte_count_eq in * by auto.
  destruct (bits_not_ok N alias src dst n) as (out & E & L & G1 & G2 & _); auto.
  exists out. split; auto. intros. rewrite G1 by lia. fold source. now rewrite Z0.
Qed.
Lemma bits_binary_pointwise N op (alias : bool) left right dst n : 1 <= N -> 0 <= n ->
  let source := if alias then dst else left in
  byte_buffer source -> byte_buffer right ->
  (n + 7) / 8 <= Z.of_nat (length source) -> (n + 7) / 8 <= Z.of_nat (length right) -> (n + 7) / 8 <= Z.of_nat (length dst) ->
  exists out, bits_binary N op alias left right dst n = Ret out /\ length out = length dst /\
    (forall i, 0 <= i < n -> bit_of out i =
       match op with
       | LAnd => andb (bit_of source i) (bit_of right i)
       | LOr => orb (bit_of source i) (bit_of right i)
       | LXor => xorb (bit_of source i) (bit_of right i)
       end) /\
    (forall i, n <= i < 8 * ((n + 7) / 8) -> bit_of source i = false -> bit_of right i = false -> bit_of out i = false) /\
    (forall i, 8 * ((n + 7) / 8) <= i -> bit_of out i = bit_of dst i).
Proof.
  intros HN Hn source Bs Br H1 H2 H3. rewrite <- byte_count_eq in H1, H2, H3 by auto.
  destruct (bits_binary_ok N op alias left right dst n) as (out & E & L & G1 & G2 & _); auto.
  pose proof (byte_count_room n Hn). exists out. split; auto. unfold zlen in L. split; [lia|].
  rewrite <- byte_count_eq by auto. split; [|split; auto].
  - intros i Hi. rewrite G1 by lia. destruct op; reflexivity.
  - intros i Hi A B. rewrite G1 by lia. fold source. rewrite A, B. destruct op; reflexivity.
Qed.
Lemma bits_binary_dirty N op : 1 <= N ->
  exists out, bits_binary N op false [255] [match op with LXor => 0 | _ => 255 end] [0] 1 = Ret out /\
    forall i, 0 <= i < 8 -> bit_of out i = true.
Proof.
  intros HN. destruct (bits_binary_ok N op false [255] [match op with LXor => 0 | _ => 255 end] [0] 1) as (out & E & L & G1 & G2 & _);
    auto; try lia; try (change (byte_count_of 1) with 1; unfold zlen; simpl length; lia).
  1: constructor; [lia|constructor].
  1: destruct op; constructor; try lia; constructor.
  exists out. split; auto. intros i Hi. rewrite G1 by (change (byte_count_of 1) with 1; lia).
  assert (i = 0 \/ i = 1 \/ i = 2 \/ i = 3 \/ i = 4 \/ i = 5 \/ i = 6 \/ i = 7) as C by lia.
  destruct op; repeat (destruct C as [->|C]; [reflexivity|]); subst; reflexivity.
Qed.
Lemma count_true_exact N src n : 1 <= N < 32 -> 0 <= n < 2 ^ 62 -> byte_buffer src ->
  (n + 7) / 8 <= Z.of_nat (length src) -> count_true N src n = Ret (count_true_spec (bits_of src (Z.to_nat n))).
Proof. intros. rewrite <- byte_count_eq in * by lia. now apply count_true_narrow. Qed.
Lemma count_false_exact N src n : 1 <= N < 32 -> 0 <= n < 2 ^ 62 -> byte_buffer src ->
  (n + 7) / 8 <= Z.of_nat (length src) -> count_false N src n = Ret (count_true_spec (map negb (bits_of src (Z.to_nat n)))).
Proof. intros. rewrite <- byte_count_eq in * by lia. now apply count_false_narrow. Qed.
Lemma count_true_sparse N src n : 1 <= N -> 0 <= n < 2 ^ 62 -> byte_buffer src ->
  (n + 7) / 8 <= Z.of_nat (length src) ->
  (forall a len, 0 <= a -> 0 <= len <= N -> (N | a) -> a + len <= (n + 7) / 8 ->
     count_true_spec (bits_of (window src a len) (Z.to_nat (8 * len))) < 256) ->
  count_true N src n = Ret (count_true_spec (bits_of src (Z.to_nat n))).
Proof. intros. rewrite <- byte_count_eq in * by lia. now apply count_true_ok. Qed.
Lemma count_true_wide_wrong N : 32 <= N -> exists src,
  byte_buffer src /\ length src = Z.to_nat N /\
  count_true N src (8 * N) <> Ret (count_true_spec (bits_of src (Z.to_nat (8 * N)))).
Proof.
  intros HN. exists (repeat 255 (Z.to_nat N)). destruct (count_true_wide N HN) as (E & S).
  split; [|split]. { unfold byte_buffer. apply Forall_forall. intros x Hx. apply repeat_spec in Hx. lia. } { apply repeat_length. }
  rewrite E, S. intros X. injection X as X. pose proof (Z.mod_pos_bound (8 * N) 256 ltac:(lia)). lia.
Qed.
Lemma max_empty t N : 1 <= N -> vector_max t N [] = Ret (lowest t).
Proof. intros HN. destruct (vector_max_of t N [] HN) as (m & -> & [_ [[E|[]] _]]). now subst. Qed.
Lemma min_empty t N : 1 <= N -> vector_min t N [] = Ret (highest t).
Proof. intros HN. destruct (vector_min_of t N [] HN) as (m & -> & [_ [[E|[]] _]]). now subst. Qed.
Lemma find_string_props op data texts w t jt :
  bytes t -> Z.of_nat (length t) < 2 ^ 31 -> of_string jt t = Ret w ->
  Forall2 (fun v s => exists j, of_string j s = Ret v) data texts ->
  Forall bytes texts -> Forall (fun s => Z.of_nat (length s) < 2 ^ 31) texts ->
  Z.of_nat (length data) < 2 ^ 31 ->
  exists r, vector_find_string op data w = Ret r /\
    first_index (fun s => match op, lex s t with
       | OpEqual, Eq | OpLessEqual, Eq | OpGreaterEqual, Eq => true
       | OpNotEqual, Lt | OpLess, Lt | OpLessEqual, Lt => true
       | OpNotEqual, Gt | OpGreater, Gt | OpGreaterEqual, Gt => true
       | _, _ => false end) texts r.
Proof.
  exact (find_string_ok op data texts w t jt).
Qed.
Lemma avg_empty t N : vector_avg t N [] = Ret 0.
Proof. reflexivity. Qed.
Lemma avg_wraps b N : b = 32 \/ b = 64 -> 1 <= N ->
  let top := 2 ^ b - 1 in exists a, vector_avg (mk_itype b false) N [top; top] = Ret a /\ a < top.
Proof.
  intros Hb HN top. unfold vector_avg. assert (zlen [top; top] = 2) as -> by reflexivity.
  change (2 =? 0) with false. cbv iota. rewrite vector_sum_wraps; auto.
  2:{ unfold wf_itype. cbn. lia. }
  cbn [obind signed]. cbv zeta. destruct Hb; subst b; eexists; (split; [vm_compute; reflexivity|vm_compute; reflexivity]).
Qed.
Lemma match_positive N data cmp : In N [1; 2; 4; 8; 16; 32; 64] ->
  let len := Z.min 64 (Z.of_nat (length data)) in
  exists mask, match_impl N data (Z.of_nat (length data)) cmp = Ret (len, mask) /\ length mask = 8%nat /\
    (forall j, 0 <= j < len -> bit_of mask j = (nth (Z.to_nat j) data 0 =? cmp)) /\
    (cmp <> 0 -> forall j, len <= j < 64 -> bit_of mask j = false).
Proof. intros H. destruct (match_ok N data cmp H) as (m & A & B & C & D & _). exists m. auto. Qed.
Lemma match_zero N data : In N [1; 2; 4; 8; 16; 32; 64] ->
  let len := Z.min 64 (Z.of_nat (length data)) in
  exists mask, match_impl N data (Z.of_nat (length data)) 0 = Ret (len, mask) /\
    (forall j, len <= j < N * ((len + N - 1) / N) -> bit_of mask j = true).
Proof. intros H. destruct (match_ok N data 0 H) as (m & A & B & C & _ & D). exists m. auto. Qed.
