(** Proofs about SimdString_Model. *)
From Coq Require Import List ZArith Bool Lia.
Import ListNotations.
From Verif Require Import Base StringView_Model Vector_Spec Vector_Model Vector_Proofs.
From Verif Require Import Simd_Spec Simd_Model Simd_Proofs SimdString_Spec SimdString_Model.
Local Open Scope Z_scope.

(** ** Searching positions *)
Definition none_upto (hit : Z -> bool) (n : Z) : Prop := forall p, 0 <= p < n -> hit p = false.
Definition first_hit (hit : Z -> bool) (n r : Z) : Prop :=
  (r = -1 /\ none_upto hit n) \/ (0 <= r < n /\ hit r = true /\ none_upto hit r).

Lemma clear_first_nth m i j : find_first_true m = Some i -> 0 <= j ->
  nth (Z.to_nat j) (clear_first m) false = if j =? i then false else nth (Z.to_nat j) m false.
Proof.
  revert i j. induction m as [|b m IH]; intros i j H Hj; [discriminate|]. cbn [find_first_true] in H. cbn [clear_first].
  destruct b.
  - injection H as <-. destruct (Z.eqb_spec j 0) as [->|NZ]; [reflexivity|].
    replace (Z.to_nat j) with (S (Z.to_nat (j - 1))) by lia. reflexivity.
  - destruct (find_first_true m) as [k|] eqn:E; [|discriminate]. injection H as <-. apply find_first_true_some in E as E'.
    destruct (Z.eq_dec j 0) as [->|NZ]; [rewrite (proj2 (Z.eqb_neq 0 (k + 1))) by lia; reflexivity|].
    replace (Z.to_nat j) with (S (Z.to_nat (j - 1))) by lia. cbn [nth]. rewrite (IH k) by (auto; lia).
    destruct (Z.eqb_spec (j - 1) k), (Z.eqb_spec j (k + 1)); try lia; auto.
Qed.
Lemma clear_first_length m : length (clear_first m) = length m.
Proof. induction m as [|[] m IH]; simpl; auto. Qed.
Lemma clear_first_count m i : find_first_true m = Some i ->
  S (length (filter (fun b => b) (clear_first m))) = length (filter (fun b => b) m).
Proof.
  revert i. induction m as [|b m IH]; intros i H; [discriminate|]. cbn [find_first_true] in H. destruct b; simpl; auto.
  destruct (find_first_true m); [|discriminate]. eapply IH; eauto.
Qed.
Lemma count_le m : (length (filter (fun b : bool => b) m) <= length m)%nat.
Proof. induction m as [|[] m IH]; simpl; lia. Qed.

Lemma find_first_true_none_nth m j : find_first_true m = None -> nth j m false = false.
Proof.
  intros H. destruct (Nat.lt_ge_cases j (length m)); [|now apply nth_overflow].
  apply (find_first_true_none m H). now apply nth_In.
Qed.
Lemma find_first_true_before m i j : find_first_true m = Some i -> 0 <= j < i -> nth (Z.to_nat j) m false = false.
Proof.
  intros H Hj. apply find_first_true_some in H. destruct H as (A & B & C). rewrite (nth_indep _ false true) by (unfold zlen in A; lia). now apply C.
Qed.

Lemma scan_ok lim (t : Z -> bool) (stop : Z -> bool) (test : Z -> outcome bool) :
  (forall f, stop f = (lim <=? f)) ->
  forall fuel m, (length (filter (fun b : bool => b) m) < fuel)%nat ->
  (forall f, 0 <= f < lim -> nth (Z.to_nat f) m false = true -> test f = Ret (t f)) ->
  exists r, scan fuel m stop test = Ret r /\
    match r with
    | Some i => 0 <= i < lim /\ nth (Z.to_nat i) m false = true /\ t i = true /\
                forall j, 0 <= j < i -> nth (Z.to_nat j) m false && t j = false
    | None => forall j, 0 <= j < lim -> nth (Z.to_nat j) m false && t j = false
    end.
Proof.
  intros Hs. induction fuel as [|fuel IH]; intros m F Ht; [lia|]. cbn [scan].
  destruct (find_first_true m) as [f|] eqn:E.
  - pose proof (find_first_true_some m f E) as (A & B & C). rewrite Hs.
    pose proof (fun j => find_first_true_before m f j E) as Bf.
    destruct (Z.leb_spec lim f) as [L|L].
    + exists None. split; auto. intros j Hj. rewrite Bf by lia. reflexivity.
    + rewrite Ht by (auto; lia). cbn [obind]. destruct (t f) eqn:T.
      * exists (Some f). split; auto. split; [lia|]. split; auto. split; auto. intros j Hj. rewrite Bf by lia. reflexivity.
      * pose proof (clear_first_count m f E). destruct (IH (clear_first m)) as (r & R & G); [lia| |].
        { intros g Hg X. rewrite (clear_first_nth m f) in X by (auto; lia). destruct (g =? f); [discriminate|]. apply Ht; auto. }
        exists r. split; auto.
        assert (Y : forall j, 0 <= j -> nth (Z.to_nat j) (clear_first m) false && t j = nth (Z.to_nat j) m false && t j).
        { intros j Hj. rewrite (clear_first_nth m f) by auto. destruct (Z.eqb_spec j f) as [->|]; auto. rewrite T, !andb_false_r; reflexivity. }
        destruct r as [i|].
        -- destruct G as (G1 & G2 & G3 & G4). split; auto. rewrite (clear_first_nth m f) in G2 by (auto; lia).
           destruct (i =? f); [discriminate|]. split; auto. split; auto. intros j Hj. rewrite <- Y by lia. auto.
        -- intros j Hj. rewrite <- Y by lia. auto.
  - exists None. split; auto. intros j Hj. rewrite find_first_true_none_nth; auto.
Qed.

Lemma nth_map_eq ch v k : (k < length v)%nat -> nth k (map (fun b => b =? ch) v) false = (nth k v 0 =? ch).
Proof. intros H. rewrite (nth_indep _ false (0 =? ch)) by (rewrite map_length; lia). apply (map_nth (fun b => b =? ch)). Qed.

Lemma nth_zip_and a b k : length a = length b -> nth k (zip2 andb a b) false = nth k a false && nth k b false.
Proof. revert b k. induction a as [|x a IH]; intros [|y b] [|k] H; simpl in *; try lia; auto. Qed.
Lemma zip2_length {A B C} (f : A -> B -> C) a b : length a = length b -> length (zip2 f a b) = length a.
Proof. revert b. induction a as [|x a IH]; intros [|y b] H; simpl in *; try lia; auto. Qed.

Lemma wraps_small x : 0 <= x < 2 ^ 31 -> wraps 32 x = x.
Proof. intros. apply wraps_id; [lia|]. unfold in_s. pows. lia. Qed.

(** ** find_char *)
Lemma find_char_ok N s ch : 1 <= N -> zlen s < 2 ^ 31 ->
  exists r, find_char N s ch = Ret r /\ first_hit (fun p => nth (Z.to_nat p) s 0 =? ch) (zlen s) r.
Proof.
  intros HN L. set (hit := fun p => nth (Z.to_nat p) s 0 =? ch). unfold find_char. cbv zeta. pose proof (zlen_nonneg s) as Hn. set (n := zlen s) in *.
  pose proof (blocks_bound n N HN Hn) as (B1 & B2 & B3).
  match goal with |- exists r, obind (simd_search _ _ _ _ ?b) _ = _ /\ _ =>
    destruct (simd_search_from (none_upto hit) (first_hit hit n) b n N HN) with (fuel := fuel_for n) (idx := 0)
      as [(r & -> & Q)|(-> & P)] end.
  - intros idx Hi Hc D HP. rewrite loadU_ret by (fold n; lia). cbn [obind].
    pose proof (window_length s idx N Hi ltac:(lia) ltac:(fold n; lia)) as W. unfold zlen in W.
    destruct (find_first_true (map (fun b => b =? ch) (window s idx N))) as [f|] eqn:E.
    + left. pose proof (find_first_true_some _ f E) as (A & B & C). unfold zlen in A. rewrite map_length in A.
      exists (wraps 32 (f + idx)). split; auto. rewrite wraps_small by lia. right. split; [lia|].
      rewrite nth_map_eq, nth_window in B by lia. split; [unfold hit; rewrite <- B; do 2 f_equal; lia|].
      intros p Hp. destruct (Z.lt_ge_cases p idx); [apply HP; lia|].
      pose proof (find_first_true_before _ f (p - idx) E ltac:(lia)) as X. rewrite nth_map_eq, nth_window in X by lia.
      unfold hit. rewrite <- X. do 2 f_equal. lia.
    + right. split; auto. intros p Hp. destruct (Z.lt_ge_cases p idx); [apply HP; lia|].
      pose proof (find_first_true_none_nth _ (Z.to_nat (p - idx)) E) as X. rewrite nth_map_eq, nth_window in X by lia.
      unfold hit. rewrite <- X. do 2 f_equal. lia.
  - lia.
  - apply Z.divide_0_r.
  - unfold fuel_for. lia.
  - intros p Hp. lia.
  - cbn [obind]. eauto.
  - cbn [obind]. set (idx := N * (n / N)) in *. destruct (Z.eqb_spec idx n) as [E|NE].
    + exists (-1). split; auto. left. split; auto. now rewrite <- E.
    + rewrite loadN_ret by (fold n; lia). cbn [obind].
      pose proof (window_length s idx (n - idx) ltac:(lia) ltac:(lia) ltac:(fold n; lia)) as W. unfold zlen in W.
      set (v := window s idx (n - idx) ++ repeat 0 (Z.to_nat (N - (n - idx)))).
      assert (Lv : length v = Z.to_nat N) by (unfold v; rewrite app_length, repeat_length; lia).
      assert (Hv : forall p, idx <= p < n -> nth (Z.to_nat (p - idx)) (map (fun b => b =? ch) v) false = hit p).
      { intros p Hp. rewrite nth_map_eq by lia. unfold v. rewrite app_nth1, nth_window by lia. unfold hit. do 2 f_equal. lia. }
      destruct (find_first_true (map (fun b => b =? ch) v)) as [f|] eqn:E.
      * pose proof (find_first_true_some _ f E) as (A & B & C). pose proof (fun j => find_first_true_before _ f j E) as Bf.
        destruct (Z.ltb_spec f (n - idx)).
        -- eexists. split; [reflexivity|]. rewrite wraps_small by lia. right. split; [lia|].
           rewrite <- (Hv (f + idx)) by lia. replace (f + idx - idx) with f by lia. split; auto.
           intros p Hp. destruct (Z.lt_ge_cases p idx); [apply P; lia|]. rewrite <- Hv by lia. apply Bf. lia.
        -- eexists. split; [reflexivity|]. left. split; auto. intros p Hp.
           destruct (Z.lt_ge_cases p idx); [apply P; lia|]. rewrite <- Hv by lia. apply Bf. lia.
      * eexists. split; [reflexivity|]. left. split; auto. intros p Hp.
        destruct (Z.lt_ge_cases p idx); [apply P; lia|]. rewrite <- Hv by lia. now apply find_first_true_none_nth.
Qed.

(** ** Occurrences as windows *)
Lemma skipn_skipn {A} a b (l : list A) : skipn a (skipn b l) = skipn (a + b) l.
Proof. revert b l. induction b; intros l; [now rewrite Nat.add_0_r|]. rewrite Nat.add_succ_r. destruct l; [now rewrite !skipn_nil|]. cbn [skipn]. apply IHb. Qed.
Lemma occurs_at_window p s i : occurs_at p s i <-> 0 <= i /\ i + zlen p <= zlen s /\ window s i (zlen p) = p.
Proof.
  unfold occurs_at, window, zlen. split.
  - intros (a & b & -> & <-). rewrite !app_length. split; [lia|]. split; [lia|].
    rewrite !Nat2Z.id. rewrite skipn_app, skipn_all, Nat.sub_diag. cbn [skipn app].
    rewrite firstn_app, firstn_all, Nat.sub_diag. cbn [firstn]. apply app_nil_r.
  - intros (H1 & H2 & E). exists (firstn (Z.to_nat i) s), (skipn (Z.to_nat (i + Z.of_nat (length p))) s). split.
    + rewrite <- E at 1. rewrite Nat2Z.id. replace (Z.to_nat (i + Z.of_nat (length p))) with (length p + Z.to_nat i)%nat by lia.
      rewrite <- skipn_skipn. rewrite firstn_skipn. symmetry. apply firstn_skipn.
    + rewrite firstn_length. lia.
Qed.

Lemma same_spec a b : same a b = true <-> a = b.
Proof.
  revert b. induction a as [|x a IH]; intros [|y b]; simpl; split; try easy.
  - rewrite andb_true_iff, Z.eqb_eq, IH. now intros [-> ->].
  - intros [= -> ->]. rewrite Z.eqb_refl. now apply IH.
Qed.

(** [part] matches at [p], as the code tests it. *)
Definition hit_at (s part : list Z) (p : Z) : bool :=
  (nth (Z.to_nat p) s 0 =? nth 0 part 0) &&
  (nth (Z.to_nat (p + zlen part - 1)) s 0 =? nth (Z.to_nat (zlen part - 1)) part 0) &&
  same (window s (p + 1) (zlen part - 2)) (window part 1 (zlen part - 2)).

Lemma list_split3 (l : list Z) n : (2 <= n)%nat -> length l = n -> l = nth 0 l 0 :: firstn (n - 2) (skipn 1 l) ++ [nth (n - 1) l 0].
Proof.
  intros Hn L. destruct l as [|x l]; [simpl in L; lia|]. cbn [nth skipn]. f_equal. simpl in L.
  assert (l <> []) by (intros ->; simpl in L; lia). destruct (exists_last H) as (m & y & ->). rewrite app_length in L. cbn [length] in L.
  replace (n - 2)%nat with (length m) by lia. rewrite firstn_app, firstn_all, Nat.sub_diag. cbn [firstn]. rewrite app_nil_r. f_equal.
  replace (n - 1)%nat with (S (length m)) by lia. cbn [nth]. rewrite app_nth2, Nat.sub_diag by lia. reflexivity.
Qed.

Lemma hit_at_spec s part p : 2 <= zlen part -> 0 <= p -> p + zlen part <= zlen s ->
  hit_at s part p = true <-> occurs_at part s p.
Proof.
  intros H2 Hp Hl. rewrite occurs_at_window. unfold hit_at. rewrite !andb_true_iff, !Z.eqb_eq, same_spec.
  set (L := zlen part) in *. pose proof (window_length s p L Hp ltac:(lia) ltac:(lia)) as W. unfold zlen in W.
  assert (LL : length part = Z.to_nat L) by (unfold L, zlen; lia).
  pose proof (list_split3 part (Z.to_nat L) ltac:(lia) LL) as S1.
  pose proof (list_split3 (window s p L) (Z.to_nat L) ltac:(lia) ltac:(lia)) as S2.
  assert (N0 : nth 0 (window s p L) 0 = nth (Z.to_nat p) s 0) by (change 0%nat with (Z.to_nat 0); rewrite nth_window by lia; do 2 f_equal; lia).
  assert (N1 : nth (Z.to_nat L - 1) (window s p L) 0 = nth (Z.to_nat (p + L - 1)) s 0).
  { replace (Z.to_nat L - 1)%nat with (Z.to_nat (L - 1)) by lia. rewrite nth_window by lia. do 2 f_equal. lia. }
  assert (M : firstn (Z.to_nat L - 2) (skipn 1 (window s p L)) = window s (p + 1) (L - 2)).
  { unfold window. replace (Z.to_nat (p + 1)) with (1 + Z.to_nat p)%nat by lia. rewrite <- skipn_skipn.
    generalize (skipn (Z.to_nat p) s). intros l. replace (Z.to_nat L) with (S (S (Z.to_nat (L - 2)))) by lia.
    replace (S (S (Z.to_nat (L - 2))) - 2)%nat with (Z.to_nat (L - 2)) by lia.
    destruct l as [|x l]; [now rewrite !firstn_nil|]. generalize (Z.to_nat (L - 2)). intros k.
    change (firstn k (firstn (S k) l) = firstn k l). rewrite firstn_firstn. f_equal. lia. }
  assert (M' : firstn (Z.to_nat L - 2) (skipn 1 part) = window part 1 (L - 2)).
  { unfold window. change (Z.to_nat 1) with 1%nat. f_equal. lia. }
  rewrite N0, N1, M in S2. rewrite M' in S1.
  replace (Z.to_nat (L - 1)) with (Z.to_nat L - 1)%nat by lia.
  split.
  - intros [[A B] C]. split; [lia|]. split; [lia|]. rewrite S2, S1, A, B, C.
    rewrite S1 at 1. reflexivity.
  - intros (_ & _ & E). split; [split|].
    + rewrite <- N0, E. reflexivity.
    + rewrite <- N1, E. reflexivity.
    + rewrite <- M, E. exact M'.
Qed.

Lemma first_hit_occurrence part s r : 2 <= zlen part -> zlen part <= zlen s ->
  first_hit (hit_at s part) (zlen s - zlen part + 1) r -> first_occurrence part s r.
Proof.
  intros H2 Hl [(-> & H)|(Hr & H & Hn)].
  - left. split; auto. intros i Oc. pose proof Oc as Oc'. rewrite occurs_at_window in Oc'.
    apply hit_at_spec in Oc; try lia. rewrite H in Oc by lia. discriminate.
  - right. split; [apply hit_at_spec; auto; lia|]. intros i Oc. pose proof Oc as Oc'. rewrite occurs_at_window in Oc'.
    apply hit_at_spec in Oc; try lia. destruct (Z.lt_ge_cases i r); auto. rewrite Hn in Oc by lia. discriminate.
Qed.
Lemma occurs_short part s i : zlen s < zlen part -> ~ occurs_at part s i.
Proof. intros H Oc. apply occurs_at_window in Oc. lia. Qed.
Lemma occurs_char c s i : occurs_at [c] s i <-> 0 <= i < zlen s /\ nth (Z.to_nat i) s 0 = c.
Proof.
  rewrite occurs_at_window. change (zlen [c]) with 1. split.
  - intros (A & B & E). split; [lia|]. pose proof (f_equal (fun l => nth 0 l 0) E) as X. cbn [nth] in X. change 0%nat with (Z.to_nat 0) in X.
    rewrite nth_window in X by lia. rewrite <- X. do 2 f_equal. lia.
  - intros (A & E). split; [lia|]. split; [lia|]. unfold window. change (Z.to_nat 1) with 1%nat.
    rewrite (skipn_nth s (Z.to_nat i) 0) by (unfold zlen in A; lia). cbn [firstn]. now rewrite E.
Qed.

(** ** find_string: what the code finds *)
Definition test_base (N count p : Z) : Z := if p <? N * (count / N) then N * (p / N) else p.
Definition hit_code (N : Z) (s part : list Z) (p : Z) : bool :=
  (nth (Z.to_nat p) s 0 =? nth 0 part 0) &&
  (nth (Z.to_nat (p + zlen part - 1)) s 0 =? nth (Z.to_nat (zlen part - 1)) part 0) &&
  same (window s (test_base N (zlen s - zlen part + 1) p + 1) (zlen part - 2)) (window part 1 (zlen part - 2)).

Lemma same_empty s part a b : same (window s a 0) (window part b 0) = true.
Proof. reflexivity. Qed.

Lemma test_ret s part i L : L = zlen part -> 2 <= L -> 0 <= i -> i + L - 2 <= zlen s ->
  (if L =? 2 then Ret true else memcmp_eq s i part 1 (L - 2)) = Ret (same (window s i (L - 2)) (window part 1 (L - 2))).
Proof.
  intros EL H2 Hi Hb. destruct (Z.eqb_spec L 2) as [->|NE].
  - reflexivity.
  - unfold memcmp_eq. rewrite !loadU_ret by lia. reflexivity.
Qed.

Lemma scan_no_stop lim test fuel : forall m, zlen m <= lim ->
  scan fuel m (fun _ => false) test = scan fuel m (fun f => lim <=? f) test.
Proof.
  induction fuel; intros m H; [reflexivity|]. cbn [scan]. destruct (find_first_true m) as [f|] eqn:E; [|reflexivity].
  apply find_first_true_some in E. destruct E as (A & _). rewrite (proj2 (Z.leb_gt lim f)) by lia.
  destruct (test f) as [[]| | |]; cbn [obind]; auto. apply IHfuel. unfold zlen in *. now rewrite clear_first_length.
Qed.

Lemma find_string_code N s part : 1 <= N -> zlen s < 2 ^ 31 -> 2 <= zlen part <= zlen s ->
  exists r, find_string N s part = Ret r /\ first_hit (hit_code N s part) (zlen s - zlen part + 1) r.
Proof.
  intros HN Ls HL. unfold find_string. cbv zeta. set (hit := hit_code N s part). set (n := zlen s) in *. set (L := zlen part) in *.
  rewrite (proj2 (Z.ltb_ge n L)), (proj2 (Z.eqb_neq L 1)) by lia.
  assert (EW : wrapu 64 (L - 1) = L - 1) by (apply wrapu_id; unfold in_u; pows; lia). rewrite EW.
  rewrite !(load_ret _ _ 0) by (unfold L, zlen in *; lia). cbn [obind].
  set (c0 := nth (Z.to_nat 0) part 0). set (c1 := nth (Z.to_nat (L - 1)) part 0). set (cnt := n - L + 1) in *.
  pose proof (blocks_bound cnt N HN ltac:(unfold cnt; lia)) as (B1 & B2 & B3).
  match goal with |- exists r, obind (simd_search _ _ _ _ ?b) _ = _ /\ _ =>
    destruct (simd_search_from (none_upto hit) (first_hit hit cnt) b cnt N HN) with (fuel := fuel_for n) (idx := 0)
      as [(r & -> & Q)|(-> & P)] end.
  - intros idx Hi Hc D HP. rewrite !loadU_ret by (fold n; unfold cnt in *; lia). cbn [obind].
    pose proof (window_length s (idx + 0) N ltac:(lia) ltac:(lia) ltac:(fold n; unfold cnt in *; lia)) as W0.
    pose proof (window_length s (idx + (L - 1)) N ltac:(lia) ltac:(lia) ltac:(fold n; unfold cnt in *; lia)) as W1.
    unfold zlen in W0, W1.
    set (m := zip2 andb _ _).
    assert (Lm : length m = Z.to_nat N) by (unfold m; rewrite zip2_length; rewrite ?map_length; lia).
    assert (Mv : forall f, 0 <= f < N -> nth (Z.to_nat f) m false =
        (nth (Z.to_nat (idx + f)) s 0 =? c0) && (nth (Z.to_nat (idx + f + L - 1)) s 0 =? c1)).
    { intros f Hf. unfold m. rewrite nth_zip_and by (rewrite !map_length; lia). rewrite !nth_map_eq, !nth_window by lia.
      replace (idx + (L - 1) + f) with (idx + f + L - 1) by lia. now rewrite Z.add_0_r. }
    destruct (scan_ok N (fun _ => same (window s (idx + 0 + 1) (L - 2)) (window part 1 (L - 2))) (fun f => N <=? f)
       (fun _ => if L =? 2 then Ret true else memcmp_eq s (idx + 0 + 1) part 1 (L - 2)) (fun _ => eq_refl) (S (length m)) m)
      as (r & R & G).
    { pose proof (count_le m). lia. }
    { intros f Hf _. apply test_ret; auto; fold n; unfold cnt in *; lia. }
    assert (R' : scan (S (length m)) m (fun _ => false) (fun _ => if L =? 2 then Ret true else memcmp_eq s (idx + 0 + 1) part 1 (L - 2)) = Ret r).
    { rewrite <- R. apply scan_no_stop. unfold zlen. lia. }
    rewrite R'. cbn [obind].
    assert (TB : forall p, idx <= p < idx + N -> test_base N cnt p = idx).
    { intros p Hp. unfold test_base. destruct D as [q Hq].
      assert (idx + N <= N * (cnt / N)). { assert (q + 1 <= cnt / N); [|nia]. apply Z.div_le_lower_bound; nia. }
      rewrite (proj2 (Z.ltb_lt _ _)) by lia. assert (p / N = q) as -> by (symmetry; apply Z.div_unique with (r := p - idx); lia). lia. }
    assert (HV : forall p, idx <= p < idx + N -> hit p = nth (Z.to_nat (p - idx)) m false && same (window s (idx + 0 + 1) (L - 2)) (window part 1 (L - 2))).
    { intros p Hp. unfold hit, hit_code. fold n L cnt. rewrite TB by auto. rewrite Mv by lia.
      replace (idx + (p - idx)) with p by lia. rewrite Z.add_0_r. reflexivity. }
    destruct r as [f|].
    + destruct G as (G1 & G2 & G3 & G4). left. eexists. split; [reflexivity|]. rewrite wraps_small by (unfold cnt in *; lia). right. split; [lia|].
      split; [rewrite HV by lia; replace (f + idx - idx) with f by lia; now rewrite G2|].
      intros p Hp. destruct (Z.lt_ge_cases p idx); [apply HP; lia|]. rewrite HV by lia. apply G4. lia.
    + right. split; auto. intros p Hp. destruct (Z.lt_ge_cases p idx); [apply HP; lia|]. rewrite HV by lia. apply G. lia.
  - unfold cnt; lia.
  - apply Z.divide_0_r.
  - unfold fuel_for, cnt. lia.
  - intros p Hp. lia.
  - cbn [obind]. eauto.
  - cbn [obind]. set (idx := N * (cnt / N)) in *. destruct (Z.ltb_spec (n - L) idx) as [E|NE].
    + exists (-1). split; auto. left. split; auto. intros p Hp. apply P. unfold cnt in *. lia.
    + rewrite !loadN_ret by (fold n; lia). cbn [obind]. set (rem := n - idx - L + 1).
      pose proof (window_length s idx rem ltac:(lia) ltac:(unfold rem; lia) ltac:(fold n; unfold rem; lia)) as W0.
      pose proof (window_length s (idx + (L - 1)) rem ltac:(lia) ltac:(unfold rem; lia) ltac:(fold n; unfold rem; lia)) as W1.
      unfold zlen in W0, W1.
      assert (rem < N) by (unfold rem, cnt in *; lia). assert (0 < rem) by (unfold rem; lia).
      set (m := zip2 andb _ _).
      assert (Mv : forall f, 0 <= f < rem -> nth (Z.to_nat f) m false =
        (nth (Z.to_nat (idx + f)) s 0 =? c0) && (nth (Z.to_nat (idx + f + L - 1)) s 0 =? c1)).
      { intros f Hf. unfold m. rewrite nth_zip_and by (rewrite !map_length, !app_length, !repeat_length; lia).
        rewrite !nth_map_eq by (rewrite !app_length; lia). rewrite !app_nth1, !nth_window by lia. now replace (idx + (L - 1) + f) with (idx + f + L - 1) by lia. }
      destruct (scan_ok rem (fun f => same (window s (idx + f + 1) (L - 2)) (window part 1 (L - 2))) (fun f => rem <=? f)
         (fun f => if L =? 2 then Ret true else memcmp_eq s (idx + f + 1) part 1 (L - 2)) (fun _ => eq_refl) (S (length m)) m)
        as (r & R & G).
      { pose proof (count_le m). lia. }
      { intros f Hf _. apply test_ret; auto; fold n; unfold rem in *; lia. }
      rewrite R. cbn [obind].
      assert (HV : forall p, idx <= p < idx + rem -> hit p = nth (Z.to_nat (p - idx)) m false && same (window s (p + 1) (L - 2)) (window part 1 (L - 2))).
      { intros p Hp. unfold hit, hit_code. fold n L cnt. unfold test_base. fold idx. rewrite (proj2 (Z.ltb_ge p idx)) by lia. rewrite Mv by lia.
        replace (idx + (p - idx)) with p by lia. reflexivity. }
      eexists. split; [reflexivity|]. destruct r as [f|].
      * destruct G as (G1 & G2 & G3 & G4). rewrite wraps_small by (unfold rem in *; lia). right. split; [unfold rem, cnt in *; lia|].
        split; [rewrite HV by lia; replace (f + idx - idx) with f by lia; rewrite G2; replace (f + idx + 1) with (idx + f + 1) by lia; now rewrite G3|].
        intros p Hp. destruct (Z.lt_ge_cases p idx); [apply P; lia|]. rewrite HV by lia.
        specialize (G4 (p - idx) ltac:(lia)). replace (idx + (p - idx) + 1) with (p + 1) in G4 by lia. exact G4.
      * left. split; auto. intros p Hp. destruct (Z.lt_ge_cases p idx); [apply P; lia|]. rewrite HV by (unfold rem, cnt in *; lia).
        specialize (G (p - idx) ltac:(unfold rem, cnt in *; lia)). replace (idx + (p - idx) + 1) with (p + 1) in G by lia. exact G.
Qed.

Lemma first_hit_ext h1 h2 n r : (forall p, 0 <= p < n -> h1 p = h2 p) -> first_hit h1 n r -> first_hit h2 n r.
Proof.
  intros E [(-> & H)|(Hr & H & Hn)]; [left|right].
  - split; auto. intros p Hp. rewrite <- E by auto. auto.
  - split; auto. rewrite <- E by lia. split; auto. intros p Hp. rewrite <- E by lia. auto.
Qed.

Lemma find_string_ok N s part : 1 <= N -> zlen s < 2 ^ 31 -> 1 <= zlen part ->
  (N = 1 \/ zlen part <= 2 \/ zlen s < N + zlen part - 1) ->
  exists r, find_string N s part = Ret r /\ first_occurrence part s r.
Proof.
  intros HN Ls HL HC. destruct (Z.lt_ge_cases (zlen s) (zlen part)) as [H|H].
  { exists (-1). unfold find_string. rewrite (proj2 (Z.ltb_lt _ _)) by auto. split; auto. left. split; auto. intros i. now apply occurs_short. }
  destruct (Z.eq_dec (zlen part) 1) as [E1|NE1].
  - unfold find_string. cbv zeta. rewrite (proj2 (Z.ltb_ge _ _)) by auto. rewrite E1. cbn [Z.eqb Pos.eqb].
    destruct part as [|c [|]]; unfold zlen in E1; cbn [length] in E1; try lia. change (load [c] 0) with (Ret c). cbn [obind].
    destruct (find_char_ok N s c HN Ls) as (r & -> & F). exists r. split; auto. destruct F as [(-> & F)|(Hr & F & Fn)].
    + left. split; auto. intros i Oc. apply occurs_char in Oc. destruct Oc as (Hi & X). specialize (F i Hi). cbv beta in F. rewrite X, Z.eqb_refl in F. discriminate.
    + right. split; [apply occurs_char; split; [lia|now apply Z.eqb_eq]|]. intros i Oc. apply occurs_char in Oc. destruct Oc as (Hi & X).
      destruct (Z.lt_ge_cases i r); auto. specialize (Fn i ltac:(lia)). cbv beta in Fn. rewrite X, Z.eqb_refl in Fn. discriminate.
  - destruct (find_string_code N s part) as (r & E & F); auto; try lia. exists r. split; auto. apply first_hit_occurrence; auto; try lia.
    eapply first_hit_ext; [|exact F]. intros p Hp. unfold hit_code, hit_at. f_equal.
    destruct (Z.eq_dec (zlen part) 2) as [E2|NE2]; [rewrite E2; reflexivity|].
    assert (test_base N (zlen s - zlen part + 1) p = p) as ->; [|reflexivity]. unfold test_base.
    destruct (Z.ltb_spec p (N * ((zlen s - zlen part + 1) / N))) as [B|]; auto. destruct HC as [->|[HC|HC]]; [|lia|].
    + rewrite Z.div_1_r. lia.
    + rewrite Z.div_small in B by lia. lia.
Qed.

(** Every reported position is in range and has the right first and last byte. *)
Lemma find_string_safe N s part : 1 <= N -> zlen s < 2 ^ 31 -> 2 <= zlen part ->
  exists r, find_string N s part = Ret r /\
    (r = -1 \/ (0 <= r <= zlen s - zlen part /\ nth (Z.to_nat r) s 0 = nth 0 part 0 /\
                nth (Z.to_nat (r + zlen part - 1)) s 0 = nth (Z.to_nat (zlen part - 1)) part 0)).
Proof.
  intros HN Ls HL. destruct (Z.lt_ge_cases (zlen s) (zlen part)) as [H|H].
  { exists (-1). unfold find_string. rewrite (proj2 (Z.ltb_lt _ _)) by auto. auto. }
  destruct (find_string_code N s part) as (r & E & F); auto. exists r. split; auto. destruct F as [(-> & F)|(Hr & F & Fn)]; auto. right.
  unfold hit_code in F. rewrite !andb_true_iff, !Z.eqb_eq in F. split; [lia|]. tauto.
Qed.

(** ** split *)
Fixpoint trues_from (k : Z) (m : list bool) : list Z :=
  match m with [] => [] | b :: m' => if b then k :: trues_from (k + 1) m' else trues_from (k + 1) m' end.

Lemma trues_from_app k a b : trues_from k (a ++ b) = trues_from k a ++ trues_from (k + zlen a) b.
Proof.
  revert k. induction a as [|[] a IH]; intros k; simpl.
  - f_equal. unfold zlen. simpl. lia.
  - f_equal. rewrite IH. do 2 f_equal. unfold zlen. simpl length. lia.
  - rewrite IH. do 2 f_equal. unfold zlen. simpl length. lia.
Qed.
Lemma trues_from_range k m x : In x (trues_from k m) -> k <= x < k + zlen m.
Proof.
  revert k. induction m as [|[] m IH]; intros k H; simpl in H; [easy| |].
  - unfold zlen in *. simpl length. destruct H as [<-|H]; [lia|]. apply IH in H. lia.
  - unfold zlen in *. simpl length. apply IH in H. lia.
Qed.
Lemma trues_from_first k m f : find_first_true m = Some f -> trues_from k m = (k + f) :: trues_from k (clear_first m).
Proof.
  revert k f. induction m as [|b m IH]; intros k f H; [discriminate|]. cbn [find_first_true] in H. destruct b.
  - injection H as <-. cbn. f_equal. lia.
  - destruct (find_first_true m) as [g|]; [|discriminate]. injection H as <-. cbn. rewrite (IH _ g eq_refl). f_equal. lia.
Qed.
Lemma trues_from_none k m : find_first_true m = None -> trues_from k m = [].
Proof.
  revert k. induction m as [|[] m IH]; intros k H; cbn in *; auto; [discriminate|]. destruct (find_first_true m); [discriminate|]. auto.
Qed.
Lemma clear_first_min m f x : find_first_true m = Some f -> forall k, In x (trues_from k m) -> k + f <= x.
Proof.
  revert f. induction m as [|b m IH]; intros f H k Hx; [discriminate|]. cbn in *. destruct b.
  - injection H as <-. destruct Hx as [<-|Hx]; [lia|]. apply trues_from_range in Hx. lia.
  - destruct (find_first_true m) as [g|]; [|discriminate]. injection H as <-. specialize (IH g eq_refl _ Hx). lia.
Qed.

Lemma filter_none {A} (p : A -> bool) l : (forall x, In x l -> p x = false) -> filter p l = [].
Proof. induction l; intros H; simpl; auto. rewrite H by (now left). apply IHl. intros. apply H. now right. Qed.
Lemma filter_all {A} (p : A -> bool) l : (forall x, In x l -> p x = true) -> filter p l = l.
Proof. induction l; intros H; simpl; auto. rewrite H by (now left). f_equal. apply IHl. intros. apply H. now right. Qed.

Lemma collect_ok lim (stop : Z -> bool) idx : (forall f, stop f = (lim <=? f)) ->
  forall fuel m acc, (length (filter (fun b : bool => b) m) < fuel)%nat ->
  0 <= idx -> idx + zlen m < 2 ^ 32 ->
  collect fuel m stop idx acc = Ret (acc ++ filter (fun p => p <? idx + lim) (trues_from idx m)).
Proof.
  intros Hs. induction fuel as [|fuel IH]; intros m acc F Hi Hb; [lia|]. cbn [collect].
  destruct (find_first_true m) as [f|] eqn:E.
  - pose proof (find_first_true_some m f E) as (A & B & C). rewrite Hs.
    destruct (Z.leb_spec lim f) as [L|L].
    + rewrite filter_none, app_nil_r; auto. intros x Hx. apply Z.ltb_ge. pose proof (clear_first_min m f x E _ Hx). lia.
    + pose proof (clear_first_count m f E). rewrite IH; [|lia|auto|unfold zlen in *; rewrite clear_first_length; auto].
      rewrite wrapu_id by (unfold in_u; lia). rewrite (trues_from_first idx m f E). cbn [filter].
      rewrite (proj2 (Z.ltb_lt _ _)) by lia. now rewrite <- app_assoc.
  - rewrite trues_from_none by auto. cbn. now rewrite app_nil_r.
Qed.

Definition eqs (ch : Z) (s : list Z) : list bool := map (fun b => b =? ch) s.

Lemma firstn_window_app (s : list Z) idx N : 0 <= idx -> 0 <= N -> firstn (Z.to_nat (idx + N)) s = firstn (Z.to_nat idx) s ++ window s idx N.
Proof. intros. rewrite Z2Nat.inj_add by lia. apply firstn_add. Qed.

Lemma char_positions_ok N s ch : 1 <= N -> zlen s + N < 2 ^ 32 ->
  char_positions N s ch = Ret (trues_from 0 (eqs ch s)).
Proof.
  intros HN Ls. unfold char_positions. cbv zeta. pose proof (zlen_nonneg s) as Hn. set (n := zlen s) in *.
  pose proof (blocks_bound n N HN Hn) as (B1 & B2 & B3).
  match goal with |- obind (simd_loop _ _ _ _ ?b _) _ = _ =>
    destruct (simd_loop_inv (fun idx acc => acc = trues_from 0 (eqs ch (firstn (Z.to_nat idx) s))) b n N []) as (acc & -> & G) end; auto.
  { intros idx acc Hi Hc D ->. rewrite loadU_ret by (fold n; lia). cbn [obind].
    pose proof (window_length s idx N Hi ltac:(lia) ltac:(fold n; lia)) as W. unfold zlen in W.
    eexists. split.
    - transitivity (collect (S (Z.to_nat N)) (map (fun b => b =? ch) (window s idx N)) (fun f => N <=? f) idx (trues_from 0 (eqs ch (firstn (Z.to_nat idx) s)))).
      + assert (Lm : zlen (map (fun b => b =? ch) (window s idx N)) <= N) by (unfold zlen; rewrite map_length; lia).
        revert Lm. generalize (map (fun b => b =? ch) (window s idx N)) (trues_from 0 (eqs ch (firstn (Z.to_nat idx) s))). generalize (S (Z.to_nat N)).
        induction n0; intros m acc Lm; [reflexivity|]. cbn [collect]. destruct (find_first_true m) as [f|] eqn:E; auto.
        apply find_first_true_some in E. rewrite (proj2 (Z.leb_gt N f)) by lia. apply IHn0. unfold zlen in *. now rewrite clear_first_length.
      + apply collect_ok with (lim := N); auto.
        * pose proof (count_le (map (fun b => b =? ch) (window s idx N))). rewrite map_length in H. lia.
        * unfold zlen. rewrite map_length. lia.
    - rewrite firstn_window_app by lia. unfold eqs at 2. rewrite map_app. fold (eqs ch (firstn (Z.to_nat idx) s)). rewrite trues_from_app. f_equal.
      assert (zlen (eqs ch (firstn (Z.to_nat idx) s)) = idx) as ->.
      { unfold zlen, eqs. rewrite map_length, firstn_length. unfold n, zlen in *. lia. }
      apply filter_all. intros x Hx. apply trues_from_range in Hx. apply Z.ltb_lt. unfold zlen in Hx. rewrite map_length in Hx. lia. }
  cbn [obind]. set (idx := N * (n / N)) in *. destruct (Z.eqb_spec idx n) as [E|NE].
  - rewrite G, E. unfold n, zlen. rewrite Nat2Z.id, firstn_all. reflexivity.
  - rewrite loadN_ret by (fold n; lia). cbn [obind].
    pose proof (window_length s idx (n - idx) ltac:(lia) ltac:(lia) ltac:(fold n; lia)) as W. unfold zlen in W.
    set (m := map _ _). assert (Lm : length m = Z.to_nat N) by (unfold m; rewrite map_length, app_length, repeat_length; lia).
    rewrite (collect_ok (n - idx)); auto; try lia.
    2:{ pose proof (count_le m). lia. }
    2:{ unfold zlen. lia. }
    f_equal. rewrite G. unfold m. rewrite map_app. fold (eqs ch (window s idx (n - idx))).
    rewrite trues_from_app, filter_app.
    assert (Le : zlen (eqs ch (window s idx (n - idx))) = n - idx) by (unfold zlen, eqs; rewrite map_length; lia).
    rewrite Le, filter_all, (filter_none _ (trues_from (idx + (n - idx)) _)), app_nil_r.
    + replace (eqs ch s) with (eqs ch (firstn (Z.to_nat idx) s) ++ eqs ch (window s idx (n - idx))).
      * rewrite trues_from_app. do 2 f_equal. unfold zlen, eqs. rewrite map_length, firstn_length. unfold n, zlen in *. lia.
      * unfold eqs. rewrite <- map_app, <- firstn_window_app by lia. f_equal. replace (idx + (n - idx)) with n by lia. unfold n, zlen. rewrite Nat2Z.id. apply firstn_all.
    + intros x Hx. apply trues_from_range in Hx. apply Z.ltb_ge. lia.
    + intros x Hx. apply trues_from_range in Hx. apply Z.ltb_lt. lia.
Qed.

(** Positions of the separators, given the fields. *)
Fixpoint pos_of (k off : Z) (fields : list (list Z)) : list Z :=
  match fields with
  | [] => []
  | f :: fs => match fs with [] => [] | _ => (off + zlen f) :: pos_of k (off + zlen f + k) fs end
  end.

Lemma splits_ne sep s fields : splits sep s fields -> fields <> [].
Proof. now intros []. Qed.

Lemma keep_app ss f : keep ss f = ss ++ non_empty [f].
Proof. destruct f; simpl; auto. now rewrite app_nil_r. Qed.

Lemma window_mid (pre f post : list Z) : window (pre ++ f ++ post) (zlen pre) (zlen f) = f.
Proof.
  unfold window, zlen. rewrite !Nat2Z.id, skipn_app, skipn_all, Nat.sub_diag. cbn [skipn app].
  rewrite firstn_app, firstn_all, Nat.sub_diag. cbn [firstn]. apply app_nil_r.
Qed.

Lemma zlen_app {A} (a b : list A) : zlen (a ++ b) = zlen a + zlen b.
Proof. unfold zlen. rewrite app_length. lia. Qed.

Lemma pieces_ok sep s fields : splits sep s fields -> forall pre ss, zlen (pre ++ s) < 2 ^ 64 ->
  pieces (pre ++ s) (zlen sep) (pos_of (zlen sep) (zlen pre) fields) (zlen pre) ss = Ret (ss ++ non_empty fields).
Proof.
  induction 1 as [s NO|f rest fields F H IH]; intros pre ss Hl.
  - cbn [pos_of pieces]. rewrite <- keep_app. rewrite zlen_app in *. pose proof (zlen_nonneg pre). pose proof (zlen_nonneg s).
    destruct (Z.ltb_spec (zlen pre) (zlen pre + zlen s)).
    + unfold substr. rewrite zlen_app, (proj2 (Z.ltb_ge _ _)) by lia. cbn [obind]. do 2 f_equal.
      rewrite Z.min_r by lia. replace (zlen pre + zlen s - zlen pre) with (zlen s) by lia.
      rewrite <- (app_nil_r s) at 1. apply window_mid.
    + assert (s = []) as -> by (unfold zlen in *; destruct s; auto; simpl in *; lia). reflexivity.
  - cbn [pos_of]. pose proof (splits_ne _ _ _ H) as NE. destruct fields as [|g fields]; [congruence|]. clear NE.
    cbn [pieces]. pose proof (zlen_nonneg f). pose proof (zlen_nonneg pre). pose proof (zlen_nonneg rest). pose proof (zlen_nonneg sep).
    assert (E : (if negb (zlen pre + zlen f =? zlen pre)
        then do! part <- substr (pre ++ f ++ sep ++ rest) (zlen pre) (wrapu 64 (zlen pre + zlen f - zlen pre)); Ret (keep ss part)
        else Ret ss) = Ret (ss ++ non_empty [f])).
    { rewrite !zlen_app in Hl. destruct (Z.eqb_spec (zlen pre + zlen f) (zlen pre)) as [E|NE]; cbn [negb].
      - assert (f = []) as -> by (unfold zlen in *; destruct f; auto; simpl in *; lia). simpl. now rewrite app_nil_r.
      - rewrite wrapu_id by (unfold in_u; lia). unfold substr. rewrite !zlen_app, (proj2 (Z.ltb_ge _ _)) by lia. cbn [obind].
        rewrite <- keep_app. do 2 f_equal. rewrite Z.min_l by lia. replace (zlen pre + zlen f - zlen pre) with (zlen f) by lia. apply window_mid. }
    rewrite E. cbn [obind]. specialize (IH (pre ++ f ++ sep) (ss ++ non_empty [f])).
    rewrite <- !app_assoc in IH. rewrite !zlen_app in IH. rewrite !zlen_app in Hl.
    rewrite !Z.add_assoc in IH. rewrite IH by lia. f_equal. unfold non_empty. now rewrite <- filter_app.
Qed.

(** The first separator character, if any. *)
Lemma first_char (ch : Z) (s : list Z) : (~ In ch s) \/ exists f rest, s = f ++ ch :: rest /\ ~ In ch f.
Proof.
  induction s as [|c s IH]; [now left|]. destruct (Z.eq_dec c ch) as [->|NE].
  - right. exists [], s. split; auto.
  - destruct IH as [IH|(f & rest & -> & IH)]; [left|right; exists (c :: f), rest; split; auto]; intros [->|X]; auto.
Qed.
Lemma trues_notin k (ch : Z) s : ~ In ch s -> trues_from k (eqs ch s) = [].
Proof.
  revert k. induction s as [|c s IH]; intros k H; cbn; auto. destruct (Z.eqb_spec c ch); [exfalso; apply H; now left|].
  apply IH. intros X. apply H. now right.
Qed.
Lemma char_fields ch : forall n s, (length s <= n)%nat -> forall off,
  exists fields, splits [ch] s fields /\ trues_from off (eqs ch s) = pos_of 1 off fields.
Proof.
  induction n as [|n IH]; intros s Hs off; destruct (first_char ch s) as [NI|(f & rest & -> & NI)].
  - exists [s]. split; [|now apply trues_notin]. constructor. intros i Oc. apply NI. apply occurs_char in Oc. destruct Oc as (Hi & <-). apply nth_In. unfold zlen in Hi. lia.
  - rewrite app_length in Hs. simpl in Hs. lia.
  - exists [s]. split; [|now apply trues_notin]. constructor. intros i Oc. apply NI. apply occurs_char in Oc. destruct Oc as (Hi & <-). apply nth_In. unfold zlen in Hi. lia.
  - rewrite app_length in Hs. cbn [length] in Hs. destruct (IH rest ltac:(lia) (off + zlen f + 1)) as (fields & S & T).
    exists (f :: fields). split.
    + change (ch :: rest) with ([ch] ++ rest). constructor; auto. right. split.
      * exists f, rest. auto.
      * intros i Oc. apply occurs_char in Oc. destruct Oc as (Hi & E). destruct (Z.lt_ge_cases i (Z.of_nat (length f))); auto.
        exfalso. apply NI. rewrite <- E. rewrite app_nth1 by lia. apply nth_In. lia.
    + unfold eqs. rewrite map_app, trues_from_app. fold (eqs ch f). rewrite trues_notin by auto. cbn [map trues_from app]. rewrite Z.eqb_refl.
      assert (zlen (eqs ch f) = zlen f) as -> by (unfold zlen, eqs; now rewrite map_length). fold (eqs ch rest). rewrite T.
      cbn [pos_of]. destruct fields; [now apply splits_ne in S|]. reflexivity.
Qed.

Lemma split_by_char_ok N s ch : 1 <= N -> zlen s + N < 2 ^ 32 ->
  exists fields, splits [ch] s fields /\ split_by_char N s ch = Ret (non_empty fields).
Proof.
  intros HN Ls. destruct (char_fields ch (length s) s (le_n _) 0) as (fields & S & T). exists fields. split; auto.
  unfold split_by_char. rewrite char_positions_ok by auto. cbn [obind]. rewrite T.
  change 1 with (zlen [ch]). change 0 with (zlen (@nil Z)). change s with ([] ++ s) at 1. rewrite (pieces_ok [ch]); auto. cbn [app]. pows. lia.
Qed.

Lemma string_positions_ok N sep : 1 <= N -> 2 <= zlen sep ->
  forall fuel data off acc, (length data < fuel)%nat -> 0 <= off -> off + zlen data < 2 ^ 31 ->
  (N = 1 \/ zlen sep <= 2 \/ zlen data < N + zlen sep - 1) ->
  exists fields, splits sep data fields /\ string_positions_loop fuel N data sep off acc = Ret (acc ++ pos_of (zlen sep) off fields).
Proof.
  intros HN HL. induction fuel as [|fuel IH]; intros data off acc F Ho Hb HC; [lia|]. cbn [string_positions_loop].
  destruct (find_string_ok N data sep) as (r & -> & [(-> & H)|(H & Hm)]); auto; try lia; cbn [obind].
  - exists [data]. split; [now constructor|]. cbn. now rewrite app_nil_r.
  - pose proof H as (f & rest & E & <-). rewrite (proj2 (Z.leb_le 0 _)) by lia. fold (zlen f). subst data.
    rewrite !zlen_app in Hb, HC. rewrite !app_length in F. pose proof (zlen_nonneg f). pose proof (zlen_nonneg rest).
    assert (E : skipn (Z.to_nat (zlen f + zlen sep)) (f ++ sep ++ rest) = rest).
    { rewrite app_assoc. replace (Z.to_nat (zlen f + zlen sep)) with (length (f ++ sep)) by (rewrite app_length; unfold zlen; lia).
      rewrite skipn_app, skipn_all, Nat.sub_diag. reflexivity. }
    rewrite E. rewrite !wrapu_id by (unfold in_u; pows; lia).
    destruct (IH rest (off + (zlen f + zlen sep)) (acc ++ [off + zlen f])) as (fields & S & T); try lia; [unfold zlen in HL; lia|].
    exists (f :: fields). split.
    + constructor; auto. right. auto.
    + rewrite T, <- app_assoc. cbn [pos_of]. destruct fields; [now apply splits_ne in S|]. cbn [app]. do 3 f_equal. f_equal. lia.
Qed.

Lemma split_by_string_ok N s sep : 1 <= N < 2 ^ 31 -> zlen s < 2 ^ 31 -> 1 <= zlen sep ->
  (N = 1 \/ zlen sep <= 2 \/ zlen s < N + zlen sep - 1) ->
  exists fields, splits sep s fields /\ split_by_string N s sep = Ret (non_empty fields).
Proof.
  intros HN Ls HL HC. unfold split_by_string, string_positions. destruct (Z.eqb_spec (zlen sep) 1) as [E|NE].
  - destruct sep as [|c [|]]; unfold zlen in E; cbn [length] in E; try lia. change (load [c] 0) with (Ret c). cbn [obind].
    apply (split_by_char_ok N s c); [lia|]. pows. lia.
  - destruct (string_positions_ok N sep ltac:(lia) ltac:(lia) (S (length s)) s 0 []) as (fields & S & ->); try lia; auto.
    exists fields. split; auto. cbn [obind app]. change 0 with (zlen (@nil Z)). change s with ([] ++ s) at 1.
    rewrite (pieces_ok sep); auto. cbn [app]. pows. lia.
Qed.

Lemma find_empty N s : find_string N s [] = UB.
Proof. unfold find_string. pose proof (zlen_nonneg s). change (zlen (@nil Z)) with 0. rewrite (proj2 (Z.ltb_ge _ _)) by lia. reflexivity. Qed.
Lemma split_empty N s : split_by_string N s [] = UB.
Proof. unfold split_by_string, string_positions. change (zlen (@nil Z)) with 0. cbn [Z.eqb]. cbn [string_positions_loop]. now rewrite find_empty. Qed.

(** ** Witnesses *)
Lemma occurs_middle p a b : occurs_at p (a ++ p ++ b) (zlen a).
Proof. exists a, b. auto. Qed.
(** "xabcyyyy..." *)
Lemma find_misses N : In N [16; 32; 64] -> exists s part, find_string N s part = Ret (-1) /\ occurs_at part s 1.
Proof.
  intros H. exists ([120] ++ [97; 98; 99] ++ repeat 121 (Z.to_nat N)), [97; 98; 99].
  split; [|apply occurs_middle]. simpl in H. repeat (destruct H as [<-|H]; [vm_compute; reflexivity|]). destruct H.
Qed.
(** "xbazcyyyy..." *)
Definition invent_text (N : Z) : list Z := [120; 98; 97; 122; 99] ++ repeat 121 (Z.to_nat N).
Lemma invent_absent N i : 0 <= N -> ~ occurs_at [97; 98; 99] (invent_text N) i.
Proof.
  intros HN O. apply occurs_at_window in O. destruct O as (H1 & H2 & E).
  pose proof (f_equal (fun l => nth 0 l 0) E) as X. pose proof (f_equal (fun l => nth 1 l 0) E) as Y. cbn [nth] in X, Y.
  change 0%nat with (Z.to_nat 0) in X. change 1%nat with (Z.to_nat 1) in Y. change (zlen [97; 98; 99]) with 3 in *.
  rewrite nth_window in X, Y by lia. unfold invent_text in *.
  assert (R : forall n k, nth k (repeat 121 n) 0 = 121 \/ nth k (repeat 121 n) 0 = 0) by (clear; induction n; intros [|k]; simpl; auto).
  rewrite Z.add_0_r in X. destruct (Z.lt_ge_cases i 5).
  - assert (i = 0 \/ i = 1 \/ i = 2 \/ i = 3 \/ i = 4) as C by lia. destruct C as [->|[->|[->|[->| ->]]]]; try discriminate X; discriminate Y.
  - rewrite app_nth2 in X by (simpl; lia). cbn [length] in X. destruct (R (Z.to_nat N) (Z.to_nat i - 5)%nat) as [Q|Q]; rewrite Q in X; discriminate X.
Qed.
Lemma find_invents N : In N [16; 32; 64] -> exists s part, find_string N s part = Ret 2 /\ forall i, ~ occurs_at part s i.
Proof.
  intros H. exists (invent_text N), [97; 98; 99]. split; [|intros i; apply invent_absent; simpl in H; lia].
  simpl in H. repeat (destruct H as [<-|H]; [vm_compute; reflexivity|]). destruct H.
Qed.
Lemma split_invents N : In N [16; 32; 64] -> exists s sep, (forall i, ~ occurs_at sep s i) /\ split_by_string N s sep <> Ret [s].
Proof.
  intros H. exists (invent_text N), [97; 98; 99]. split; [intros i; apply invent_absent; simpl in H; lia|].
  simpl in H. repeat (destruct H as [<-|H]; [vm_compute; discriminate|]). destruct H.
Qed.
Lemma find_char_first N s ch : 1 <= N -> zlen s < 2 ^ 31 -> exists r, find_char N s ch = Ret r /\ first_occurrence [ch] s r.
Proof.
  intros HN Ls. destruct (find_char_ok N s ch HN Ls) as (r & -> & F). exists r. split; auto. destruct F as [(-> & F)|(Hr & F & Fn)].
  - left. split; auto. intros i Oc. apply occurs_char in Oc. destruct Oc as (Hi & X). specialize (F i Hi). cbv beta in F. rewrite X, Z.eqb_refl in F. discriminate.
  - right. split; [apply occurs_char; split; [lia|now apply Z.eqb_eq]|]. intros i Oc. apply occurs_char in Oc. destruct Oc as (Hi & X).
    destruct (Z.lt_ge_cases i r); auto. specialize (Fn i ltac:(lia)). cbv beta in Fn. rewrite X, Z.eqb_refl in Fn. discriminate.
Qed.
Lemma splits_unique sep s f1 f2 : sep <> [] -> splits sep s f1 -> splits sep s f2 -> f1 = f2.
Proof.
  intros NE H. revert f2. induction H as [s NO|f rest fields F H IH]; intros f2 H2.
  - inversion H2; subst; auto. exfalso. apply (NO (Z.of_nat (length f))). apply (occurs_middle sep f rest).
  - inversion H2; subst.
    + exfalso. apply (H0 (zlen f)). apply occurs_middle.
    + destruct F as [(X & _)|(_ & F)]; [lia|]. destruct H1 as [(X & _)|(_ & F')]; [lia|].
      assert (E : length f0 = length f).
      { pose proof (F (zlen f0)). pose proof (F' (zlen f)). rewrite H0 in *. unfold zlen in *.
        assert (Z.of_nat (length f) <= Z.of_nat (length f0)) by (apply H1; rewrite <- H0; apply (occurs_middle sep f0 rest0)).
        assert (Z.of_nat (length f0) <= Z.of_nat (length f)) by (apply H4; apply (occurs_middle sep f rest)). lia. }
      assert (f0 = f /\ rest0 = rest) as [-> ->].
      { pose proof (f_equal (firstn (length f)) H0) as A. rewrite <- E in A at 1. rewrite !firstn_app, !firstn_all, !Nat.sub_diag in A. cbn [firstn] in A. rewrite !app_nil_r in A.
        subst f0. split; auto. apply app_inv_head in H0. now apply app_inv_head in H0. }
      f_equal. now apply IH.
Qed.
