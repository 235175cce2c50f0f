(** Proofs for C73: the loops. *)
From Coq Require Import List Bool Arith ZArith Reals Permutation Lia Lra Psatz.
Import ListNotations.
From Flocq Require Import Core BinarySingleNaN.
From Verif Require Import Base Distance_Model Distance_Spec Distance_Proofs.

Section Loops.
Variables prec emax : Z.
Context (prec_gt_0_ : Prec_gt_0 prec) (prec_lt_emax_ : Prec_lt_emax prec emax).
Notation F := (binary_float prec emax).
Notation fma := (fma prec emax prec_gt_0_ prec_lt_emax_).
Notation add := (add prec emax prec_gt_0_ prec_lt_emax_).
Notation mul := (mul prec emax prec_gt_0_ prec_lt_emax_).
Notation sub := (sub prec emax prec_gt_0_ prec_lt_emax_).
Notation zero := (zero prec emax).
Notation summed := (summed prec emax prec_gt_0_ prec_lt_emax_).
Notation dotted := (dotted prec emax prec_gt_0_ prec_lt_emax_).
Notation size := (size prec emax).
Notation mem := (mem prec emax).
Notation elements := (elements prec emax).
Notation readable := (readable prec emax).
Notation loadU := (loadU prec emax).
Notation loadN := (loadN prec emax).
Variable lanes : nat.
Hypothesis lanes_pos : 0 < lanes.
Notation blocks := (blocks prec emax lanes).
Notation all_blocks := (all_blocks prec emax lanes).

Definition pairs_of (b : list F * list F) : list (F * F) := combine (fst b) (snd b).
Definition full (b : list F * list F) : Prop := length (fst b) = lanes /\ length (snd b) = lanes.
Definition run {S} (step : S -> list F -> list F -> S) (bs : list (list F * list F)) (s : S) : S := fold_left (fun s b => step s (fst b) (snd b)) bs s.

Lemma loadU_ok m i : i + lanes <= length m -> loadU m i lanes = Ret (firstn lanes (skipn i m)).
Proof. intros H. unfold Distance_Model.loadU. destruct (Nat.leb_spec (i + lanes) (length m)); [reflexivity|lia]. Qed.
Lemma loadN_ok m i n : i + n <= length m -> loadN m i n lanes = Ret (firstn n (skipn i m) ++ repeat zero (lanes - n)).
Proof. intros H. unfold Distance_Model.loadN. destruct (Nat.leb_spec (i + n) (length m)); [reflexivity|lia]. Qed.

Lemma blocks_ok {S} (step : S -> list F -> list F -> S) l r n : n <= length l -> n <= length r -> forall fuel idx s, n <= idx + fuel -> idx <= n ->
  exists bs, blocks step l r n fuel idx s = Ret (idx + lanes * length bs, run step bs s)
    /\ idx + lanes * length bs <= n /\ n < idx + lanes * length bs + lanes /\ Forall full bs
    /\ concat (map pairs_of bs) = combine (firstn (lanes * length bs) (skipn idx l)) (firstn (lanes * length bs) (skipn idx r))
    /\ concat (map fst bs) = firstn (lanes * length bs) (skipn idx l).
Proof.
  intros Hl Hr. induction fuel as [|fuel IH]; intros idx s Hf Hi; cbn [Distance_Model.blocks].
  - destruct (Nat.leb_spec (idx + lanes) n) as [H|H]; [lia|]. exists []. cbn [length]. rewrite !Nat.mul_0_r, !Nat.add_0_r. cbn. split; [reflexivity|]. repeat split; try lia. constructor.
  - destruct (Nat.leb_spec (idx + lanes) n) as [H|H].
    + rewrite (loadU_ok l idx) by lia. rewrite (loadU_ok r idx) by lia. cbn [obind].
      destruct (IH (idx + lanes) (step s (firstn lanes (skipn idx l)) (firstn lanes (skipn idx r)))) as (bs & E & L1 & L2 & A & C & C1); [lia|exact H|].
      exists ((firstn lanes (skipn idx l), firstn lanes (skipn idx r)) :: bs). cbn [length map concat]. rewrite E.
      replace (lanes * Datatypes.S (length bs)) with (lanes + lanes * length bs) by lia. rewrite Nat.add_assoc. split; [reflexivity|]. split; [lia|]. split; [lia|]. split.
      { constructor; [|exact A]. split; cbn; rewrite firstn_length, skipn_length; lia. }
      assert (SK : forall m : list F, skipn (idx + lanes) m = skipn lanes (skipn idx m)).
      { intros m. clear. revert m. induction idx as [|i IHi]; intros m; cbn; [reflexivity|]. destruct m; cbn; [rewrite skipn_nil; reflexivity|]. apply IHi. }
      rewrite C, C1, !SK, !firstn_plus. split; [|reflexivity]. unfold pairs_of at 1. cbn [fst snd]. symmetry. apply combine_app. rewrite !firstn_length, !skipn_length. lia.
    + exists []. cbn [length]. rewrite !Nat.mul_0_r, !Nat.add_0_r. cbn. split; [reflexivity|]. repeat split; try lia. constructor.
Qed.
Lemma all_blocks_ok {S} (step : S -> list F -> list F -> S) l r s : readable l -> readable r -> size l = size r ->
  exists bs pad, pad <= lanes /\ all_blocks step l r s = Ret (run step bs s) /\ Forall full bs /\ lanes * length bs < size l + lanes
    /\ concat (map pairs_of bs) = combine (elements l) (elements r) ++ repeat (zero, zero) pad.
Proof.
  intros Rl Rr E. unfold Distance_Spec.readable in *. unfold Distance_Model.all_blocks, Distance_Spec.elements.
  destruct (blocks_ok step (mem l) (mem r) (size l) Rl ltac:(lia) (size l) 0 s ltac:(lia) ltac:(lia)) as (bs & EB & L1 & L2 & A & C & _).
  cbn [skipn] in C. rewrite Nat.add_0_l in *. rewrite EB. cbn [obind]. rewrite <- E. set (idx := lanes * length bs) in *.
  destruct (Nat.eqb_spec idx (size l)) as [e|ne].
  - exists bs, 0. split; [lia|]. split; [reflexivity|]. split; [exact A|]. split; [lia|]. rewrite C, e, app_nil_r. reflexivity.
  - rewrite (loadN_ok (mem l) idx) by lia. rewrite (loadN_ok (mem r) idx) by lia. cbn [obind].
    set (n := size l - idx). set (b := (firstn n (skipn idx (mem l)) ++ repeat zero (lanes - n), firstn n (skipn idx (mem r)) ++ repeat zero (lanes - n))).
    exists (bs ++ [b]), (lanes - n). split; [lia|]. unfold run. rewrite fold_left_app. split; [reflexivity|]. split.
    { apply Forall_app. split; [exact A|]. constructor; [|constructor]. split; cbn; rewrite app_length, firstn_length, skipn_length, repeat_length; subst n; lia. }
    split; [rewrite app_length; cbn [length]; fold idx; lia|].
    rewrite map_app, concat_app, C. cbn [map concat]. rewrite app_nil_r. unfold pairs_of. subst b. cbn [fst snd].
    rewrite combine_app by (rewrite !firstn_length, !skipn_length; lia). rewrite combine_repeat. rewrite app_assoc. f_equal.
    replace (size l) with (idx + n) by (subst n; lia). rewrite !firstn_plus. symmetry. apply combine_app. rewrite !firstn_length. lia.
Qed.

(** Columns of lanes *)
Variable mul_add : F -> F -> F -> F.
Hypothesis MA : mul_adds prec emax prec_gt_0_ prec_lt_emax_ mul_add.
Lemma mul_add_dotted d l x y z : dotted d l z -> dotted (S (S d)) ((x, y) :: l) (mul_add x y z).
Proof.
  intros H. destruct (MA x y z) as [ -> | -> ].
  - apply (dotted_mono _ _ _ _ (S d)); [|lia]. constructor. exact H.
  - change ((x, y) :: l) with ([(x, y)] ++ l). constructor; [constructor|]. apply (dotted_mono _ _ _ _ d); [exact H|lia].
Qed.
Definition mac (ps : list (F * F)) (acc : list F) : list F := lanes3 prec emax mul_add (map fst ps) (map snd ps) acc.
Definition columns (d : nat) (ps : list (F * F)) (acc : list F) : Prop :=
  exists cols, Forall2 (dotted d) cols acc /\ length acc = lanes /\ Permutation (concat cols) ps.
Lemma columns_zeros : columns 0 [] (zeros prec emax lanes).
Proof.
  exists (repeat [] lanes). unfold zeros. split; [|split].
  - clear. induction lanes; cbn; constructor; [constructor|assumption].
  - apply repeat_length.
  - clear. induction lanes as [|n IH]; cbn; [constructor|exact IH].
Qed.
Lemma columns_mac d ps qs acc : length qs = lanes -> columns d ps acc -> columns (S (S d)) (ps ++ qs) (mac qs acc).
Proof.
  intros Hq (cols & HF & Hl & HP).
  exists (map (fun p => fst p :: snd p) (combine qs cols)).
  assert (Hc : length cols = lanes) by (rewrite (F2len _ _ _ HF); exact Hl).
  split; [|split].
  - clear HP. revert cols acc HF Hl Hc. rewrite <- Hq. clear Hq. unfold mac, lanes3.
    induction qs as [|[x y] qs IH]; intros cols acc HF Hl Hc.
    + constructor.
    + destruct cols as [|c cols]; [discriminate|]. inversion HF as [|c' a cols' acc' Hca HF']; subst. cbn.
      constructor; [apply mul_add_dotted; exact Hca|]. apply IH; [exact HF'| |]; cbn in *; lia.
  - unfold mac, lanes3. rewrite map_length, !combine_length, !map_length. lia.
  - apply Permutation_trans with (qs ++ concat cols); [|apply Permutation_trans with (concat cols ++ qs); [apply Permutation_app_comm|apply Permutation_app_tail; exact HP]].
    clear HF HP. revert cols Hc. rewrite <- Hq. clear Hq. induction qs as [|q qs IH]; intros [|c cols] Hc; try discriminate; [constructor|].
    cbn. constructor. rewrite IH by (cbn in Hc; lia). rewrite app_assoc. rewrite (Permutation_app_comm c qs). rewrite <- app_assoc. reflexivity.
Qed.
(** Fold of a step on one accumulator, for a function of each pair of lanes *)
Lemma columns_run (h : F * F -> F * F) bs : Forall full bs -> forall d ps acc, columns d ps acc ->
  columns (d + 2 * length bs) (ps ++ map h (concat (map pairs_of bs))) (run (fun acc lv rv => mac (map h (combine lv rv)) acc) bs acc).
Proof.
  induction 1 as [|b bs [Hb1 Hb2] _ IH]; intros d ps acc H; cbn [run fold_left map concat length].
  - cbn. rewrite Nat.add_0_r, app_nil_r. exact H.
  - rewrite map_app, app_assoc. replace (d + 2 * S (length bs)) with (S (S d) + 2 * length bs) by lia. apply IH. unfold pairs_of.
    apply columns_mac; [rewrite map_length, combine_length; lia|exact H].
Qed.
Variable reduce_sum : list F -> F.
Hypothesis RS : reduces prec emax prec_gt_0_ prec_lt_emax_ lanes reduce_sum.
Lemma columns_reduce d ps acc : columns d ps acc -> dotted (lanes + d) ps (reduce_sum acc).
Proof.
  intros (cols & HF & Hl & HP). apply (d_perm _ _ _ _ _ (concat cols) ps _ HP). exact (dotted_sum _ _ _ _ _ _ _ (RS acc Hl) _ _ HF).
Qed.

Notation depth := (depth lanes).
Lemma depth_le n k : lanes * k < n + lanes -> lanes + (0 + 2 * k) <= depth n.
Proof. intros H. unfold Distance_Spec.depth. assert (k <= n / lanes + 1); [|lia]. assert (k - 1 <= n / lanes); [|lia]. apply Nat.div_le_lower_bound; [lia|]. destruct k; [lia|]. rewrite Nat.sub_succ, Nat.sub_0_r. lia. Qed.

Definition diff (p : F * F) : F * F := (Babs (sub (fst p) (snd p)), Babs (sub (fst p) (snd p))).
Lemma mac_self {A} (f : A -> F) ps acc : lanes3 prec emax mul_add (map f ps) (map f ps) acc = mac (map (fun p => (f p, f p)) ps) acc.
Proof. unfold mac. rewrite !map_map. reflexivity. Qed.
Lemma map_fst_combine (a b : list F) : length a = length b -> map fst (combine a b) = a.
Proof. revert b. induction a as [|x a IH]; intros [|y b] H; cbn in *; try discriminate; [reflexivity|]. rewrite IH by lia. reflexivity. Qed.
Lemma map_snd_combine (a b : list F) : length a = length b -> map snd (combine a b) = b.
Proof. revert b. induction a as [|x a IH]; intros [|y b] H; cbn in *; try discriminate; [reflexivity|]. rewrite IH by lia. reflexivity. Qed.
Lemma run_ext {S} (f g : S -> list F -> list F -> S) bs : Forall full bs -> (forall s lv rv, length lv = lanes -> length rv = lanes -> f s lv rv = g s lv rv) -> forall s, run f bs s = run g bs s.
Proof. intros H E. induction H as [|b bs [H1 H2] _ IH]; intros s; cbn; [reflexivity|]. rewrite E by assumption. apply IH. Qed.

Lemma l2_run l r : readable l -> readable r -> size l = size r ->
  exists x pad, pad <= lanes /\ all_blocks (l2_step prec emax prec_gt_0_ prec_lt_emax_ mul_add) l r (zeros prec emax lanes) = Ret x
    /\ dotted (depth (size l)) (map diff (combine (elements l) (elements r) ++ repeat (zero, zero) pad)) (reduce_sum x).
Proof.
  intros Rl Rr E.
  destruct (all_blocks_ok (l2_step prec emax prec_gt_0_ prec_lt_emax_ mul_add) l r (zeros prec emax lanes) Rl Rr E) as (bs & pad & PL & EB & A & L & C).
  eexists. exists pad. split; [exact PL|]. split; [exact EB|].
  rewrite (run_ext _ (fun acc lv rv => mac (map diff (combine lv rv)) acc) bs A).
  - apply (dotted_mono _ _ _ _ (lanes + (0 + 2 * length bs))); [|apply depth_le; exact L].
    apply columns_reduce. rewrite <- C. exact (columns_run diff bs A 0 [] _ columns_zeros).
  - intros s lv rv H1 H2. unfold l2_step, lanes2. rewrite map_map. rewrite mac_self. reflexivity.
Qed.
Definition fst2 (p : F * F) : F * F := (fst p, fst p).
Definition snd2 (p : F * F) : F * F := (snd p, snd p).
Lemma cos_run l r : readable l -> readable r -> size l = size r ->
  exists a b c pad, pad <= lanes /\ all_blocks (cos_step prec emax mul_add) l r (zeros prec emax lanes, zeros prec emax lanes, zeros prec emax lanes) = Ret (a, b, c)
    /\ dotted (depth (size l)) (combine (elements l) (elements r) ++ repeat (zero, zero) pad) (reduce_sum a)
    /\ dotted (depth (size l)) (map fst2 (combine (elements l) (elements r) ++ repeat (zero, zero) pad)) (reduce_sum b)
    /\ dotted (depth (size l)) (map snd2 (combine (elements l) (elements r) ++ repeat (zero, zero) pad)) (reduce_sum c).
Proof.
  intros Rl Rr E.
  destruct (all_blocks_ok (cos_step prec emax mul_add) l r (zeros prec emax lanes, zeros prec emax lanes, zeros prec emax lanes) Rl Rr E) as (bs & pad & PL & EB & A & L & C).
  set (z := zeros prec emax lanes) in *.
  assert (T : forall a b c, run (cos_step prec emax mul_add) bs (a, b, c)
    = (run (fun acc lv rv => mac (map (fun p => p) (combine lv rv)) acc) bs a, run (fun acc lv rv => mac (map fst2 (combine lv rv)) acc) bs b,
       run (fun acc lv rv => mac (map snd2 (combine lv rv)) acc) bs c)).
  { clear - A lanes_pos. induction A as [|[lv rv] bs [H1 H2] _ IH]; intros a b c; cbn; [reflexivity|]. cbn in H1, H2.
    match goal with |- _ = (fold_left _ _ ?p, fold_left _ _ ?q, fold_left _ _ ?s) => specialize (IH p q s) end.
    unfold run in IH. rewrite <- IH. f_equal. unfold mac. rewrite !map_map. cbn. rewrite map_fst_combine, map_snd_combine by lia. reflexivity. }
  rewrite T in EB. eexists. eexists. eexists. exists pad. split; [exact PL|]. split; [exact EB|].
  repeat split; apply (dotted_mono _ _ _ _ (lanes + (0 + 2 * length bs))); try (apply depth_le; exact L); apply columns_reduce; rewrite <- C.
  - rewrite <- (map_id (concat (map pairs_of bs))). exact (columns_run (fun p => p) bs A 0 [] _ columns_zeros).
  - exact (columns_run fst2 bs A 0 [] _ columns_zeros).
  - exact (columns_run snd2 bs A 0 [] _ columns_zeros).
Qed.

(** The sum *)
Lemma sum_rest_ok m : forall n i d l s, i + n <= length m -> summed d l s ->
  exists x, sum_rest prec emax prec_gt_0_ prec_lt_emax_ m n i s = Ret x /\ summed (d + n) (l ++ firstn n (skipn i m)) x.
Proof.
  induction n as [|n IH]; intros i d l s H HS; cbn [sum_rest].
  - exists s. rewrite Nat.add_0_r. cbn. rewrite app_nil_r. split; [reflexivity|exact HS].
  - destruct (nth_error m i) as [x|] eqn:N; [|apply nth_error_None in N; lia].
    destruct (IH (i + 1) (S d) (l ++ [x]) (add s x)) as (y & EY & SY); [lia|constructor; [exact HS|constructor]|].
    exists y. split; [exact EY|]. replace (d + S n) with (S d + n) by lia.
    replace (firstn (S n) (skipn i m)) with (x :: firstn n (skipn (i + 1) m)); [rewrite <- app_assoc in SY; exact SY|].
    clear - N. revert m N. induction i as [|i IHi]; intros [|y m] N; cbn in N; try discriminate; cbn; [congruence|]. exact (IHi m N).
Qed.
Lemma run_sum bs : Forall full bs -> forall d l s, lanes <= d -> summed d l s ->
  summed (d + length bs) (l ++ concat (map fst bs)) (run (fun sum lv _ => add sum (reduce_sum lv)) bs s).
Proof.
  induction 1 as [|b bs [H1 H2] _ IH]; intros d l s Hd HS; cbn [map concat length run fold_left].
  - rewrite app_nil_r, Nat.add_0_r. exact HS.
  - rewrite app_assoc. replace (d + S (length bs)) with (S d + length bs) by lia. apply IH; [lia|]. constructor; [exact HS|].
    apply (summed_mono _ _ _ _ lanes); [apply RS; exact H1|exact Hd].
Qed.
Lemma fsum_run v : readable v ->
  exists x, vector_fsum prec emax prec_gt_0_ prec_lt_emax_ lanes reduce_sum v = Ret x /\ summed (lanes + size v / lanes + size v mod lanes) (zero :: elements v) x.
Proof.
  intros R. unfold vector_fsum, Distance_Spec.readable in *.
  destruct (blocks_ok (fun sum lv _ => add sum (reduce_sum lv)) (mem v) (mem v) (size v) R R (size v) 0 zero ltac:(lia) ltac:(lia)) as (bs & EB & L1 & L2 & A & _ & C).
  rewrite Nat.add_0_l in *. rewrite EB. cbn [obind]. cbn [skipn] in C.
  assert (Q : size v / lanes = length bs) by (symmetry; apply (Nat.div_unique _ _ _ (size v - lanes * length bs)); lia).
  assert (M : size v mod lanes = size v - lanes * length bs) by (symmetry; apply (Nat.mod_unique _ _ (length bs)); lia).
  pose proof (run_sum bs A lanes [zero] zero ltac:(lia) (s_one _ _ _ _ lanes zero)) as HS.
  destruct (sum_rest_ok (mem v) (size v - lanes * length bs) (lanes * length bs) _ _ _ ltac:(lia) HS) as (x & EX & SX).
  exists x. split; [exact EX|]. rewrite Q, M. rewrite C in SX. rewrite <- app_assoc in SX. rewrite <- firstn_plus in SX.
  replace (lanes * length bs + (size v - lanes * length bs)) with (size v) in SX by lia. exact SX.
Qed.
End Loops.
