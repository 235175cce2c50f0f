From Coq Require Import List ZArith Lia Znumtheory.
Import ListNotations.
From Verif Require Import Base Arena_Model Arena_Spec.
Open Scope Z_scope.

Lemma pow2_cases A : 0 < A -> (A | 16) -> exists k, 0 <= k <= 4 /\ A = 2 ^ k.
Proof.
  intros H0 Hd. assert (A <= 16) by (apply Z.divide_pos_le; [lia|auto]). destruct Hd as [q Hq].
  assert (A = 1 \/ A = 2 \/ A = 3 \/ A = 4 \/ A = 5 \/ A = 6 \/ A = 7 \/ A = 8 \/ A = 9 \/ A = 10 \/ A = 11 \/
    A = 12 \/ A = 13 \/ A = 14 \/ A = 15 \/ A = 16) as HC by lia.
  repeat (destruct HC as [->|HC]; [first [exists 0; split; [lia|reflexivity] | exists 1; split; [lia|reflexivity]
    | exists 2; split; [lia|reflexivity] | exists 3; split; [lia|reflexivity] | lia]|]).
  exists 4; split; [lia|]. subst. reflexivity.
Qed.

Lemma land_mask k x : 0 <= k <= 4 -> 0 <= x < 2 ^ 64 ->
  Z.land x (wrapu 64 (- 2 ^ k)) = x / 2 ^ k * 2 ^ k.
Proof.
  intros Hk Hx. unfold wrapu.
  assert (E : Z.land x ((- 2 ^ k) mod 2 ^ 64) = Z.land x (- 2 ^ k)).
  { rewrite <- (Z.land_ones (- 2 ^ k) 64) by lia.
    rewrite (Z.land_comm (- 2 ^ k)). rewrite Z.land_assoc.
    rewrite (Z.land_ones x 64) by lia. rewrite Z.mod_small by lia. reflexivity. }
  rewrite E. assert (- 2 ^ k = Z.lnot (Z.ones k)) as ->.
  { rewrite Z.ones_equiv. unfold Z.lnot. lia. }
  rewrite <- Z.ldiff_land. rewrite Z.ldiff_ones_r by lia.
  rewrite Z.shiftr_div_pow2, Z.shiftl_mul_pow2 by lia. reflexivity.
Qed.

Section P.
Variable cf : config.
Hypothesis Hcf : config_ok cf.
Let A := maxAlign cf.
Let M := minBlockSize cf.

Lemma A_pos : 0 < A. Proof. apply Hcf. Qed.
Lemma A_16 : (A | 16). Proof. apply Hcf. Qed.
Lemma A_le : A <= 16. Proof. apply Z.divide_pos_le; [lia|apply A_16]. Qed.
Lemma M_range : 0 <= M /\ M + 16 < 2 ^ 64. Proof. unfold M. destruct Hcf as (?&?&?&?&?). auto. Qed.

Lemma roundUp_spec n n' : 0 < n < 2 ^ 64 -> roundUp cf n = Some n' ->
  n' = ceil_to A n /\ n <= n' < 2 ^ 64 /\ (A | n').
Proof.
  intros Hn. unfold roundUp. fold A. destruct (Z.ltb_spec (SIZE_MAX - (A - 1)) n); [discriminate|].
  intros E; inversion E; clear E. unfold SIZE_MAX in *.
  destruct (pow2_cases A A_pos A_16) as [k [Hk EA]].
  pose proof A_pos. pose proof A_le.
  rewrite (wrapu_id 64 (n + (A - 1))) by (unfold in_u; lia).
  replace (Z.lnot (A - 1)) with (- 2 ^ k) by (unfold Z.lnot; lia).
  rewrite land_mask by lia. rewrite <- EA. unfold ceil_to.
  replace (n + A - 1) with (n + (A - 1)) by lia.
  pose proof (Z.div_mod (n + (A - 1)) A). pose proof (Z.mod_pos_bound (n + (A - 1)) A).
  split; [reflexivity|]. split; [nia|]. exists ((n + (A - 1)) / A). reflexivity.
Qed.

Lemma align_id x : 0 <= x -> x + 16 <= 2 ^ 64 -> (A | x) -> align cf x = x.
Proof.
  intros H0 H1 [q ->]. unfold align. fold A. pose proof A_pos. pose proof A_le.
  destruct (pow2_cases A A_pos A_16) as [k [Hk EA]].
  rewrite wrapu_id by (unfold in_u; lia). rewrite EA at 3. rewrite land_mask by lia. rewrite <- EA.
  replace (q * A + A - 1) with (q * A + (A - 1)) by lia.
  rewrite Z.div_add_l by lia. rewrite (Z.div_small (A - 1)) by lia. lia.
Qed.

Lemma bgas : blockGoodAllocSize cf = M + 16.
Proof. unfold blockGoodAllocSize, sizeof_Block. fold M. pose proof M_range. rewrite wrapu_id; unfold in_u; lia. Qed.

Definition good (r : region) : Prop := 0 < fst r /\ fst r + snd r < 2 ^ 64 /\ (16 | fst r) /\ 16 <= snd r.

Definition located (a : arena) (r : region) : Prop :=
  (exists i j b, currentBlock a = Some i /\ nth_error (blocks a) j = Some (b, M + 16) /\ b + 16 <= fst r /\
     ((j < i)%nat /\ fst r + snd r <= b + 16 + M \/ j = i /\ fst r + snd r <= ptr a)) \/
  (exists lb, In lb (largeBlocks a) /\ fst lb + 16 <= fst r /\ fst r + snd r <= fst lb + snd lb).

Record Inv (a : arena) (live : list region) : Prop := {
  I_good : Forall good (owned a);
  I_disj : pairwise_disjoint (owned a);
  I_blocks : Forall (fun b => snd b = M + 16) (blocks a);
  I_cur : match currentBlock a with
          | None => blocks a = [] /\ ptr a = 0 /\ end_ a = 0
          | Some i => exists b, nth_error (blocks a) i = Some (b, M + 16) /\ b + 16 <= ptr a /\
              ptr a <= end_ a /\ end_ a = b + 16 + M /\ (A | ptr a)
          end;
  I_live : pairwise_disjoint live;
  I_loc : Forall (fun r => (A | fst r) /\ 0 < snd r /\ located a r) live
}.

Lemma disjoint_sym r s : disjoint r s -> disjoint s r.
Proof. unfold disjoint. tauto. Qed.

Lemma disjoint_inside r s r' s' : inside r' r -> inside s' s -> disjoint r s -> disjoint r' s'.
Proof. unfold disjoint, inside. lia. Qed.

Lemma FOP_app l1 l2 : pairwise_disjoint (l1 ++ l2) ->
  pairwise_disjoint l1 /\ pairwise_disjoint l2 /\ forall x y, In x l1 -> In y l2 -> disjoint x y.
Proof.
  unfold pairwise_disjoint. induction l1 as [|a l1 IH]; simpl; intros H.
  - split; [constructor|]. split; auto. intros ? ? [].
  - inversion H as [|? ? HF HP]; subst. destruct (IH HP) as (H1&H2&H3).
    rewrite Forall_app in HF. destruct HF as [HF1 HF2]. split; [constructor; auto|]. split; auto.
    intros x y [->|Hx] Hy; auto. rewrite Forall_forall in HF2. auto.
Qed.

Lemma FOP_app_intro l1 l2 : pairwise_disjoint l1 -> pairwise_disjoint l2 ->
  (forall x y, In x l1 -> In y l2 -> disjoint x y) -> pairwise_disjoint (l1 ++ l2).
Proof.
  unfold pairwise_disjoint. induction l1 as [|a l1 IH]; simpl; intros H1 H2 H; auto.
  inversion H1; subst. constructor.
  - apply Forall_app. split; auto. apply Forall_forall. intros y Hy. apply H; auto.
  - apply IH; auto.
Qed.

Lemma FOP_nth l i j r s : pairwise_disjoint l -> nth_error l i = Some r -> nth_error l j = Some s -> i <> j -> disjoint r s.
Proof.
  unfold pairwise_disjoint. revert i j. induction l as [|a l IH]; intros i j H Hi Hj Hne.
  - destruct i; discriminate.
  - inversion H as [|? ? HF HP]; subst. rewrite Forall_forall in HF.
    destruct i, j; simpl in *; try congruence.
    + inversion Hi; subst. apply HF. eapply nth_error_In; eauto.
    + inversion Hj; subst. apply disjoint_sym. apply HF. eapply nth_error_In; eauto.
    + eapply IH; eauto.
Qed.

Lemma FOP_snoc l x : pairwise_disjoint l -> Forall (disjoint x) l -> pairwise_disjoint (l ++ [x]).
Proof.
  intros H HF. apply FOP_app_intro; auto.
  - constructor; constructor.
  - intros y z Hy [->|[]]. rewrite Forall_forall in HF. apply disjoint_sym. auto.
Qed.

Lemma FOP_insert l1 l2 x : pairwise_disjoint (l1 ++ l2) -> Forall (disjoint x) (l1 ++ l2) -> pairwise_disjoint ((l1 ++ [x]) ++ l2).
Proof.
  intros H HF. destruct (FOP_app _ _ H) as (H1&H2&H3). apply Forall_app in HF. destruct HF as [HF1 HF2].
  apply FOP_app_intro; auto.
  - apply FOP_snoc; auto.
  - intros y z Hy Hz. apply in_app_or in Hy. destruct Hy as [Hy|[<-|[]]]; auto.
    rewrite Forall_forall in HF2. auto.
Qed.

Lemma located_owned a live r : Inv a live -> In r live -> exists o, In o (owned a) /\ inside r o.
Proof.
  intros HI Hin. pose proof (I_loc _ _ HI) as HL. rewrite Forall_forall in HL.
  destruct (HL r Hin) as (HA & Hpos & HLoc).
  unfold owned, inside. destruct HLoc as [(i&j&b&E1&E2&H1&H2)|(lb&Hlb&H1&H2)].
  - exists (b, M + 16). split; [apply in_or_app; left; eapply nth_error_In; eauto|]. simpl.
    destruct H2 as [[_ H2]|[-> H2]]; [lia|].
    pose proof (I_cur _ _ HI) as HC. rewrite E1 in HC. destruct HC as (b'&E'&HC).
    rewrite E2 in E'. inversion E'; subst. lia.
  - exists lb. split; [apply in_or_app; auto|]. lia.
Qed.

(** bytes of [r] lie in the current block at or above ptr: disjoint from everything live *)
Lemma fresh_in_current a live i b p n :
  Inv a live -> nth_error (blocks a) i = Some (b, M + 16) ->
  (exists c, currentBlock a = Some c /\ ((c < i)%nat \/ c = i /\ ptr a <= p)) ->
  b + 16 <= p -> p + n <= b + 16 + M -> Forall (disjoint (p, n)) live.
Proof.
  intros HI En (c&Ec&Hc) Hlo Hhi. apply Forall_forall. intros r Hin.
  pose proof (I_loc _ _ HI) as HL. rewrite Forall_forall in HL. destruct (HL r Hin) as (_&_&HLoc).
  destruct (FOP_app _ _ (I_disj _ _ HI)) as (Hb&Hl&Hbl).
  destruct HLoc as [(i'&j&b'&E1&E2&H1&H2)|(lb&Hlb&H1&H2)].
  - rewrite Ec in E1. inversion E1; subst i'.
    destruct (Nat.eq_dec j i) as [->|Hne].
    + rewrite En in E2. inversion E2; subst b'. unfold disjoint. simpl. right.
      destruct Hc as [Hc|[-> Hc]]; destruct H2 as [[H2 H3]|[H2 H3]]; lia.
    + pose proof (FOP_nth _ _ _ _ _ Hb En E2 (not_eq_sym Hne)) as HD. unfold disjoint in *. simpl in *.
      pose proof (I_cur _ _ HI) as HC. rewrite Ec in HC. destruct HC as (bc&Ebc&HC).
      destruct H2 as [[H2 H3]|[H2 H3]]; [lia|]. subst j. rewrite E2 in Ebc. inversion Ebc; subst. lia.
  - assert (HD : disjoint (b, M + 16) lb) by (apply Hbl; auto; eapply nth_error_In; eauto).
    unfold disjoint in *. simpl in *. lia.
Qed.

Lemma located_same_blocks a a' r : blocks a' = blocks a -> largeBlocks a' = largeBlocks a ->
  currentBlock a' = currentBlock a -> ptr a <= ptr a' -> located a r -> located a' r.
Proof.
  intros E1 E2 E3 Hp [(i&j&b&H1&H2&H3&H4)|(lb&H)].
  - left. exists i, j, b. rewrite E3, E1. repeat split; auto. destruct H4 as [|[]]; [auto|right; split; [auto|lia]].
  - right. exists lb. rewrite E2. auto.
Qed.

Lemma Inv_add_used a live n : Inv a live -> Inv (add_used a n) live.
Proof. intros []. constructor; simpl; auto. Qed.

Lemma block_good a live i b : Inv a live -> nth_error (blocks a) i = Some b -> good b.
Proof.
  intros HI E. pose proof (I_good _ _ HI) as HG. rewrite Forall_forall in HG. apply HG.
  apply in_or_app. left. eapply nth_error_In; eauto.
Qed.

Lemma div_start b : (16 | b) -> (A | b + 16).
Proof. intros. apply Z.divide_trans with 16; [apply A_16|]. apply Z.divide_add_r; auto. apply Z.divide_refl. Qed.

Lemma start_wrap b s : good (b, s) -> block_start b = b + 16 /\ align cf (b + 16) = b + 16 \/ s < 32.
Proof.
  intros (H1&H2&H3&H4). simpl in *. destruct (Z_lt_dec s 32); [auto|left].
  unfold block_start, sizeof_Block. rewrite wrapu_id by (unfold in_u; lia). split; auto.
  apply align_id; [lia|lia|]. apply div_start; auto.
Qed.

Lemma allocate_inv a live n mem a' res :
  Inv a live -> 0 < n < 2 ^ 64 -> system_answer_ok a mem ->
  allocate cf a n mem = (a', res) ->
  match res with
  | Ret p => Inv a' ((p, ceil_to A n) :: live) /\ n <= ceil_to A n
  | Err => Inv a' live
  | _ => False
  end.
Proof.
  intros HI0 Hn Hsys. unfold allocate. destruct (roundUp cf n) as [sz|] eqn:ER.
  2:{ intros E; inversion E; subst. auto. }
  destruct (roundUp_spec n sz Hn ER) as (Esz&Hsz&HAsz). rewrite <- Esz in *. clear Esz ER.
  pose proof (Inv_add_used a live sz HI0) as HI. remember (add_used a sz) as a1 eqn:Ea1.
  assert (Ho : owned a1 = owned a) by (subst; reflexivity).
  assert (HsysA : system_answer_ok a1 mem) by (unfold system_answer_ok in *; rewrite Ho; auto).
  clear HI0 Ea1 Ho Hsys a. rename a1 into a, HsysA into Hsys.
  pose proof (I_cur _ _ HI) as HC. pose proof M_range as HM. pose proof A_pos as HA0. pose proof A_le as HAle.
  destruct (Z.leb_spec sz (wrapu 64 (end_ a - ptr a))) as [Hfast|Hslow].
  - (* fast path *)
    intros E; inversion E; subst; clear E. split; [|lia].
    destruct (currentBlock a) as [i|] eqn:Ec.
    2:{ destruct HC as (_&E1&E2). rewrite E1, E2 in Hfast. change (wrapu 64 (0-0)) with 0 in Hfast. lia. }
    destruct HC as (b&Eb&H1&H2&H3&H4). pose proof (block_good _ _ _ _ HI Eb) as (G1&G2&G3&G4). simpl in *.
    rewrite wrapu_id in Hfast by (unfold in_u; lia).
    assert (Ew : wrapu 64 (ptr a + sz) = ptr a + sz) by (apply wrapu_id; unfold in_u; lia).
    rewrite Ew. constructor; simpl.
    + apply I_good with (1 := HI).
    + apply I_disj with (1 := HI).
    + apply I_blocks with (1 := HI).
    + exists b. repeat split; auto; try lia. apply Z.divide_add_r; auto.
    + constructor; [|apply I_live with (1 := HI)].
      apply (fresh_in_current a live i b); auto; try lia. exists i. split; auto. right; split; auto; lia.
    + constructor.
      * simpl. repeat split; auto; try lia. left. exists i, i, b. simpl. repeat split; auto. right; split; auto; lia.
      * eapply Forall_impl; [|apply I_loc with (1 := HI)]. intros r (R1&R2&R3). repeat split; auto.
        eapply located_same_blocks; [..|exact R3]; simpl; auto. lia.
  - destruct (canReuseExistingBlock cf a sz) eqn:EReuse.
    + (* reuse the next block *)
      unfold canReuseExistingBlock in EReuse. fold M in EReuse.
      destruct (Z.ltb_spec M sz) as [|HszM]; [discriminate|].
      destruct (currentBlock a) as [i|] eqn:Ec; [|discriminate].
      apply Nat.ltb_lt in EReuse.
      destruct (nth_error (blocks a) (S i)) as [[b s]|] eqn:Eb.
      2:{ apply nth_error_None in Eb. lia. }
      assert (s = M + 16) as ->.
      { pose proof (I_blocks _ _ HI) as HB. rewrite Forall_forall in HB.
        apply (HB (b, s)). eapply nth_error_In; eauto. }
      pose proof (block_good _ _ _ _ HI Eb) as G.
      destruct (Z.leb_spec 1 0); [lia|].
      assert (HM16 : sz > 0) by lia.
      destruct G as (G1&G2&G3&G4). simpl in G1, G2, G3, G4.
      assert (HM1 : 1 <= M) by lia.
      assert (Est : block_start b = b + 16).
      { unfold block_start, sizeof_Block. apply wrapu_id. unfold in_u. lia. }
      rewrite Est, bgas. unfold sizeof_Block.
      assert (Eal : align cf (b + 16) = b + 16).
      { destruct (Z_le_dec (b + 16 + 16) (2 ^ 64)) as [Hlt|Hge].
        - apply align_id; [lia|lia|apply div_start; auto].
        - exfalso. assert (b + 32 >= 2 ^ 64) by lia. destruct G3 as [q ->].
          change (2 ^ 64) with (16 * 1152921504606846976) in *. lia. }
      rewrite Eal. intros E; inversion E; subst; clear E. split; [|lia].
      rewrite (wrapu_id 64 (b + 16 + sz)) by (unfold in_u; lia).
      rewrite (wrapu_id 64 (b + 16 + (M + 16) - 16)) by (unfold in_u; lia).
      constructor; simpl.
      * apply I_good with (1 := HI).
      * apply I_disj with (1 := HI).
      * apply I_blocks with (1 := HI).
      * exists b. repeat split; auto; try lia. apply Z.divide_add_r; auto. apply div_start; auto.
      * constructor; [|apply I_live with (1 := HI)].
        apply (fresh_in_current a live (S i) b); auto; try lia. exists i. split; auto.
      * constructor.
        -- simpl. repeat split; auto; try lia. apply div_start; auto.
           left. exists (S i), (S i), b. simpl. repeat split; auto; try lia; right; split; auto; lia.
        -- eapply Forall_impl; [|apply I_loc with (1 := HI)]. intros r (R1&R2&R3). repeat split; auto.
           destruct R3 as [(i'&j&b'&H1&H2&H3&H4)|(lb&HR)]; [|right; exists lb; auto].
           left. rewrite Ec in H1. inversion H1; subst i'. exists (S i), j, b'. simpl. repeat split; auto.
           left. destruct HC as (bc&Ebc&C1&C2&C3&C4).
           destruct H4 as [[H4 H5]|[-> H5]]; [lia|]. rewrite H2 in Ebc. inversion Ebc; subst. lia.
    + (* allocateSlow *)
      assert (Hreuse : forall i, sz <= M -> currentBlock a = Some i -> length (blocks a) = S i).
      { intros i HszM Ec. unfold canReuseExistingBlock in EReuse. fold M in EReuse. rewrite Ec in *.
        destruct (Z.ltb_spec M sz); [lia|]. apply Nat.ltb_ge in EReuse.
        destruct HC as (b&Eb&_). assert (i < length (blocks a))%nat by (apply nth_error_Some; congruence). lia. }
      unfold allocateSlow. fold M. unfold sizeof_Block, SIZE_MAX.
      destruct (Z.ltb_spec (2 ^ 64 - 1 - 16) (Z.max sz M)) as [|Hmax].
      { intros E; inversion E; subst. auto. }
      match goal with |- context [if ?c then (a, Err) else _] => destruct c end.
      { intros E; inversion E; subst. auto. }
      destruct (Z.ltb_spec M sz) as [HszM|HszM].
      * (* large block *)
        unfold sizeof_LargeBlock. rewrite wrapu_id by (unfold in_u; lia).
        destruct (mem (16 + sz)) as [b|] eqn:Em; [|intros E; inversion E; subst; auto].
        destruct (Hsys (16 + sz) b) as (S1&S2&S3&S4); [lia|auto|].
        assert (Est : block_start b = b + 16).
        { unfold block_start, sizeof_Block. apply wrapu_id. unfold in_u. lia. }
        rewrite Est.
        assert (Eal : align cf (b + 16) = b + 16).
        { destruct (Z_le_dec (b + 16 + 16) (2 ^ 64)) as [Hlt|Hge].
          - apply align_id; [lia|lia|apply div_start; auto].
          - exfalso. destruct S2 as [q ->]. change (2 ^ 64) with (16 * 1152921504606846976) in *. lia. }
        rewrite Eal. intros E; inversion E; subst; clear E. split; [|lia].
        constructor; simpl.
        -- unfold owned. simpl. rewrite app_assoc. apply Forall_app. split; [apply I_good with (1 := HI)|].
           constructor; [|constructor]. unfold good. simpl. repeat split; auto; lia.
        -- unfold owned. simpl. rewrite app_assoc. apply FOP_snoc; auto. apply I_disj with (1 := HI).
        -- apply I_blocks with (1 := HI).
        -- auto.
        -- constructor; [|apply I_live with (1 := HI)]. apply Forall_forall. intros r Hr.
           destruct (located_owned a live r HI Hr) as (o&Ho&Hin).
           rewrite Forall_forall in S4. specialize (S4 o Ho).
           apply disjoint_inside with (r := (b, 16 + sz)) (s := o); auto. unfold inside. simpl. lia.
        -- constructor.
           ++ simpl. repeat split; [apply div_start; auto|lia|]. right. exists (b, 16 + sz). simpl.
              repeat split; try lia. apply in_or_app. simpl. auto.
           ++ eapply Forall_impl; [|apply I_loc with (1 := HI)]. intros r (R1&R2&R3). repeat split; auto.
              destruct R3 as [HR|(lb&HR&HR2)]; [left; auto|right; exists lb; simpl; split; auto].
              apply in_or_app; auto.
      * (* new normal block *)
        rewrite bgas.
        destruct (mem (M + 16)) as [b|] eqn:Em; [|intros E; inversion E; subst; auto].
        destruct (Hsys (M + 16) b) as (S1&S2&S3&S4); [lia|auto|].
        assert (Est : block_start b = b + 16).
        { unfold block_start, sizeof_Block. apply wrapu_id. unfold in_u. lia. }
        rewrite Est.
        assert (Eal : align cf (b + 16) = b + 16).
        { destruct (Z_le_dec (b + 16 + 16) (2 ^ 64)) as [Hlt|Hge].
          - apply align_id; [lia|lia|apply div_start; auto].
          - exfalso. destruct S2 as [q ->]. change (2 ^ 64) with (16 * 1152921504606846976) in *. lia. }
        rewrite Eal. intros E; inversion E; subst; clear E. split; [|lia].
        rewrite (wrapu_id 64 (b + 16 + sz)) by (unfold in_u; lia).
        rewrite (wrapu_id 64 (b + 16 + (M + 16) - 16)) by (unfold in_u; lia).
        assert (En : nth_error (blocks a ++ [(b, M + 16)]) (length (blocks a)) = Some (b, M + 16)).
        { rewrite nth_error_app2 by lia. rewrite Nat.sub_diag. reflexivity. }
        assert (HFD : Forall (disjoint (b + 16, sz)) live).
        { apply Forall_forall. intros r Hr.
          destruct (located_owned a live r HI Hr) as (o&Ho&Hin).
          rewrite Forall_forall in S4. specialize (S4 o Ho).
          apply disjoint_inside with (r := (b, M + 16)) (s := o); auto. unfold inside. simpl. lia. }
        constructor; simpl.
        -- unfold owned. simpl. pose proof (I_good _ _ HI) as HG. unfold owned in HG. apply Forall_app in HG. destruct HG.
           rewrite <- app_assoc. apply Forall_app. split; auto. simpl. constructor; auto.
           unfold good. simpl. repeat split; auto; lia.
        -- unfold owned. simpl. apply FOP_insert; auto. apply I_disj with (1 := HI).
        -- apply Forall_app. split; [apply I_blocks with (1 := HI)|]. constructor; auto.
        -- exists b. repeat split; auto; try lia. apply Z.divide_add_r; auto. apply div_start; auto.
        -- constructor; auto. apply I_live with (1 := HI).
        -- constructor.
           ++ simpl. repeat split; [apply div_start; auto|lia|]. left. exists (length (blocks a)), (length (blocks a)), b.
              simpl. repeat split; auto; try lia; right; split; auto; lia.
           ++ eapply Forall_impl; [|apply I_loc with (1 := HI)]. intros r (R1&R2&R3). repeat split; auto.
              destruct R3 as [(i'&j&b'&H1&H2&H3&H4)|HR]; [|right; auto].
              left. exists (length (blocks a)), j, b'. simpl. repeat split; auto.
              { rewrite nth_error_app1; auto. apply nth_error_Some. congruence. }
              left. assert (j < length (blocks a))%nat by (apply nth_error_Some; congruence).
              split; auto. pose proof (Hreuse i' HszM H1). rewrite H1 in HC.
              destruct HC as (bc&Ebc&C1&C2&C3&C4).
              destruct H4 as [[H4 H5]|[-> H5]]; [lia|]. rewrite H2 in Ebc. inversion Ebc; subst. lia.
Qed.

Lemma fold_sub_large l : forall t, fold_left (fun t (lb : region) => wrapu 64 (t - snd lb)) l (wrapu 64 t) = wrapu 64 (t - total l).
Proof.
  induction l as [|x l IH]; intros t; simpl.
  - f_equal. lia.
  - assert (wrapu 64 (wrapu 64 t - snd x) = wrapu 64 (t - snd x)) as ->.
    { unfold wrapu. rewrite Zminus_mod_idemp_l. reflexivity. }
    rewrite IH. f_equal. lia.
Qed.

Lemma clear_inv a live : Inv a live -> Inv (clear cf a) [].
Proof.
  intros HI. unfold clear. simpl. pose proof M_range.
  destruct (blocks a) as [|[b s] bs] eqn:Eb.
  - assert (currentBlock a = None /\ ptr a = 0 /\ end_ a = 0) as (E1&E2&E3).
    { pose proof (I_cur _ _ HI) as HC. destruct (currentBlock a) as [i|]; [|tauto].
      destruct HC as (b&En&_). rewrite Eb in En. destruct i; discriminate. }
    constructor; simpl; try constructor. rewrite E1. auto.
  - pose proof (I_good _ _ HI) as HG. unfold owned in HG. rewrite Eb in HG. 
    destruct (FOP_app _ _ (I_disj _ _ HI)) as (Hb&_&_). rewrite Eb in Hb.
    apply Forall_app in HG. destruct HG as [HG _].
    pose proof (I_blocks _ _ HI) as HB. rewrite Eb in HB. inversion HB as [|? ? Es HB']; subst. simpl in Es. subst s.
    inversion HG as [|? ? (G1&G2&G3&G4) HG']; subst. simpl in *.
    assert (Est : block_start b = b + 16).
    { unfold block_start, sizeof_Block. apply wrapu_id. unfold in_u. lia. }
    rewrite Est. 
    assert (Eal : align cf (b + 16) = b + 16).
    { destruct (Z_le_dec (b + 16 + 16) (2 ^ 64)) as [Hlt|Hge].
      - apply align_id; [lia|lia|apply div_start; auto].
      - exfalso. destruct G3 as [q ->]. change (2 ^ 64) with (16 * 1152921504606846976) in *. lia. }
    rewrite Eal, bgas. unfold sizeof_Block. rewrite wrapu_id by (unfold in_u; lia).
    constructor; simpl.
    + unfold owned. simpl. rewrite app_nil_r. constructor; auto. unfold good; simpl; auto.
    + unfold owned. simpl. rewrite app_nil_r. auto.
    + constructor; auto.
    + exists b. repeat split; auto; try lia. apply div_start; auto.
    + constructor.
    + constructor.
Qed.

(** Live regions with rounded lengths. *)
Definition rounded (live : list region) : list region := map (fun r => (fst r, ceil_to A (snd r))) live.

Lemma history_inv a live : history cf a live ->
  Inv a (rounded live) /\ Forall (fun r => 0 < snd r <= ceil_to A (snd r)) live.
Proof.
  induction 1 as [|a live o a' res Hh [IH IHs] Hok Hst].
  - split; [|constructor]. constructor; simpl; auto; constructor.
  - destruct o as [n mem|]; simpl in *.
    + destruct Hok as [Hn Hsys]. pose proof (allocate_inv a (rounded live) n mem a' res IH Hn Hsys Hst) as HI.
      destruct res; try contradiction; [|auto]. destruct HI as [HI Hle]. split; auto.
      constructor; auto. simpl. lia.
    + inversion Hst; subst. split; [|constructor]. eapply clear_inv; eauto.
Qed.

Lemma history_no_ub a live o a' res : history cf a live -> op_ok a o ->
  arena_step cf a o = (a', res) -> res = Err \/ exists p, res = Ret p.
Proof.
  intros Hh Hok Hst. destruct (history_inv _ _ Hh) as [HI _]. destruct o as [n mem|]; simpl in *.
  - destruct Hok as [Hn Hsys]. pose proof (allocate_inv a (rounded live) n mem a' res HI Hn Hsys Hst) as H.
    destruct res; try contradiction; eauto.
  - inversion Hst; eauto.
Qed.

Lemma pd_shrink live : Forall (fun r => 0 < snd r <= ceil_to A (snd r)) live ->
  pairwise_disjoint (rounded live) -> pairwise_disjoint live.
Proof.
  unfold pairwise_disjoint. induction live as [|r live IH]; simpl; intros HF HP; [constructor|].
  inversion HF; subst. inversion HP as [|? ? HD HP']; subst. constructor; auto.
  rewrite Forall_forall in *. intros s Hs.
  specialize (HD (fst s, ceil_to A (snd s))). 
  assert (In (fst s, ceil_to A (snd s)) (rounded live)) as Hin.
  { unfold rounded. apply in_map_iff. exists s. auto. }
  specialize (HD Hin). specialize (H2 s Hs). unfold disjoint in *. simpl in *. lia.
Qed.

Lemma arena_safe a live : history cf a live ->
  pairwise_disjoint live /\
  Forall (fun r => (maxAlign cf | fst r) /\ exists o, In o (owned a) /\ inside r o) live.
Proof.
  intros Hh. destruct (history_inv _ _ Hh) as [HI HF]. split.
  - apply pd_shrink; auto. apply I_live with (1 := HI).
  - rewrite Forall_forall in *. intros r Hr. specialize (HF r Hr).
    assert (Hin : In (fst r, ceil_to A (snd r)) (rounded live)).
    { unfold rounded. apply in_map_iff. exists r. auto. }
    pose proof (I_loc _ _ HI) as HL. rewrite Forall_forall in HL. destruct (HL _ Hin) as (H1&_&_). split; auto.
    destruct (located_owned _ _ _ HI Hin) as (o&Ho&H2). exists o. split; auto. unfold inside in *. simpl in *. lia.
Qed.

Lemma arena_owned_disjoint a live : history cf a live -> pairwise_disjoint (owned a).
Proof. intros Hh. destruct (history_inv _ _ Hh) as [HI HF]. apply I_disj with (1 := HI). Qed.

(** Disjoint regions of an interval add up to at most its length. *)
Lemma total_app l1 l2 : total (l1 ++ l2) = total l1 + total l2.
Proof. induction l1; simpl; lia. Qed.

Lemma total_filter_split (f : region -> bool) l : total l = total (filter f l) + total (filter (fun x => negb (f x)) l).
Proof. induction l as [|x l IH]; simpl; [lia|]. destruct (f x); simpl; lia. Qed.

Lemma FOP_filter (f : region -> bool) l : pairwise_disjoint l -> pairwise_disjoint (filter f l).
Proof.
  unfold pairwise_disjoint. induction l as [|x l IH]; simpl; intros H; auto. inversion H; subst.
  destruct (f x); auto. constructor; auto. rewrite Forall_forall in *. intros y Hy. apply H2.
  apply filter_In in Hy. tauto.
Qed.

Lemma filter_length_le (f : region -> bool) l : (length (filter f l) <= length l)%nat.
Proof. induction l as [|x l IH]; simpl; auto. destruct (f x); simpl; lia. Qed.

Lemma disjoint_total n : forall l lo hi, (length l <= n)%nat -> lo <= hi -> pairwise_disjoint l ->
  Forall (fun r => lo <= fst r /\ 0 < snd r /\ fst r + snd r <= hi) l -> total l <= hi - lo.
Proof.
  induction n as [|n IH]; intros l lo hi Hlen Hle HP HF.
  - destruct l; simpl in *; [simpl; lia|lia].
  - destruct l as [|x l]; [simpl; lia|]. simpl in Hlen. inversion HP as [|? ? HD HP']; subst.
    inversion HF as [|? ? Hx HF']; subst. simpl.
    set (f := fun y : region => fst y + snd y <=? fst x).
    rewrite (total_filter_split f l).
    assert (total (filter f l) <= fst x - lo).
    { apply IH; [|lia|apply FOP_filter; auto|].
      - pose proof (filter_length_le f l). lia.
      - rewrite Forall_forall in *. intros y Hy. apply filter_In in Hy. destruct Hy as [Hy Hf].
        unfold f in Hf. apply Z.leb_le in Hf. specialize (HF' y Hy). lia. }
    assert (total (filter (fun y => negb (f y)) l) <= hi - (fst x + snd x)).
    { apply IH; [|lia|apply FOP_filter; auto|].
      - pose proof (filter_length_le (fun y => negb (f y)) l). lia.
      - rewrite Forall_forall in *. intros y Hy. apply filter_In in Hy. destruct Hy as [Hy Hf].
        unfold f in Hf. apply Bool.negb_true_iff in Hf. apply Z.leb_gt in Hf. specialize (HF' y Hy).
        specialize (HD y Hy). unfold disjoint in HD. lia. }
    lia.
Qed.

Lemma total_wrap a live : history cf a live -> totalAllocatedSize a = wrapu 64 (total (owned a)).
Proof.
  induction 1 as [|a live o a' res Hh IH Hok Hst]; [reflexivity|].
  assert (E : forall x y, wrapu 64 (wrapu 64 x + y) = wrapu 64 (x + y)).
  { intros. unfold wrapu. rewrite Zplus_mod_idemp_l. reflexivity. }
  destruct o as [n mem|]; simpl in Hst.
  - unfold allocate in Hst. destruct (roundUp cf n) as [sz|]; [|inversion Hst; subst; auto].
    destruct (sz <=? _); [inversion Hst; subst; auto|].
    destruct (canReuseExistingBlock _ _ _).
    + destruct (currentBlock _); [|inversion Hst; subst; auto].
      destruct (nth_error _ _) as [[b s]|]; inversion Hst; subst; auto.
    + unfold allocateSlow in Hst. destruct (_ <? _) in Hst; [inversion Hst; subst; auto|].
      match type of Hst with context [if ?c then (_, Err) else _] => destruct c end; [inversion Hst; subst; auto|].
      destruct (_ <? _) in Hst.
      * destruct (mem _) as [b|]; inversion Hst; subst; auto. unfold owned in *. simpl.
        rewrite IH, E. f_equal. rewrite !total_app. simpl. lia.
      * destruct (mem _) as [b|]; inversion Hst; subst; auto. unfold owned in *. simpl.
        rewrite IH, E. f_equal. rewrite !total_app. simpl. lia.
  - inversion Hst; subst. clear Hst.
    assert (HF : totalAllocatedSize (freeLargeBlocks a) = wrapu 64 (total (blocks a))).
    { simpl. rewrite IH, fold_sub_large. unfold owned. rewrite total_app. f_equal. lia. }
    unfold clear. destruct (blocks (freeLargeBlocks a)) as [|[b s] bs] eqn:Eb; simpl in Eb; unfold owned; simpl in *; rewrite HF, Eb.
    + reflexivity.
    + simpl. rewrite app_nil_r. reflexivity.
Qed.

Lemma total_exact a live : history cf a live -> totalAllocatedSize a = total (owned a).
Proof.
  intros Hh. rewrite (total_wrap _ _ Hh). destruct (history_inv _ _ Hh) as [HI _].
  apply wrapu_id. split.
  - pose proof (I_good _ _ HI) as HG. induction HG as [|x l (G1&G2&G3&G4) _ IH]; simpl; [lia|]. simpl in IH. lia.
  - pose proof (I_good _ _ HI) as HG. pose proof (I_disj _ _ HI) as HD.
    assert (total (owned a) <= 2 ^ 64 - 1).
    { apply (disjoint_total (length (owned a)) (owned a) 1 (2 ^ 64)); auto; [lia|].
      eapply Forall_impl; [|exact HG]. intros r (G1&G2&G3&G4). lia. }
    lia.
Qed.

Lemma total_le_limit a live : history cf a live -> sizeLimit cf <> 0 -> totalAllocatedSize a <= sizeLimit cf.
Proof.
  intros Hh HL. assert (H0 : forall a live, history cf a live -> 0 <= totalAllocatedSize a).
  { intros x y Hx. rewrite (total_wrap _ _ Hx). apply wrapu_range. lia. }
  destruct Hcf as (_&_&C1&C2&C3).
  induction Hh as [|a live o a' res Hh IH Hok Hst]; [simpl; lia|].
  specialize (H0 a live Hh). destruct o as [n mem|].
  - simpl in Hst. unfold allocate in Hst. destruct (roundUp cf n) as [sz|] eqn:ER; [|inversion Hst; subst; auto].
    destruct (sz <=? _); [inversion Hst; subst; auto|].
    destruct (canReuseExistingBlock _ _ _).
    + destruct (currentBlock _); [|inversion Hst; subst; auto].
      destruct (nth_error _ _) as [[b s]|]; inversion Hst; subst; auto.
    + unfold allocateSlow in Hst. unfold sizeof_Block, sizeof_LargeBlock, SIZE_MAX in Hst.
      destruct (Z.ltb_spec (2^64 - 1 - 16) (Z.max sz (minBlockSize cf))); [inversion Hst; subst; auto|].
      destruct (sizeLimit cf =? 0) eqn:E0; [apply Z.eqb_eq in E0; lia|]. simpl in Hst.
      rewrite (wrapu_id 64 (sizeLimit cf - totalAllocatedSize a)) in Hst by (unfold in_u; lia).
      destruct (Z.ltb_spec (sizeLimit cf - totalAllocatedSize a) (Z.max sz (minBlockSize cf) + 16)); [inversion Hst; subst; auto|].
      destruct (roundUp_spec n sz) as (_&Hsz&_); [apply Hok|auto|].
      destruct (Z.ltb_spec (minBlockSize cf) sz).
      * rewrite (wrapu_id 64 (16 + sz)) in Hst by (unfold in_u; lia).
        destruct (mem _) as [b|]; inversion Hst; subst; auto. simpl.
        rewrite wrapu_id by (unfold in_u; lia). lia.
      * rewrite bgas in Hst. unfold M in Hst.
        destruct (mem _) as [b|]; inversion Hst; subst; auto. simpl.
        rewrite wrapu_id by (unfold in_u; lia). lia.
  - assert (Hh' : history cf a' []).
    { change (@nil region) with (live_after Reset res live). econstructor; eauto. }
    rewrite (total_exact _ _ Hh'). rewrite (total_exact _ _ Hh) in IH.
    destruct (history_inv _ _ Hh) as [HI _]. pose proof (I_good _ _ HI) as HG.
    simpl in Hst. inversion Hst; subst. unfold owned in *.
    assert (blocks (clear cf a) = blocks a) as Eb.
    { unfold clear. destruct (blocks (freeLargeBlocks a)) as [|[b s] bs] eqn:E; simpl in *; auto. }
    assert (largeBlocks (clear cf a) = []) as El.
    { unfold clear. destruct (blocks (freeLargeBlocks a)) as [|[b s] bs]; simpl; auto. }
    rewrite Eb, El, app_nil_r. rewrite total_app in IH. apply Forall_app in HG. destruct HG as [_ HG].
    assert (0 <= total (largeBlocks a)).
    { clear -HG. induction HG as [|x l (G1&G2&G3&G4) _ IHl]; simpl; lia. }
    lia.
Qed.

Lemma history_ok_history a live : history_ok cf a live -> history cf a live.
Proof. induction 1; econstructor; eauto. Qed.

Lemma ceil_bounds n : 0 < n -> n <= ceil_to A n.
Proof.
  intros. unfold ceil_to. pose proof A_pos. pose proof (Z.div_mod (n + A - 1) A). pose proof (Z.mod_pos_bound (n + A - 1) A). nia.
Qed.

Lemma used_wrap a live : history_ok cf a live -> bytesUsed a = wrapu 64 (total_rounded A live).
Proof.
  induction 1 as [|a live o a' p Hh IH Hok Hst]; [reflexivity|].
  assert (E : forall x y, wrapu 64 (wrapu 64 x + y) = wrapu 64 (x + y)).
  { intros. unfold wrapu. rewrite Zplus_mod_idemp_l. reflexivity. }
  destruct o as [n mem|]; simpl in Hst.
  - unfold allocate in Hst. destruct (roundUp cf n) as [sz|] eqn:ER; [|inversion Hst].
    destruct (roundUp_spec n sz) as (Esz&_&_); [apply Hok|auto|].
    assert (EU : bytesUsed (add_used a sz) = wrapu 64 (total_rounded A ((p, n) :: live))).
    { simpl. rewrite IH, E, Esz. f_equal. lia. }
    remember (add_used a sz) as a1. clear Heqa1. simpl live_after. rewrite <- EU.
    destruct (sz <=? _); [inversion Hst; subst; auto|].
    destruct (canReuseExistingBlock _ _ _).
    + destruct (currentBlock _); [|inversion Hst; subst; auto].
      destruct (nth_error _ _) as [[b s]|]; inversion Hst; subst; auto.
    + unfold allocateSlow in Hst. destruct (_ <? _) in Hst; [inversion Hst; subst; auto|].
      match type of Hst with context [if ?c then (_, Err) else _] => destruct c end; [inversion Hst; subst; auto|].
      destruct (_ <? _) in Hst; destruct (mem _) as [b|]; inversion Hst; subst; auto.
  - inversion Hst; subst. unfold clear. destruct (blocks (freeLargeBlocks a)) as [|[b s] bs]; simpl; reflexivity.
Qed.

Lemma total_rounded_eq live : total_rounded A live = total (rounded live).
Proof. induction live; simpl; [reflexivity|]. rewrite <- IHlive. reflexivity. Qed.

Lemma used_exact a live : history_ok cf a live -> bytesUsed a = total_rounded A live.
Proof.
  intros Hh. rewrite (used_wrap _ _ Hh). pose proof (history_ok_history _ _ Hh) as Hh'.
  destruct (history_inv _ _ Hh') as [HI HF]. rewrite total_rounded_eq. apply wrapu_id.
  assert (Forall (fun r => 1 <= fst r /\ 0 < snd r /\ fst r + snd r <= 2 ^ 64) (rounded live)) as HR.
  { apply Forall_forall. intros r Hr. destruct (located_owned _ _ _ HI Hr) as (o&Ho&Hin).
    pose proof (I_good _ _ HI) as HG. rewrite Forall_forall in HG. destruct (HG o Ho) as (G1&G2&_).
    pose proof (I_loc _ _ HI) as HL. rewrite Forall_forall in HL. destruct (HL r Hr) as (_&L1&_).
    unfold inside in Hin. lia. }
  split.
  - clear -HR. induction HR as [|x l G _ IHl]; simpl; lia.
  - assert (total (rounded live) <= 2 ^ 64 - 1).
    { apply (disjoint_total (length (rounded live)) (rounded live) 1 (2 ^ 64)); auto; [lia|]. apply I_live with (1 := HI). }
    lia.
Qed.
End P.

(** Witnesses. *)
Definition over_aligned : config := {| minBlockSize := 4096; sizeLimit := 0; maxAlign := 64 |}.

Lemma over_aligned_escapes :
  exists a live r, history over_aligned a live /\ In r live /\ forall o, In o (owned a) -> ~ inside r o.
Proof.
  set (mem := fun n : Z => if n =? 4112 then Some 4112 else None).
  exists (fst (arena_step over_aligned arena_new (Allocate 4096 mem))).
  exists [(4160, 4096)], (4160, 4096).
  split; [|split; [left; reflexivity|]].
  - change [(4160, 4096)] with (live_after (Allocate 4096 mem) (Ret 4160) []).
    econstructor; [apply h_new| |vm_compute; reflexivity].
    split; [lia|]. intros n b Hn E. unfold mem in E. destruct (Z.eqb_spec n 4112); [|discriminate].
    inversion E; subst. split; [lia|]. split; [exists 257; reflexivity|]. split; [lia|constructor].
  - simpl. intros o [<-|[]]. unfold inside. simpl. vm_compute. intros [_ H]. apply H. reflexivity.
Qed.

Lemma failed_request_counted :
  exists o a', arena_step default_config arena_new o = (a', Err) /\ op_ok arena_new o /\ bytesUsed a' <> 0.
Proof.
  exists (Allocate 100 (fun _ => None)). eexists. split; [vm_compute; reflexivity|]. split.
  - simpl. split; [lia|]. intros n b _ E. discriminate.
  - vm_compute. discriminate.
Qed.

Lemma default_config_ok : config_ok default_config.
Proof.
  unfold config_ok, default_config, sizeof_Block. simpl. repeat split; try lia. exists 1. reflexivity.
Qed.

Lemma history_example :
  exists a, history default_config a [(8224, 5000); (4160, 1000); (4112, 40)].
Proof.
  set (m1 := fun n : Z => if n =? 4096 then Some 4096 else None).
  set (m2 := fun n : Z => if n =? 5024 then Some 8208 else None).
  set (s1 := arena_step default_config arena_new (Allocate 40 m1)).
  set (s2 := arena_step default_config (fst s1) (Allocate 1000 (fun _ => None))).
  set (s3 := arena_step default_config (fst s2) (Allocate 5000 m2)).
  exists (fst s3).
  change [(8224, 5000); (4160, 1000); (4112, 40)]
    with (live_after (Allocate 5000 m2) (Ret 8224) (live_after (Allocate 1000 (fun _ => None)) (Ret 4160)
          (live_after (Allocate 40 m1) (Ret 4112) []))).
  eapply h_step with (a := fst s2); [eapply h_step with (a := fst s1); [eapply h_step with (a := arena_new); [apply h_new| |]| |]| |].
  - split; [lia|]. intros n b Hn E. unfold m1 in E. destruct (Z.eqb_spec n 4096); [|discriminate].
    inversion E; subst. split; [lia|]. split; [exists 256; reflexivity|]. split; [lia|constructor].
  - vm_compute. reflexivity.
  - split; [lia|]. intros n b Hn E. discriminate.
  - vm_compute. reflexivity.
  - split; [lia|]. intros n b Hn E. unfold m2 in E. destruct (Z.eqb_spec n 5024); [|discriminate].
    inversion E; subst. split; [lia|]. split; [exists 513; reflexivity|]. split; [lia|].
    constructor; [|constructor]. right. vm_compute. discriminate.
  - vm_compute. reflexivity.
Qed.
