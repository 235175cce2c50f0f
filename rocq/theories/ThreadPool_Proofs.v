From Coq Require Import List ZArith Lia Permutation Bool Arith.
Import ListNotations.
From Verif Require Import Base ThreadPool_Model ThreadPool_Spec.
Open Scope Z_scope.

Lemma interval_split a b c : a <= b <= c -> interval a c = interval a b ++ interval b c.
Proof.
  intros H. unfold interval.
  replace (Z.to_nat (c - a)) with (Z.to_nat (b - a) + Z.to_nat (c - b))%nat by lia.
  rewrite seq_app, map_app. f_equal. simpl.
  replace (Z.to_nat (b - a)) with (Z.to_nat (b - a) + 0)%nat at 1 by lia.
  generalize (Z.to_nat (c - b)) as n. generalize 0%nat as s. intros s n. revert s.
  induction n as [|n IH]; intros s; simpl; auto. f_equal; [lia|].
  specialize (IH (S s)). rewrite <- IH. f_equal. f_equal. lia.
Qed.

Lemma interval_nil a : interval a a = [].
Proof. unfold interval. replace (a - a) with 0 by lia. reflexivity. Qed.

Section Loop.
Variables (end_ mt rem : Z).
Hypothesis Hmt : 0 <= mt.
Hypothesis Hend : end_ < 2 ^ 64.

(** tasks still to distribute when [n] workers remain, from index [thread] on *)
Definition need (n : nat) (thread : Z) : Z := mt * Z.of_nat n + Z.max 0 (Z.min (rem - thread) (Z.of_nat n)).

Lemma plan_loop_spec n : forall thread task, 0 <= task -> end_ - task = need n thread ->
  let rs := plan_loop n thread task end_ mt rem in
  concat (map (fun r => interval (fst r) (snd r)) rs) = interval task end_ /\
  Z.of_nat (length rs) = Z.min (Z.of_nat n) (end_ - task) /\
  Forall (fun r => fst r < snd r /\ mt <= snd r - fst r <= mt + 1) rs.
Proof.
  induction n as [|n IH]; intros thread task H0 HN; simpl.
  - unfold need in HN. assert (end_ = task) by lia. subst. rewrite interval_nil. repeat split; auto. simpl. lia.
  - unfold need in HN. destruct (Z.leb_spec end_ task) as [Hle|Hlt].
    + simpl. assert (end_ = task) by nia. subst. rewrite interval_nil. repeat split; auto. simpl. lia.
    + set (x := if thread <? rem then 1 else 0).
      assert (Hx : task + mt + x <= end_ /\ 0 <= x <= 1 /\ end_ - (task + mt + x) = need n (thread + 1) /\ 0 < mt + x).
      { unfold x, need. destruct (Z.ltb_spec thread rem); repeat split; try nia. }
      destruct Hx as (Hx1&Hx2&Hx3&Hx4). rewrite wrapu_id by (unfold in_u; lia).
      destruct (IH (thread + 1) (task + mt + x)) as (I1&I2&I3); [lia|auto|].
      simpl. rewrite I1. repeat split.
      * symmetry. apply interval_split. lia.
      * cbn [length]. rewrite !Nat2Z.inj_succ, I2, Hx3. unfold need.
        destruct (Z.eq_dec mt 0) as [->|Hm]; [lia|].
        assert (Z.of_nat n <= mt * Z.of_nat n) by nia. lia.
      * constructor; auto. simpl. lia.
Qed.
End Loop.

Lemma plan_covers b e nw : 0 <= b <= e -> e < 2 ^ 64 -> 0 <= nw ->
  plan_indices (plan b e nw) = interval b e.
Proof.
  intros H1 H2 H3. unfold plan. rewrite wrapu_id by (unfold in_u; lia).
  destruct (Z.eqb_spec (e - b) 0).
  - simpl. replace e with b by lia. symmetry. apply interval_nil.
  - destruct (Z.leb_spec nw 1); [reflexivity|]. simpl.
    apply plan_loop_spec; auto; try lia.
    + apply Z.div_pos; lia.
    + unfold need. pose proof (Z.div_mod (e - b) nw). pose proof (Z.mod_pos_bound (e - b) nw).
      rewrite Z2Nat.id by lia. nia.
Qed.

Lemma plan_shape b e nw : 0 <= b <= e -> e < 2 ^ 64 -> 1 < nw ->
  let rs := ranges_of (plan b e nw) in
  Z.of_nat (length rs) = Z.min nw (e - b) /\
  Forall (fun r => fst r < snd r /\ (e - b) / nw <= snd r - fst r <= (e - b) / nw + 1) rs.
Proof.
  intros H1 H2 H3. unfold plan. rewrite wrapu_id by (unfold in_u; lia).
  destruct (Z.eqb_spec (e - b) 0).
  - simpl. split; [lia|constructor].
  - destruct (Z.leb_spec nw 1); [lia|]. simpl.
    destruct (plan_loop_spec e ((e - b) / nw) ((e - b) mod nw)) with (n := Z.to_nat nw) (thread := 0) (task := b) as (I1&I2&I3); auto; try lia.
    + apply Z.div_pos; lia.
    + unfold need. pose proof (Z.div_mod (e - b) nw). pose proof (Z.mod_pos_bound (e - b) nw).
      rewrite Z2Nat.id by lia. nia.
    + split; auto. lia.
Qed.

Lemma run_plan_spec threads requested b e : 0 <= b <= e -> e < 2 ^ 64 -> 0 <= threads -> 0 <= requested ->
  plan_indices (run_plan threads requested b e) = interval b e /\
  Z.of_nat (length (ranges_of (run_plan threads requested b e))) <= (if threads =? 0 then 8 else threads) /\
  (requested <> 0 -> Z.of_nat (length (ranges_of (run_plan threads requested b e))) <= requested) /\
  (requested = 0 -> threads <> 1 ->
   Z.of_nat (length (ranges_of (run_plan threads requested b e))) = Z.min (if threads =? 0 then 8 else threads) (e - b)).
Proof.
  intros H1 H2 H3 H4. unfold run_plan. set (nw := run_workers (pool_workers threads) requested).
  assert (N : 0 <= nw /\ nw <= (if threads =? 0 then 8 else threads) /\ (requested <> 0 -> nw <= requested) /\
              (requested = 0 -> nw = (if threads =? 0 then 8 else threads))).
  { unfold nw, run_workers, pool_workers. destruct (Z.eqb_spec threads 0), (Z.eqb_spec requested 0); lia. }
  destruct N as (N1 & N2 & N3 & N4).
  split; [apply plan_covers; assumption|].
  destruct (Z_le_dec nw 1) as [L|L].
  - assert (ranges_of (plan b e nw) = []) as ->.
    { unfold plan. destruct (Z.eqb_spec (wrapu 64 (e - b)) 0); [reflexivity|]. destruct (Z.leb_spec nw 1); [reflexivity|lia]. }
    simpl. destruct (Z.eqb_spec threads 0); lia.
  - destruct (plan_shape b e nw) as [S _]; try assumption; [lia|]. rewrite S.
    split; [lia|]. split; [lia|]. intros. rewrite <- N4 by assumption. reflexivity.
Qed.

(** The transition system. *)
Definition todo_of (w : worker) : list Z := match w with Working l => l | Arrived => [] end.
Definition narrived (ws : list worker) : nat := length (filter (fun w => match w with Arrived => true | _ => false end) ws).

Record Inv (rs : list (Z * Z)) (s : state) : Prop := {
  I_idx : Permutation (done s ++ concat (map todo_of (workers s)) ++
            match main s with MLaunch todo => concat (map (fun r => indices (fst r) (snd r)) todo) | _ => [] end)
          (concat (map (fun r => indices (fst r) (snd r)) rs));
  I_launched : launched s = length (workers s);
  I_arrived : arrived s = narrived (workers s);
  I_main : match main s with
           | MReturned => Forall (fun w => w = Arrived) (workers s)
           | MSleep => (arrived s < launched s)%nat
           | MWait => (0 < launched s)%nat
           | MLaunch _ => True
           end
}.

Lemma set_nth_split {A} (l : list A) k x y : nth_error l k = Some x ->
  exists l1 l2, l = l1 ++ x :: l2 /\ set_nth l k y = l1 ++ y :: l2.
Proof.
  revert k. induction l as [|z l IH]; intros [|k] H; simpl in *; try discriminate.
  - inversion H; subst. exists [], l. auto.
  - destruct (IH k H) as (l1&l2&E1&E2). exists (z :: l1), l2. rewrite E1 at 1. rewrite E2. auto.
Qed.

Lemma narrived_app a b : narrived (a ++ b) = (narrived a + narrived b)%nat.
Proof. unfold narrived. rewrite filter_app, app_length. auto. Qed.

Lemma narrived_le ws : (narrived ws <= length ws)%nat.
Proof. unfold narrived. induction ws as [|w ws IH]; simpl; auto. destruct w; simpl; lia. Qed.

Lemma narrived_all ws : narrived ws = length ws -> Forall (fun w => w = Arrived) ws.
Proof.
  induction ws as [|w ws IH]; intros H; [constructor|]. pose proof (narrived_le ws).
  unfold narrived in *. destruct w; simpl in *; [lia|]. constructor; auto.
Qed.

Lemma inv_step rs s a r : Inv rs s -> step s a = Some r -> exists s', r = Ret s' /\ Inv rs s'.
Proof.
  intros [H1 H2 H3 H4] Hst. destruct a as [|k|]; simpl in Hst.
  - destruct (main s) as [todo| | |] eqn:Em; try discriminate.
    + destruct todo as [|[lo hi] todo]; inversion Hst; subst; clear Hst; eexists; split; try reflexivity.
      * constructor; simpl; auto.
        -- destruct (Nat.eqb (launched s) 0); simpl in *; auto.
        -- destruct (Nat.eqb_spec (launched s) 0); [|lia]. rewrite H2 in e. destruct (workers s); [constructor|discriminate].
      * constructor; simpl; auto.
        -- rewrite map_app, concat_app. simpl in *. rewrite app_nil_r.
           eapply Permutation_trans; [|exact H1]. rewrite <- app_assoc. auto.
        -- rewrite app_length. simpl. lia.
        -- rewrite narrived_app. unfold narrived at 2. simpl. lia.
    + inversion Hst; subst; clear Hst. eexists; split; [reflexivity|]. constructor; simpl; auto.
      * destruct (Nat.leb (launched s) (arrived s)); auto.
      * destruct (Nat.leb_spec (launched s) (arrived s)); auto. apply narrived_all.
        pose proof (narrived_le (workers s)). lia.
  - destruct (nth_error (workers s) k) as [[[|i todo]|]|] eqn:En; try discriminate.
    + (* arrive *)
      destruct (set_nth_split _ _ _ Arrived En) as (l1&l2&E1&E2).
      destruct (main s) as [todo| | |] eqn:Em; inversion Hst; subst; clear Hst.
      4:{ exfalso. rewrite E1 in H4. apply Forall_app in H4. destruct H4 as [_ H4]. inversion H4. discriminate. }
      all: eexists; split; [reflexivity|]; constructor; simpl; auto.
      all: try rewrite E2.
      all: try (rewrite E1 in H1; rewrite map_app, concat_app in *; simpl in *; exact H1).
      all: try (rewrite H2, E1, !app_length; reflexivity).
      all: try (rewrite H3, E1, !narrived_app; unfold narrived; simpl; lia).
      all: lia.
    + (* closure *)
      destruct (set_nth_split _ _ _ (Working todo) En) as (l1&l2&E1&E2). inversion Hst; subst; clear Hst.
      eexists; split; [reflexivity|]. constructor; simpl.
      * rewrite E2. rewrite E1 in H1. rewrite map_app, concat_app in *. simpl in *.
        eapply Permutation_trans; [|exact H1]. rewrite <- !app_assoc. simpl. apply Permutation_app_head.
        apply Permutation_trans with (concat (map todo_of l1) ++ i :: (todo ++ concat (map todo_of l2)) ++ 
          match main s with MLaunch todo0 => concat (map (fun r => indices (fst r) (snd r)) todo0) | _ => [] end).
        -- rewrite <- app_assoc. apply (Permutation_middle (concat (map todo_of l1))).
        -- rewrite <- app_assoc. reflexivity.
      * rewrite E2, H2, E1, !app_length. reflexivity.
      * rewrite E2, H3, E1, !narrived_app. reflexivity.
      * destruct (main s); auto. rewrite E1 in H4. apply Forall_app in H4. destruct H4 as [_ H4]. inversion H4. discriminate.
  - destruct (main s) eqn:Em; try discriminate. inversion Hst; subst; clear Hst.
    eexists; split; [reflexivity|]. constructor; simpl; auto. lia.
Qed.

Lemma inv_reach rs s : reach rs s -> Inv rs s.
Proof.
  induction 1 as [|s a s' Hr IH Hst].
  - constructor; simpl; auto.
  - destruct (inv_step _ _ _ _ IH Hst) as (s''&E&HI). inversion E; subst. auto.
Qed.

Lemma returns_after_all rs s : reach rs s -> main s = MReturned ->
  Permutation (done s) (concat (map (fun r => interval (fst r) (snd r)) rs)) /\
  forall a, step s a = None.
Proof.
  intros Hr Hm. destruct (inv_reach _ _ Hr) as [H1 H2 H3 H4]. rewrite Hm in *. split.
  - assert (concat (map todo_of (workers s)) = []) as E.
    { clear -H4. induction H4 as [|w ws -> _ IH]; simpl; auto. }
    rewrite E in H1. simpl in H1. rewrite app_nil_r in H1. exact H1.
  - intros [|k|]; simpl; try (rewrite Hm; reflexivity).
    destruct (nth_error (workers s) k) as [w|] eqn:En; auto. rewrite Forall_forall in H4.
    rewrite (H4 w) by (eapply nth_error_In; eauto). auto.
Qed.

Lemma no_ub rs s a : reach rs s -> step s a <> Some UB.
Proof.
  intros Hr E. destruct (inv_step _ _ _ _ (inv_reach _ _ Hr) E) as (s'&E'&_). discriminate.
Qed.

(** Progress and termination. *)
Definition wcost (w : worker) : nat := match w with Working l => 2 * length l + 2 | Arrived => 0 end.
Definition mcost (m : main_pc) : nat :=
  match m with
  | MLaunch todo => 2 + fold_right (fun r n => (2 * Z.to_nat (snd r - fst r) + 3 + n)%nat) 0%nat todo
  | MWait => 1 | MSleep => 0 | MReturned => 0 end.
Definition measure (s : state) : nat := mcost (main s) + fold_right (fun w n => (wcost w + n)%nat) 0%nat (workers s).

Lemma fold_w_app l1 l2 : fold_right (fun w n => (wcost w + n)%nat) 0%nat (l1 ++ l2) =
  (fold_right (fun w n => (wcost w + n)%nat) 0%nat l1 + fold_right (fun w n => (wcost w + n)%nat) 0%nat l2)%nat.
Proof. induction l1; simpl; lia. Qed.

Lemma measure_decreases s a s' : step s a = Some (Ret s') -> a <> ASpurious -> (measure s' < measure s)%nat.
Proof.
  intros Hst Ha. destruct a as [|k|]; [| |congruence]; simpl in Hst.
  - unfold measure. destruct (main s) as [todo| | |] eqn:Em; try discriminate.
    + destruct todo as [|[lo hi] todo]; inversion Hst; subst; simpl.
      * destruct (Nat.eqb (launched s) 0); simpl; lia.
      * rewrite fold_w_app. simpl. unfold indices. rewrite map_length, seq_length. lia.
    + inversion Hst; subst; simpl. destruct (Nat.leb (launched s) (arrived s)); simpl; lia.
  - destruct (nth_error (workers s) k) as [[[|i todo]|]|] eqn:En; try discriminate.
    + destruct (set_nth_split _ _ _ Arrived En) as (l1&l2&E1&E2).
      assert (HS : (fold_right (fun w n => (wcost w + n)%nat) 0%nat (set_nth (workers s) k Arrived) + 2 =
                    fold_right (fun w n => (wcost w + n)%nat) 0%nat (workers s))%nat).
      { rewrite E2. rewrite E1. rewrite !fold_w_app. simpl. lia. }
      unfold measure. destruct (main s) eqn:Em; inversion Hst; subst; simpl main; simpl workers; unfold mcost; lia.
    + destruct (set_nth_split _ _ _ (Working todo) En) as (l1&l2&E1&E2).
      inversion Hst; subst. unfold measure. simpl main. simpl workers. rewrite E2, E1, !fold_w_app. simpl. lia.
Qed.

Lemma progress rs s : reach rs s -> main s <> MReturned -> exists a s', a <> ASpurious /\ step s a = Some (Ret s').
Proof.
  intros Hr Hm. destruct (inv_reach _ _ Hr) as [H1 H2 H3 H4].
  destruct (main s) as [todo| | |] eqn:Em; try congruence.
  - destruct todo as [|[lo hi] todo]; exists AMain; eexists; (split; [discriminate|]); simpl; rewrite Em; reflexivity.
  - exists AMain; eexists; (split; [discriminate|]); simpl; rewrite Em; reflexivity.
  - (* sleeping: some worker has not arrived *)
    assert (exists k l, nth_error (workers s) k = Some (Working l)) as (k&l&En).
    { rewrite H2, H3 in H4. clear -H4. induction (workers s) as [|w ws IH]; simpl in H4; [unfold narrived in H4; simpl in H4; lia|].
      destruct w as [l|]; [exists 0%nat, l; auto|]. destruct IH as (k&l&E); [unfold narrived in *; simpl in *; lia|]. exists (S k), l. auto. }
    exists (AWorker k). simpl. rewrite En, Em. destruct l; eexists; (split; [discriminate|]); reflexivity.
Qed.

Lemma schedule_reach rs s l s' : schedule s l s' -> reach rs s -> reach rs s'.
Proof. induction 1; intros; auto. apply IHschedule. econstructor; eauto. Qed.

Lemma schedules_bounded rs s l s' : reach rs s -> schedule s l s' -> ~ In ASpurious l ->
  (length l <= measure s)%nat /\
  ((forall a s'', a <> ASpurious -> step s' a <> Some (Ret s'')) -> main s' = MReturned).
Proof.
  intros Hr Hs Hn. split.
  - revert Hn. induction Hs as [|s a s1 l s2 Hst Hs IH]; intros Hn; simpl; [lia|].
    assert (length l <= measure s1)%nat by (apply IH; [econstructor; eauto|]; intros Hx; apply Hn; right; auto).
    assert (measure s1 < measure s)%nat; [|lia]. eapply measure_decreases; eauto.
    intros ->. apply Hn. left. auto.
  - intros Hstuck. pose proof (schedule_reach _ _ _ _ Hs Hr) as Hr'.
    destruct (main s') eqn:Em; auto; exfalso; (destruct (progress _ _ Hr') as (a&s2&H1&H2); [congruence|]); eapply Hstuck; eauto.
Qed.

Fixpoint run_acts (s : state) (l : list action) : option state :=
  match l with
  | [] => Some s
  | a :: l' => match step s a with Some (Ret s1) => run_acts s1 l' | _ => None end
  end.

Lemma run_acts_reach rs l : forall s s', reach rs s -> run_acts s l = Some s' -> reach rs s'.
Proof.
  induction l as [|a l IH]; intros s s' Hr E; simpl in E; [inversion E; subst; auto|].
  destruct (step s a) as [[s1| | |]|] eqn:Es; try discriminate. eapply IH; [|exact E]. econstructor; eauto.
Qed.

Lemma run_example : exists s, reach [(0, 2); (2, 3)] s /\ main s = MReturned /\ done s = [2; 0; 1].
Proof.
  destruct (run_acts (start [(0,2);(2,3)]) [AMain; AMain; AWorker 1; AMain; AMain; AWorker 0; AWorker 1; AMain; AWorker 0; AWorker 0; AMain]) as [s|] eqn:E.
  2:{ vm_compute in E. discriminate. }
  exists s. split; [eapply run_acts_reach; [constructor|exact E]|].
  vm_compute in E. inversion E; subst. auto.
Qed.

Lemma run_terminates rs s : reach rs s -> exists bound, forall l s', schedule s l s' -> ~ In ASpurious l ->
    (length l <= bound)%nat /\
    ((forall a s'', a <> ASpurious -> step s' a <> Some (Ret s'')) -> main s' = MReturned).
Proof. intros Hr. exists (measure s). intros. eapply schedules_bounded; eauto. Qed.

Lemma run_covers b e nw s : 0 <= b <= e -> e < 2 ^ 64 -> 1 < nw ->
  reach (ranges_of (plan b e nw)) s -> main s = MReturned -> Permutation (done s) (interval b e).
Proof.
  intros H1 H2 H3 Hr Hm. destruct (returns_after_all _ _ Hr Hm) as [HP _].
  rewrite <- (plan_covers b e nw) by lia. eapply Permutation_trans; [exact HP|].
  unfold plan. destruct (wrapu 64 (e - b) =? 0); [reflexivity|].
  destruct (Z.leb_spec nw 1); [lia|]. reflexivity.
Qed.
