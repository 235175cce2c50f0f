(** Proofs about a parallel for whose closures may throw. *)
From Coq Require Import List ZArith Bool Lia Permutation.
Import ListNotations.
From Verif Require Import Base ThreadPool_Model ThreadPool_Spec ThreadPool_Proofs Throw_Model Throw_Spec.
Open Scope Z_scope.

Definition left_of (t : task) : list Z := match t with Busy l => l | _ => [] end.
Definition ndone (ts : list task) : nat := length (filter (fun t => match t with Done => true | _ => false end) ts).

Lemma ndone_app a b : ndone (a ++ b) = (ndone a + ndone b)%nat.
Proof. unfold ndone. rewrite filter_app, app_length. auto. Qed.
Lemma ndone_le ts : (ndone ts <= length ts)%nat.
Proof. unfold ndone. induction ts as [|w ws IH]; simpl; auto. destruct w; simpl; lia. Qed.
Lemma ndone_all ts : ndone ts = length ts -> Forall (fun t => t = Done) ts.
Proof.
  induction ts as [|w ws IH]; intros H; [constructor|]. pose proof (ndone_le ws).
  unfold ndone in *. destruct w; simpl in *; try lia. constructor; auto.
Qed.

Record PInv (E : env) (rs : list (Z * Z)) (s : pstate) : Prop := {
  J_done : Forall (fun i => throws E i = false) (p_done s);
  J_idx : ~ In Died (p_tasks s) -> p_main s <> Unwound ->
          Permutation (p_done s ++ concat (map left_of (p_tasks s)) ++
            match p_main s with Launch todo => all_indices todo | _ => [] end) (all_indices rs);
  J_launched : p_launched s = length (p_tasks s);
  J_arrived : p_arrived s = ndone (p_tasks s);
  J_died : In Died (p_tasks s) -> exists i, In i (all_indices rs) /\ throws E i = true;
  J_from : forall i, (In i (concat (map left_of (p_tasks s))) \/ match p_main s with Launch todo => In i (all_indices todo) | _ => False end) -> In i (all_indices rs);
  J_main : match p_main s with
           | Returned => Forall (fun t => t = Done) (p_tasks s)
           | Sleep => (p_arrived s < p_launched s)%nat
           | Wait => (0 < p_launched s)%nat
           | Unwound => exists k, refuses E k = true /\ k = length (p_tasks s) /\ (k < length rs)%nat
           | Launch todo => (length (p_tasks s) + length todo = length rs)%nat
           end
}.

Lemma pinv_step E rs s a r : PInv E rs s -> pstep E s a = Some r ->
  match r with
  | Next s' => PInv E rs s'
  | Terminate => catches E = false /\ exists i, In i (all_indices rs) /\ throws E i = true
  | Undefined => p_main s = Unwound
  end.
Proof.
  destruct s as [m ts la ar dn]. intros [H1 H2 H3 H4 H5 H6 H7] Hst. cbn [p_main p_tasks p_launched p_arrived p_done] in *.
  destruct a as [|k|]; cbn [pstep] in Hst.
  - destruct m as [[|[lo hi] todo]| | | |] eqn:Em; try discriminate.
    + inversion Hst; subst; clear Hst. constructor; cbn [p_main p_tasks p_launched p_arrived p_done]; auto.
      * intros Hd _. destruct (Nat.eqb (length ts) 0); apply H2; auto; discriminate.
      * intros i [Hi|Hi]; [auto|]. destruct (Nat.eqb (length ts) 0); destruct Hi.
      * destruct (Nat.eqb_spec (length ts) 0); [|lia]. destruct ts; [constructor|discriminate].
    + destruct (refuses E la) eqn:R; inversion Hst; subst; clear Hst; constructor; cbn [p_main p_tasks p_launched p_arrived p_done]; auto.
      * congruence.
      * intros i [Hi|[]]; auto.
      * eexists. split; [exact R|]. split; auto. cbn in H7. lia.
      * intros Hd _. rewrite map_app, concat_app. cbn. rewrite app_nil_r.
        eapply Permutation_trans; [|apply H2]; [|intros Q; apply Hd; apply in_or_app; auto|discriminate].
        unfold all_indices. cbn. rewrite <- !app_assoc. reflexivity.
      * rewrite app_length. cbn. lia.
      * rewrite ndone_app. unfold ndone at 3. cbn. lia.
      * intros Q. apply in_app_or in Q. destruct Q as [Q|[Q|[]]]; [auto|discriminate].
      * intros i Hi. apply H6. rewrite map_app, concat_app in Hi. destruct Hi as [Hi|Hi].
        -- apply in_app_or in Hi. destruct Hi as [Hi|Hi]; auto. right. unfold all_indices. cbn. apply in_or_app. left.
           cbn in Hi. rewrite app_nil_r in Hi. exact Hi.
        -- right. unfold all_indices. cbn. apply in_or_app. right. exact Hi.
      * rewrite app_length. cbn in *. lia.
    + inversion Hst; subst; clear Hst. constructor; cbn [p_main p_tasks p_launched p_arrived p_done]; auto.
      * intros Hd _. destruct (Nat.leb (length ts) (ndone ts)); apply H2; auto; discriminate.
      * intros i [Hi|Hi]; [auto|]. destruct (Nat.leb (length ts) (ndone ts)); destruct Hi.
      * destruct (Nat.leb_spec (length ts) (ndone ts)); auto. apply ndone_all. pose proof (ndone_le ts). lia.
  - destruct (nth_error ts k) as [[todo| |]|] eqn:En; try discriminate.
    assert (Hk : In (Busy todo) ts) by (eapply nth_error_In; eauto).
    destruct m as [lt| | | |] eqn:Em; try (inversion Hst; subst; auto; fail).
    4:{ exfalso. rewrite Forall_forall in H7. discriminate (H7 _ Hk). }
    all: destruct todo as [|i todo];
      [ inversion Hst; subst; clear Hst; destruct (set_nth_split _ _ _ Done En) as (l1&l2&E1&E2)
      | assert (Hi : In i (all_indices rs)) by (apply H6; left; apply in_concat; exists (i :: todo); split; [apply in_map_iff; exists (Busy (i :: todo)); auto|left; auto]);
        destruct (throws E i) eqn:T; [destruct (catches E) eqn:C|]; inversion Hst; subst; clear Hst; eauto;
        [ destruct (set_nth_split _ _ _ Died En) as (l1&l2&E1&E2) | destruct (set_nth_split _ _ _ (Busy todo) En) as (l1&l2&E1&E2) ] ].
    all: constructor; cbn [p_main p_tasks p_launched p_arrived p_done]; rewrite ?E2; auto.
    all: rewrite E1 in *; rewrite ?map_app, ?concat_app, ?app_length, ?ndone_app in *; cbn [map concat left_of app length] in *.
    all: try (apply Forall_app; split; auto; fail).
    all: try (intros; eexists; split; eauto; fail).
    all: try (exfalso; match goal with Hd : ~ In Died _ |- _ => apply Hd; apply in_or_app; right; left; reflexivity end).
    all: try (unfold ndone in *; cbn in *; lia).
    all: try (intros Q; apply H5; apply in_app_or in Q; destruct Q as [Q|[Q|Q]]; try discriminate; apply in_or_app; cbn; auto; fail).
    all: try (intros Hd _; eapply Permutation_trans; [|apply H2; [|discriminate]];
              [ rewrite <- ?app_assoc; cbn; reflexivity
              | intros Q; apply Hd; apply in_app_or in Q; destruct Q as [Q|[Q|Q]]; try discriminate; apply in_or_app; cbn; auto ]; fail).
    all: try (intros q Hq; apply H6; rewrite ?in_app_iff in Hq; rewrite ?in_app_iff; cbn [In]; rewrite ?in_app_iff; tauto).
    all: try (intros Hd; exfalso; apply Hd; apply in_or_app; right; left; reflexivity).
    all: intros Hd _; eapply Permutation_trans; [|apply H2; [|discriminate]];
         [|intros Q; apply Hd; apply in_app_or in Q; destruct Q as [Q|[Q|Q]]; try discriminate; apply in_or_app; cbn; auto].
    all: rewrite <- !app_assoc; apply Permutation_app_head; cbn [app]; rewrite <- ?app_assoc; apply Permutation_middle.
  - destruct m eqn:Em; try discriminate. inversion Hst; subst; clear Hst.
    constructor; cbn [p_main p_tasks p_launched p_arrived p_done]; auto.
    + intros; apply H2; auto; discriminate.
    + lia.
Qed.

Lemma pinv_reach E rs s : preach E rs s -> PInv E rs s.
Proof.
  induction 1 as [|s a s' Hr IH Hst]; [|exact (pinv_step _ _ _ _ _ IH Hst)].
  constructor; cbn; auto.
  - intros [].
  - intros i [[]|Hi]; auto.
Qed.

(** Run returns only after everything ran. *)
Lemma returns_all E rs s : preach E rs s -> p_main s = Returned ->
  Permutation (p_done s) (all_indices rs) /\ (forall i, In i (all_indices rs) -> throws E i = false) /\
  forall a, pstep E s a = None.
Proof.
  intros Hr Hm. destruct (pinv_reach _ _ _ Hr) as [H1 H2 H3 H4 H5 H6 H7]. rewrite Hm in *.
  assert (P : Permutation (p_done s) (all_indices rs)).
  { assert (concat (map left_of (p_tasks s)) = []) as Ec.
    { clear -H7. induction H7 as [|w ws -> _ IH]; cbn; auto. }
    rewrite Ec in H2. cbn in H2. rewrite app_nil_r in H2. apply H2; [|discriminate].
    intros Q. rewrite Forall_forall in H7. discriminate (H7 _ Q). }
  split; auto. split.
  - intros i Hi. rewrite Forall_forall in H1. apply H1. eapply Permutation_in; [apply Permutation_sym; exact P|auto].
  - intros a. destruct s as [m ts la ar dn]. cbn in *. subst m. destruct a as [|k|]; cbn; auto.
    destruct (nth_error ts k) as [w|] eqn:En; auto. rewrite Forall_forall in H7.
    rewrite (H7 w) by (eapply nth_error_In; eauto). auto.
Qed.

Lemma no_undefined E rs s a : (forall k, (k < length rs)%nat -> refuses E k = false) -> preach E rs s ->
  pstep E s a <> Some Undefined /\ p_main s <> Unwound.
Proof.
  intros Hn Hr.
  assert (N : p_main s <> Unwound).
  { intros Q. destruct (pinv_reach _ _ _ Hr) as [_ _ _ _ _ _ H7]. rewrite Q in H7. destruct H7 as (k & K1 & K2 & K3).
    rewrite Hn in K1 by auto. discriminate. }
  split; auto. intros Q. exact (N (pinv_step _ _ _ _ _ (pinv_reach _ _ _ Hr) Q)).
Qed.

(** Steps are bounded. *)
Definition tcost (w : task) : nat := match w with Busy l => 2 * length l + 2 | _ => 0 end.
Definition pcost (m : pc) : nat :=
  match m with
  | Launch todo => 2 + fold_right (fun r n => (2 * Z.to_nat (snd r - fst r) + 3 + n)%nat) 0%nat todo
  | Wait => 1 | Sleep | Returned | Unwound => 0 end.
Definition tsum (ts : list task) : nat := fold_right (fun w n => (tcost w + n)%nat) 0%nat ts.
Definition pmeasure (s : pstate) : nat := pcost (p_main s) + tsum (p_tasks s).
Lemma tsum_app l1 l2 : tsum (l1 ++ l2) = (tsum l1 + tsum l2)%nat.
Proof. unfold tsum. induction l1; cbn; lia. Qed.

Lemma pmeasure_decreases E s a s' : pstep E s a = Some (Next s') -> a <> ASpurious -> (pmeasure s' < pmeasure s)%nat.
Proof.
  destruct s as [m ts la ar dn]. unfold pmeasure. intros Hst Ha. destruct a as [|k|]; [| |congruence]; cbn [pstep] in Hst.
  - destruct m as [[|[lo hi] todo]| | | |]; try discriminate.
    + inversion Hst; subst; cbn [p_main p_tasks]. destruct (Nat.eqb la 0); cbn; lia.
    + destruct (refuses E la); inversion Hst; subst; cbn [p_main p_tasks]; [cbn; lia|].
      rewrite tsum_app. cbn. unfold indices. rewrite map_length, seq_length. lia.
    + inversion Hst; subst; cbn [p_main p_tasks]. destruct (Nat.leb la ar); cbn; lia.
  - destruct (nth_error ts k) as [[todo| |]|] eqn:En; try discriminate.
    destruct (set_nth_split _ _ _ Done En) as (l1&l2&E1&_).
    assert (S : forall w, (tsum (set_nth ts k w) + tcost (Busy todo) = tsum ts + tcost w)%nat).
    { intros w. destruct (set_nth_split _ _ _ w En) as (l3&l4&E3&E4). rewrite E4, E3, !tsum_app. cbn. lia. }
    destruct m as [lt| | | |]; try discriminate.
    all: destruct todo as [|i todo]; [|destruct (throws E i); [destruct (catches E)|]]; inversion Hst; subst; cbn [p_main p_tasks];
      match goal with |- context [tsum (set_nth _ _ ?w)] => specialize (S w) end; cbn in *; lia.
Qed.

Lemma psteps_bounded E s l s' : psteps E s l s' -> ~ In ASpurious l -> (length l <= pmeasure s)%nat.
Proof.
  induction 1 as [|s a s1 l s2 Hst Hs IH]; intros Hn; cbn; [lia|].
  assert (length l <= pmeasure s1)%nat by (apply IH; intros Hx; apply Hn; right; auto).
  assert (pmeasure s1 < pmeasure s)%nat; [|lia]. eapply pmeasure_decreases; eauto. intros ->. apply Hn. left. auto.
Qed.

(** Who can go on. *)
Lemma rest_cases E rs s : preach E rs s -> at_rest E s ->
  p_main s = Returned \/ p_main s = Unwound \/
  (p_main s = Sleep /\ ((catches E = false /\ exists a, pstep E s a = Some Terminate) \/
                        (catches E = true /\ In Died (p_tasks s) /\ forall t, In t (p_tasks s) -> t = Done \/ t = Died))).
Proof.
  intros Hr Hs. pose proof (pinv_reach _ _ _ Hr) as [H1 H2 H3 H4 H5 H6 H7].
  destruct s as [m ts la ar dn]. cbn [p_main p_tasks p_launched p_arrived p_done] in *.
  destruct m as [[|[lo hi] todo]| | | |]; auto.
  - exfalso. eapply (Hs AMain); [discriminate|reflexivity].
  - exfalso. destruct (refuses E la) eqn:R; eapply (Hs AMain); try discriminate; cbn; rewrite R; reflexivity.
  - exfalso. eapply (Hs AMain); [discriminate|reflexivity].
  - right. right. split; auto.
    assert (B : forall k todo, nth_error ts k = Some (Busy todo) -> catches E = false /\ exists a, pstep E (mk_pstate Sleep ts la ar dn) a = Some Terminate).
    { intros k todo En. destruct todo as [|i todo].
      - exfalso. eapply (Hs (AWorker k)); [discriminate|]. cbn. rewrite En. reflexivity.
      - destruct (throws E i) eqn:T; [destruct (catches E) eqn:C|].
        + exfalso. eapply (Hs (AWorker k)); [discriminate|]. cbn. rewrite En, T, C. reflexivity.
        + split; auto. exists (AWorker k). cbn. rewrite En, T, C. reflexivity.
        + exfalso. eapply (Hs (AWorker k)); [discriminate|]. cbn. rewrite En, T. reflexivity. }
    destruct (existsb (fun t => match t with Busy _ => true | _ => false end) ts) eqn:X.
    + left. apply existsb_exists in X. destruct X as (t & Ht & Hb). destruct t; try discriminate.
      apply In_nth_error in Ht. destruct Ht as [k En]. eauto.
    + assert (A : forall t, In t ts -> t = Done \/ t = Died).
      { intros t Ht. destruct t; auto. exfalso. assert (existsb (fun t => match t with Busy _ => true | _ => false end) ts = true); [|congruence].
        apply existsb_exists. eauto. }
      assert (D : In Died ts).
      { rewrite H3, H4 in H7. clear -H7 A. induction ts as [|t ts IH]; cbn in *; [unfold ndone in H7; cbn in H7; lia|].
        destruct (A t) as [-> | ->]; auto. right. apply IH; auto. unfold ndone in *. cbn in *. lia. }
      destruct (catches E) eqn:C; [right; auto|]. exfalso. clear -Hr D C.
      assert (forall s, preach E rs s -> ~ In Died (p_tasks s)) as Q; [|exact (Q _ Hr D)].
      clear Hr D. induction 1 as [|s a s' Hr IH Hst]; [intros []|]. destruct s as [m ts' la' ar' dn']. cbn [p_tasks] in IH.
      destruct a as [|k|]; cbn [pstep] in Hst.
      * destruct m as [[|[lo hi] todo]| | | |]; try discriminate; [| destruct (refuses E la') |];
          inversion Hst; subst; cbn [p_tasks]; auto. intros Q. apply in_app_or in Q. destruct Q as [Q|[Q|[]]]; [auto|discriminate].
      * destruct (nth_error ts' k) as [[todo| |]|] eqn:En; try discriminate.
        destruct m; try discriminate; (destruct todo as [|i todo]; [|destruct (throws E i); [rewrite C in Hst; discriminate|]]); inversion Hst; subst; cbn [p_tasks];
          match goal with |- context [set_nth ts' k ?w] => destruct (set_nth_split _ _ _ w En) as (l3&l4&E3&E4) end;
          rewrite E4; rewrite E3 in IH; intros Q; apply IH; apply in_app_or in Q; apply in_or_app; destruct Q as [Q|[Q|Q]]; try discriminate; cbn; auto.
      * destruct m; try discriminate. inversion Hst; subst. auto.
Qed.

(** A closure that throws. *)
Lemma closure_throws E rs i : (forall k, (k < length rs)%nat -> refuses E k = false) -> In i (all_indices rs) -> throws E i = true ->
  forall s, preach E rs s ->
    p_main s <> Returned /\ p_main s <> Unwound /\
    (exists bound, forall l s', psteps E s l s' -> ~ In ASpurious l -> (length l <= bound)%nat) /\
    (at_rest E s -> if catches E then p_main s = Sleep /\ forall a, a <> ASpurious -> pstep E s a = None
                    else exists a, pstep E s a = Some Terminate).
Proof.
  intros Hn Hi Ht s Hr.
  assert (N1 : p_main s <> Returned). { intros Q. destruct (returns_all _ _ _ Hr Q) as (_ & K & _). rewrite K in Ht by auto. discriminate. }
  assert (N2 : p_main s <> Unwound) by (apply (no_undefined E rs s AMain); auto).
  split; auto. split; auto. split; [exists (pmeasure s); intros; eapply psteps_bounded; eauto|].
  intros Hs. destruct (rest_cases _ _ _ Hr Hs) as [?|[?|(Hm & [(C & a & Ha)|(C & D & A)])]]; try contradiction; rewrite C.
  - eauto.
  - split; auto. intros a Ha. destruct s as [m ts la ar dn]. cbn in Hm, A. subst m. destruct a as [|k|]; cbn; auto; [|congruence].
    destruct (nth_error ts k) as [t|] eqn:En; auto. apply nth_error_In in En. destruct (A t En) as [-> | ->]; auto.
Qed.

Lemma run_goes_on E rs : (forall k, (k < length rs)%nat -> refuses E k = false) -> (forall i, In i (all_indices rs) -> throws E i = false) ->
  forall s, preach E rs s ->
    (exists bound, forall l s', psteps E s l s' -> ~ In ASpurious l -> (length l <= bound)%nat) /\
    (forall a, pstep E s a <> Some Terminate /\ pstep E s a <> Some Undefined) /\ (at_rest E s -> p_main s = Returned).
Proof.
  intros Hn Ht s Hr. split; [exists (pmeasure s); intros; eapply psteps_bounded; eauto|].
  assert (NT : forall a, pstep E s a <> Some Terminate).
  { intros a Q. destruct (pinv_step _ _ _ _ _ (pinv_reach _ _ _ Hr) Q) as (_ & i & Hi & T). rewrite Ht in T by auto. discriminate. }
  split; [split; [auto|apply (no_undefined E rs s a); auto]|].
  intros Hs. destruct (rest_cases _ _ _ Hr Hs) as [?|[Q|(Hm & [(C & a & Ha)|(C & D & A)])]]; auto.
  - exfalso. apply (no_undefined E rs s AMain) in Hr; tauto.
  - destruct (NT _ Ha).
  - destruct (J_died _ _ _ (pinv_reach _ _ _ Hr) D) as (i & Hi & T). rewrite Ht in T by auto. discriminate.
Qed.

(** An executor that throws. *)
Lemma launched_state E rs k : (k <= length rs)%nat -> (forall j, (j < k)%nat -> refuses E j = false) ->
  preach E rs (mk_pstate (Launch (skipn k rs)) (map (fun r => Busy (indices (fst r) (snd r))) (firstn k rs)) k 0 []).
Proof.
  induction k as [|k IH]; intros Hk Hf; [constructor|].
  destruct (nth_error rs k) as [[lo hi]|] eqn:En; [|apply nth_error_None in En; lia].
  assert (S1 : skipn k rs = (lo, hi) :: skipn (S k) rs).
  { clear -En. revert rs En. induction k; intros [|r rs] En; cbn in *; try discriminate; [congruence|]. apply IHk in En. auto. }
  assert (S2 : firstn (S k) rs = firstn k rs ++ [(lo, hi)]).
  { clear -En. revert rs En. induction k; intros [|r rs] En; cbn in *; try discriminate; [congruence|]. f_equal. auto. }
  eapply preach_step with (a := AMain); [apply IH; [lia|intros; apply Hf; lia]|]. cbn [pstep]. rewrite S1, (Hf k) by lia. rewrite S2, map_app. reflexivity.
Qed.
Lemma executor_throws E rs k : (0 < k < length rs)%nat -> (forall j, (j < k)%nat -> refuses E j = false) -> refuses E k = true ->
  exists s a, preach E rs s /\ p_main s = Unwound /\ pstep E s a = Some Undefined.
Proof.
  intros Hk Hf Hr. pose proof (launched_state E rs k ltac:(lia) Hf) as H.
  destruct (skipn k rs) as [|[lo hi] rest] eqn:Sk.
  { exfalso. assert (length (skipn k rs) = 0%nat) by (rewrite Sk; auto). rewrite skipn_length in H0. lia. }
  eexists _, (AWorker 0). split; [eapply preach_step with (a := AMain); [exact H|cbn; rewrite Hr; reflexivity]|].
  split; [reflexivity|]. destruct rs as [|r rs]; [cbn in Hk; lia|]. destruct k; [lia|]. reflexivity.
Qed.
Lemma first_refused E rs s : refuses E 0 = true -> preach E rs s -> p_main s = Unwound -> p_tasks s = [] /\ p_done s = [] /\ forall a, pstep E s a = None.
Proof.
  intros Hf Hr. 
  assert (Q : p_main s = Launch rs /\ p_tasks s = [] /\ p_done s = [] /\ p_launched s = 0%nat \/
              p_main s = Unwound /\ p_tasks s = [] /\ p_done s = [] \/ p_main s = Returned).
  { induction Hr as [|s a s' Hr IH Hst]; [left; cbn; auto|]. destruct s as [m ts la ar dn].
    destruct IH as [(E1 & E2 & E3 & E4)|[(E1 & E2 & E3)|E1]]; cbn in E1; subst; [cbn in E2, E3, E4; subst| |].
    - destruct a as [|k|]; cbn in Hst; try discriminate.
      + destruct rs as [|[lo hi] rs]; [inversion Hst; subst; cbn; auto|]. rewrite Hf in Hst. inversion Hst; subst; cbn; auto.
      + destruct k; discriminate.
    - cbn in E2, E3. subst. destruct a as [|k|]; cbn in Hst; try discriminate. destruct k; discriminate.
    - exfalso. destruct (returns_all E rs _ Hr eq_refl) as (_ & _ & K). rewrite K in Hst. discriminate. }
  intros Hm. destruct Q as [(E1 & _)|[(E1 & E2 & E3)|E1]]; try congruence. split; auto. split; auto.
  intros a. destruct s as [m ts la ar dn]. cbn in *. subst. destruct a as [|[|k]|]; auto.
Qed.

(** On the calling thread. *)
Lemma inline_spec thr n : forall b, 0 <= b -> b + Z.of_nat n < 2 ^ 64 ->
  (exists i, b <= i < b + Z.of_nat n /\ thr i = true /\ (forall j, b <= j < i -> thr j = false) /\ inline_loop thr n b = (interval b i, true)) \/
  ((forall j, b <= j < b + Z.of_nat n -> thr j = false) /\ inline_loop thr n b = (interval b (b + Z.of_nat n), false)).
Proof.
  assert (HI : forall b i, b < i -> interval b i = b :: interval (b + 1) i).
  { intros b i H. unfold interval. replace (Z.to_nat (i - b)) with (S (Z.to_nat (i - (b + 1)))) by lia. cbn [seq map].
    f_equal; [lia|]. rewrite <- seq_shift, map_map. apply map_ext. intros. lia. }
  assert (H0 : forall b, interval b b = []). { intros b. unfold interval. rewrite Z.sub_diag. reflexivity. }
  induction n as [|n IH]; intros b Hb Hn.
  - right. split; [lia|]. cbn. rewrite Z.add_0_r, H0. reflexivity.
  - cbn [inline_loop]. destruct (thr b) eqn:T.
    + left. exists b. split; [lia|]. split; auto. split; [lia|]. rewrite H0. reflexivity.
    + rewrite wrapu_id by (unfold in_u; lia). destruct (IH (b + 1)) as [(i & Hi & Ti & Hj & Eq)|(Hj & Eq)]; try lia; rewrite Eq.
      * left. exists i. split; [lia|]. split; auto. split; [|rewrite (HI b i) by lia; reflexivity].
        intros j Hj'. destruct (Z.eq_dec j b) as [-> | ]; auto. apply Hj. lia.
      * right. split; [intros j Hj'; destruct (Z.eq_dec j b) as [-> | ]; auto; apply Hj; lia|].
        rewrite (HI b) by lia. replace (b + 1 + Z.of_nat n) with (b + Z.of_nat (S n)) by lia. reflexivity.
Qed.
Lemma run_inline_spec thr b e : 0 <= b <= e -> e < 2 ^ 64 ->
  (exists i, b <= i < e /\ thr i = true /\ (forall j, b <= j < i -> thr j = false) /\ run_inline thr b e = (interval b i, true)) \/
  ((forall j, b <= j < e -> thr j = false) /\ run_inline thr b e = (interval b e, false)).
Proof.
  intros H1 H2. unfold run_inline. pose proof (inline_spec thr (Z.to_nat (e - b)) b) as H. rewrite Z2Nat.id in H by lia.
  replace (b + (e - b)) with e in H by lia. apply H; lia.
Qed.

(** Example: three workers, index 4 throws. *)
Definition ex_env (catch : bool) : env := mk_env (fun i => i =? 4) (fun _ => false) catch.
Definition ex_ranges : list (Z * Z) := ranges_of (plan 0 7 3).
Fixpoint play (E : env) (s : pstate) (l : list action) : option pstate :=
  match l with
  | [] => Some s
  | a :: l' => match pstep E s a with Some (Next s1) => play E s1 l' | _ => None end
  end.
Lemma play_reach E rs l : forall s s', preach E rs s -> play E s l = Some s' -> preach E rs s'.
Proof.
  induction l as [|a l IH]; intros s s' Hr Eq; cbn in Eq; [inversion Eq; subst; auto|].
  destruct (pstep E s a) as [[s1| |]|] eqn:Es; try discriminate. eapply IH; [|exact Eq]. econstructor; eauto.
Qed.
Definition ex_schedule : list action :=
  [AMain; AWorker 0; AMain; AMain; AMain; AMain; AWorker 2; AWorker 1; AWorker 1; AWorker 0; AWorker 0; AWorker 0; AMain; AWorker 2; AWorker 2; AMain].
