From Coq Require Import List Bool Arith Lia.
Import ListNotations.
From Verif Require Import AtomicList_Model AtomicList_Spec.

Inductive place := PQueue | PThread (i : tid) | PFree.

Definition holds (s : pc) : list node :=
  match s with InsLoaded t _ | InsLinked t _ => [t] | _ => [] end.

Record Sim (s : state) (c : qstate) (own : node -> place) : Prop := {
  S_queue : chain (next s) (head s) (rev (queue c));
  S_queue_own : forall t, In t (queue c) -> own t = PQueue;
  S_queue_nd : NoDup (queue c);
  S_pend_own : forall i t, In t (pending c i) -> own t = PThread i;
  S_pend_nd : forall i, NoDup (pending c i);
  S_pc : forall i, match pcs s i with
    | Idle => pending c i = []
    | InsLoaded t _ => pending c i = [] /\ own t = PThread i
    | InsLinked t old => pending c i = [] /\ own t = PThread i /\ next s t = old
    | Reversing h r => exists l1 l2, chain (next s) h l1 /\ chain (next s) r l2 /\ pending c i = rev l1 ++ l2
    | Unlinking h => chain (next s) h (pending c i)
    end;
  S_avail : forall t, avail s t = true <-> own t = PFree
}.

Lemma upd_same {A} (f : nat -> A) k v : upd f k v k = v.
Proof. unfold upd. rewrite Nat.eqb_refl. auto. Qed.
Lemma upd_other {A} (f : nat -> A) k v x : x <> k -> upd f k v x = f x.
Proof. unfold upd. intros. destruct (Nat.eqb_spec x k); congruence. Qed.

Lemma chain_upd nx h l t v : ~ In t l -> chain nx h l -> chain (upd nx t v) h l.
Proof.
  revert h. induction l as [|x l IH]; simpl; auto. intros h Hn [-> Hc]. split; auto.
  rewrite upd_other by tauto. apply IH; tauto.
Qed.

Lemma opt_eqb_eq a b : opt_eqb a b = true -> a = b.
Proof. destruct a, b; simpl; try discriminate; auto. intros H. apply Nat.eqb_eq in H. congruence. Qed.

Definition upd_own (own : node -> place) (t : node) (p : place) : node -> place :=
  fun x => if Nat.eqb x t then p else own x.

Definition place_dec : forall a b : place, {a = b} + {a <> b}.
Proof. repeat decide equality. Defined.

(** Label lists are matched by sequences of specification steps. *)
Inductive q_steps : qstate -> list label -> qstate -> Prop :=
| qs_nil : forall c, q_steps c [] c
| qs_cons : forall c l c' ls c'', q_step c l c' -> q_steps c' ls c'' -> q_steps c (l :: ls) c''.

Lemma q_steps_exec c ls c' : q_steps c ls c' -> forall tr, q_exec c tr -> q_exec c' (tr ++ ls).
Proof.
  induction 1 as [c|c l c1 ls c2 H1 H2 IH]; intros tr Ht.
  - rewrite app_nil_r. auto.
  - change (l :: ls) with ([l] ++ ls). rewrite app_assoc. apply IH. econstructor; eauto.
Qed.

Lemma sim_step s c own a s' ls : Sim s c own -> step s a = Some (s', ls) ->
  exists c' own', q_steps c ls c' /\ Sim s' c' own'.
Proof.
  intros HS Hst. destruct c as [q p]. destruct HS as [Sq Sqo Sqn Spo Spn Spc Sav]. simpl in *.
  destruct a as [i t|i|i|i weak]; simpl in Hst.
  - (* AInsert *)
    pose proof (Spc i) as Hpc. destruct (pcs s i) eqn:Ei; try discriminate.
    destruct (avail s t) eqn:Ea; [|discriminate]. inversion Hst; subst; clear Hst.
    apply Sav in Ea.
    exists {| queue := q; pending := p |}, (upd_own own t (PThread i)). split; [constructor|].
    assert (HO : forall x, own x <> PFree -> upd_own own t (PThread i) x = own x).
    { intros x Hx. unfold upd_own. destruct (Nat.eqb_spec x t); auto. subst. congruence. }
    constructor; simpl; auto.
    + intros x Hx. rewrite HO; auto. rewrite (Sqo x Hx). discriminate.
    + intros j x Hx. rewrite HO; auto. rewrite (Spo j x Hx). discriminate.
    + intros j. unfold upd at 1. destruct (Nat.eqb_spec j i) as [->|Hne].
      * split; auto. unfold upd_own. rewrite Nat.eqb_refl. auto.
      * specialize (Spc j). destruct (pcs s j); auto.
        -- destruct Spc as [H1 H2]. split; auto. rewrite HO; auto. rewrite H2. discriminate.
        -- destruct Spc as (H1&H2&H3). repeat split; auto. rewrite HO; auto. rewrite H2. discriminate.
    + intros x. unfold upd, upd_own. destruct (Nat.eqb_spec x t); [split; discriminate|]. apply Sav.
  - (* ASweepOnce *)
    pose proof (Spc i) as Hpc. destruct (pcs s i) eqn:Ei; try discriminate.
    destruct (head s) as [h|] eqn:Eh; inversion Hst; subst; clear Hst.
    + assert (Hq : is_empty q = false).
      { destruct q; auto. simpl in Sq. discriminate. }
      exists {| queue := []; pending := upd p i q |},
        (fun x => match own x with PQueue => PThread i | o => o end).
      split. { econstructor; [|constructor]. replace true with (negb (is_empty q)) by (rewrite Hq; auto). constructor. auto. }
      constructor; simpl; auto.
      * intros ? [].
      * constructor.
      * intros j x. unfold upd. destruct (Nat.eqb_spec j i) as [->|]; intros Hx.
        -- rewrite (Sqo x Hx). auto.
        -- rewrite (Spo j x Hx). auto.
      * intros j. unfold upd. destruct (Nat.eqb_spec j i); auto.
      * intros j. unfold upd at 1. destruct (Nat.eqb_spec j i) as [->|Hne].
        -- exists (rev q), []. rewrite upd_same, rev_involutive, app_nil_r. repeat split; auto.
        -- specialize (Spc j). rewrite upd_other by auto. destruct (pcs s j); auto.
           ++ destruct Spc as [H1 H2]. rewrite H2. auto.
           ++ destruct Spc as (H1&H2&H3). rewrite H2. auto.
      * intros x. rewrite Sav. destruct (own x); split; congruence.
    + assert (Hq : q = []).
      { destruct (rev q) as [|x l] eqn:Er; [|simpl in Sq; destruct Sq; discriminate].
        apply (f_equal (@rev node)) in Er. rewrite rev_involutive in Er. auto. }
      subst q. exists {| queue := []; pending := upd p i [] |}, own.
      split. { econstructor; [apply (q_take [] p i); auto|]. econstructor; [apply q_end; apply upd_same|constructor]. }
      assert (HU : forall j, upd p i [] j = p j).
      { intros j. unfold upd. destruct (Nat.eqb_spec j i); subst; auto. }
      constructor; simpl; auto.
      * intros j x. rewrite HU. auto.
      * intros j. rewrite HU. auto.
      * intros j. rewrite HU. apply Spc.
  - (* AReverseSweep *)
    pose proof (Spc i) as Hpc. destruct (pcs s i) eqn:Ei; try discriminate. inversion Hst; subst; clear Hst.
    exists {| queue := []; pending := upd p i (rev q) |}, (fun x => match own x with PQueue => PThread i | o => o end).
    split. { econstructor; [|constructor]. constructor. auto. }
    constructor; simpl; auto.
    + intros ? [].
    + constructor.
    + intros j x. unfold upd. destruct (Nat.eqb_spec j i) as [->|]; intros Hx.
      * apply in_rev in Hx. rewrite (Sqo x Hx). auto.
      * rewrite (Spo j x Hx). auto.
    + intros j. unfold upd. destruct (Nat.eqb_spec j i); auto. apply NoDup_rev. auto.
    + intros j. unfold upd at 1. destruct (Nat.eqb_spec j i) as [->|Hne].
      * rewrite upd_same. auto.
      * specialize (Spc j). rewrite upd_other by auto. destruct (pcs s j); auto.
        -- destruct Spc as [H1 H2]. rewrite H2. auto.
        -- destruct Spc as (H1&H2&H3). rewrite H2. auto.
    + intros x. rewrite Sav. destruct (own x); split; congruence.
  - (* AStep *)
    pose proof (Spc i) as Hpc. destruct (pcs s i) as [|t old|t old|h r|h] eqn:Ei; try discriminate.
    + (* next(t) = old *)
      inversion Hst; subst; clear Hst. destruct Hpc as [Hp Ho].
      exists {| queue := q; pending := p |}, own. split; [constructor|].
      assert (Hnq : ~ In t (rev q)) by (intros Hin; apply in_rev in Hin; apply Sqo in Hin; congruence).
      assert (Hnp : forall j, j <> i -> ~ In t (p j)) by (intros j Hj Hin; apply Spo in Hin; congruence).
      constructor; simpl; auto.
      * apply chain_upd; auto.
      * intros j. unfold upd at 1. destruct (Nat.eqb_spec j i) as [->|Hne].
        -- repeat split; auto. apply upd_same.
        -- specialize (Spc j). specialize (Hnp j Hne). destruct (pcs s j) as [|t2 o2|t2 o2|h2 r2|h2]; auto.
           ++ destruct Spc as (H1&H2&H3). repeat split; auto. rewrite upd_other; auto. congruence.
           ++ destruct Spc as (l1&l2&H1&H2&H3). exists l1, l2. rewrite H3 in Hnp. repeat split; auto; apply chain_upd; auto;
              intros Hin; apply Hnp; apply in_or_app; [left; apply -> in_rev; auto|auto].
           ++ apply chain_upd; auto.
    + (* CAS *)
      destruct Hpc as (Hp&Ho&Hn).
      destruct (opt_eqb (head s) old && negb weak) eqn:Ec; inversion Hst; subst; clear Hst.
      * apply andb_prop in Ec. destruct Ec as [Ec _]. apply opt_eqb_eq in Ec.
        assert (He : is_null (next s t) = is_empty q).
        { rewrite <- Ec. destruct q as [|x q']; simpl in *; [rewrite Sq; auto|].
          destruct (rev q' ++ [x]) as [|y l] eqn:Er; [destruct (rev q'); discriminate|]. simpl in Sq. destruct Sq as [-> _]. auto. }
        exists {| queue := q ++ [t]; pending := p |}, (upd_own own t PQueue).
        split. { econstructor; [|constructor]. rewrite He. constructor. }
        assert (HO : forall x, own x <> PThread i -> upd_own own t PQueue x = own x).
        { intros x Hx. unfold upd_own. destruct (Nat.eqb_spec x t); auto. subst. congruence. }
        assert (Hnp : forall j, ~ In t (p j)).
        { intros j Hin. destruct (Nat.eq_dec j i) as [->|Hj]; [rewrite Hp in Hin; destruct Hin|]. apply Spo in Hin; congruence. }
        constructor; simpl; auto.
        -- rewrite rev_app_distr. simpl. split; auto. rewrite <- Ec. auto.
        -- intros x Hx. apply in_app_or in Hx. destruct Hx as [Hx|[<-|[]]].
           ++ rewrite HO; auto. rewrite (Sqo x Hx). discriminate.
           ++ unfold upd_own. rewrite Nat.eqb_refl. auto.
        -- apply NoDup_rev in Sqn. rewrite <- (rev_involutive (q ++ [t])). apply NoDup_rev. rewrite rev_app_distr. simpl.
           constructor; auto. intros Hin. apply in_rev in Hin. apply Sqo in Hin. congruence.
        -- intros j x Hx. unfold upd_own. destruct (Nat.eqb_spec x t); [subst; destruct (Hnp j Hx)|]. auto.
        -- intros j. unfold upd at 1. destruct (Nat.eqb_spec j i) as [->|Hne]; auto.
           specialize (Spc j). destruct (pcs s j) as [|t2 o2|t2 o2|h2 r2|h2]; auto.
           ++ destruct Spc as (H1&H2). split; auto. rewrite HO; auto. rewrite H2. congruence.
           ++ destruct Spc as (H1&H2&H3). repeat split; auto. rewrite HO; auto. rewrite H2. congruence.
        -- intros x. unfold upd_own. destruct (Nat.eqb_spec x t); [|apply Sav]. subst. rewrite Sav. split; congruence.
      * exists {| queue := q; pending := p |}, own. split; [constructor|]. constructor; simpl; auto.
        intros j. unfold upd at 1. destruct (Nat.eqb_spec j i) as [->|Hne]; auto. apply Spc.
    + (* reverse *)
      destruct h as [h|]; inversion Hst; subst; clear Hst.
      * destruct Hpc as (l1&l2&H1&H2&H3). destruct l1 as [|x l1]; simpl in H1; [discriminate|].
        destruct H1 as [Ex H1]. inversion Ex; subst x; clear Ex.
        exists {| queue := q; pending := p |}, own. split; [constructor|].
        assert (Hin : In h (p i)).
        { rewrite H3. apply in_or_app. left. simpl. apply in_or_app. right. simpl. auto. }
        pose proof (Spo _ _ Hin) as Ho.
        assert (Hnq : ~ In h (rev q)) by (intros Hq; apply in_rev in Hq; apply Sqo in Hq; congruence).
        assert (Hnp : forall j, j <> i -> ~ In h (p j)) by (intros j Hj Hq; apply Spo in Hq; congruence).
        pose proof (Spn i) as Hnd. rewrite H3 in Hnd. simpl in Hnd. rewrite <- app_assoc in Hnd. simpl in Hnd.
        apply NoDup_remove_2 in Hnd.
        constructor; simpl; auto.
        -- apply chain_upd; auto.
        -- intros j. unfold upd at 1. destruct (Nat.eqb_spec j i) as [->|Hne].
           ++ exists l1, (h :: l2). split; [apply chain_upd; auto|]. 
              { intros Hl. apply Hnd. apply in_or_app. left. apply -> in_rev. auto. }
              split; [simpl; split; auto; rewrite upd_same; apply chain_upd; auto|].
              { intros Hl. apply Hnd. apply in_or_app. right. auto. }
              rewrite H3. simpl. rewrite <- app_assoc. auto.
           ++ specialize (Spc j). specialize (Hnp j Hne). destruct (pcs s j) as [|t2 o2|t2 o2|h2 r2|h2]; auto.
              ** destruct Spc as (G1&G2&G3). repeat split; auto. rewrite upd_other; auto. congruence.
              ** destruct Spc as (k1&k2&G1&G2&G3). exists k1, k2. rewrite G3 in Hnp. repeat split; auto; apply chain_upd; auto;
                 intros Hl; apply Hnp; apply in_or_app; [left; apply -> in_rev; auto|auto].
              ** apply chain_upd; auto.
      * destruct Hpc as (l1&l2&H1&H2&H3). destruct l1 as [|x l1]; simpl in H1; [|destruct H1; discriminate].
        exists {| queue := q; pending := p |}, own. split; [constructor|]. constructor; simpl; auto.
        intros j. unfold upd at 1. destruct (Nat.eqb_spec j i) as [->|Hne]; auto; [|apply Spc].
        rewrite H3. simpl. auto.
    + (* unlink *)
      destruct h as [t|]; inversion Hst; subst; clear Hst.
      * destruct (p i) as [|x rest] eqn:Ep; simpl in Hpc; [discriminate|]. destruct Hpc as [Ex Hc]. inversion Ex; subst x; clear Ex.
        assert (Hin : In t (p i)) by (rewrite Ep; left; auto).
        pose proof (Spo _ _ Hin) as Ho.
        assert (Hnq : ~ In t (rev q)) by (intros Hq; apply in_rev in Hq; apply Sqo in Hq; congruence).
        assert (Hnp : forall j, j <> i -> ~ In t (p j)) by (intros j Hj Hq; apply Spo in Hq; congruence).
        pose proof (Spn i) as Hnd. rewrite Ep in Hnd. inversion Hnd as [|? ? Hni Hnd']; subst.
        exists {| queue := q; pending := upd p i rest |}, (upd_own own t PFree).
        split. { econstructor; [|constructor]. constructor. auto. }
        constructor; simpl; auto.
        -- apply chain_upd; auto.
        -- intros x Hx. unfold upd_own. destruct (Nat.eqb_spec x t); auto. subst. exfalso. apply Hnq. apply -> in_rev. auto.
        -- intros j x. unfold upd, upd_own. destruct (Nat.eqb_spec j i) as [->|Hne]; intros Hx.
           ++ destruct (Nat.eqb_spec x t); [subst; contradiction|]. apply Spo. rewrite Ep. right. auto.
           ++ destruct (Nat.eqb_spec x t); [subst; destruct (Hnp j Hne Hx)|]. auto.
        -- intros j. unfold upd. destruct (Nat.eqb_spec j i); auto.
        -- intros j. unfold upd at 1. destruct (Nat.eqb_spec j i) as [->|Hne].
           ++ rewrite upd_same. apply chain_upd; auto.
           ++ specialize (Spc j). specialize (Hnp j Hne). rewrite upd_other by auto.
              destruct (pcs s j) as [|t2 o2|t2 o2|h2 r2|h2] eqn:Ej; auto.
              ** destruct Spc as (G1&G2). split; auto. unfold upd_own. destruct (Nat.eqb_spec t2 t); auto. subst. congruence.
              ** destruct Spc as (G1&G2&G3). repeat split; auto.
                 { unfold upd_own. destruct (Nat.eqb_spec t2 t); auto. subst. congruence. }
                 rewrite upd_other; auto. congruence.
              ** destruct Spc as (k1&k2&G1&G2&G3). exists k1, k2. rewrite G3 in Hnp. repeat split; auto; apply chain_upd; auto;
                 intros Hl; apply Hnp; apply in_or_app; [left; apply -> in_rev; auto|auto].
              ** apply chain_upd; auto.
        -- intros x. unfold upd, upd_own. destruct (Nat.eqb_spec x t); [tauto|]. apply Sav.
      * destruct (p i) as [|x rest] eqn:Ep; simpl in Hpc; [|destruct Hpc; discriminate].
        exists {| queue := q; pending := p |}, own.
        split. { econstructor; [|constructor]. constructor. auto. }
        constructor; simpl; auto.
        intros j. unfold upd at 1. destruct (Nat.eqb_spec j i) as [->|Hne]; auto. apply Spc.
Qed.

Lemma sim_exec s tr : exec s tr -> exists c own, q_exec c tr /\ Sim s c own.
Proof.
  induction 1 as [|s tr a s' ls He [c [own [Hq HS]]] Hst].
  - exists q_init, (fun _ => PFree). split; [constructor|].
    constructor; simpl; auto; try tauto; try constructor.
  - destruct (sim_step s c own a s' ls HS Hst) as (c'&own'&Hs&HS').
    exists c', own'. split; auto. eapply q_steps_exec; eauto.
Qed.

Lemma refinement s tr : exec s tr -> exists c, q_exec c tr.
Proof. intros H. destruct (sim_exec s tr H) as (c&own&H1&_). eauto. Qed.

(** Counting. *)
Definition cnt (t : node) (l : list node) : nat := length (filter (fun x => Nat.eqb x t) l).

Lemma pushes_app t a b : pushes t (a ++ b) = pushes t a + pushes t b.
Proof. unfold pushes. rewrite filter_app, app_length. auto. Qed.
Lemma calls_app t a b : calls t (a ++ b) = calls t a + calls t b.
Proof. unfold calls. rewrite filter_app, app_length. auto. Qed.
Lemma cnt_app t a b : cnt t (a ++ b) = cnt t a + cnt t b.
Proof. unfold cnt. rewrite filter_app, app_length. auto. Qed.
Lemma cnt_rev t a : cnt t (rev a) = cnt t a.
Proof. induction a; simpl; auto. rewrite cnt_app, IHa. unfold cnt. simpl. destruct (Nat.eqb a t); simpl; lia. Qed.

(** All pending lists outside a finite set of threads are empty; sum over it. *)
Definition psum (p : tid -> list node) (t : node) (ths : list tid) : nat :=
  fold_right (fun i n => cnt t (p i) + n) 0 ths.

Lemma psum_upd p t i l ths : NoDup ths -> In i ths ->
  psum (upd p i l) t ths + cnt t (p i) = psum p t ths + cnt t l.
Proof.
  induction ths as [|j ths IH]; simpl; intros ND Hin; [tauto|].
  inversion ND as [|? ? Hni ND']; subst. destruct (Nat.eq_dec j i) as [->|Hne].
  - rewrite upd_same. assert (E : psum (upd p i l) t ths = psum p t ths); [|unfold psum in *; lia].
    clear IH ND' ND Hin. induction ths as [|k ths IH]; simpl; auto. rewrite upd_other; [|intros ->; apply Hni; left; auto].
    f_equal. apply IH. intros Hk. apply Hni. right. auto.
  - destruct Hin as [|Hin]; [congruence|]. specialize (IH ND' Hin). rewrite upd_other by auto. lia.
Qed.

Lemma count_inv c tr : q_exec c tr -> exists ths, NoDup ths /\ (forall i, ~ In i ths -> pending c i = []) /\
  forall t, pushes t tr = calls t tr + cnt t (queue c) + psum (pending c) t ths.
Proof.
  induction 1 as [|c tr l c' Hq (ths&ND&Hout&IH) Hst].
  - exists []. split; [constructor|]. split; auto.
  - assert (HX : forall i, exists ths', NoDup ths' /\ In i ths' /\ (forall j, ~ In j ths' -> pending c j = []) /\
        forall t, psum (pending c) t ths' = psum (pending c) t ths).
    { intros i. destruct (in_dec Nat.eq_dec i ths) as [Hi|Hi].
      - exists ths. auto.
      - exists (i :: ths). split; [constructor; auto|]. split; [left; auto|]. split.
        + intros j Hj. apply Hout. intros Hx. apply Hj. right. auto.
        + intros t. simpl. rewrite (Hout i Hi). auto. }
    inversion Hst; subst; simpl in *.
    + exists ths. split; auto. split; auto. intros x. rewrite pushes_app, calls_app, cnt_app, IH.
      unfold pushes, calls, cnt. simpl. destruct (Nat.eqb t x); simpl; lia.
    + destruct (HX i) as (ths'&N1&N2&N3&N4). exists ths'. split; auto. split.
      * intros j Hj. rewrite upd_other; auto. intros ->. contradiction.
      * intros x. rewrite pushes_app, calls_app, IH. pose proof (psum_upd p x i q ths' N1 N2) as E.
        rewrite N4 in E. rewrite H in E. change (cnt x []) with 0 in *. unfold pushes, calls. simpl. lia.
    + destruct (HX i) as (ths'&N1&N2&N3&N4). exists ths'. split; auto. split.
      * intros j Hj. rewrite upd_other; auto. intros ->. contradiction.
      * intros x. rewrite pushes_app, calls_app, IH. pose proof (psum_upd p x i (rev q) ths' N1 N2) as E.
        rewrite N4 in E. rewrite H, cnt_rev in E. change (cnt x []) with 0 in *. unfold pushes, calls. simpl. lia.
    + destruct (HX i) as (ths'&N1&N2&N3&N4). exists ths'. split; auto. split.
      * intros j Hj. rewrite upd_other; auto. intros ->. contradiction.
      * intros x. rewrite pushes_app, calls_app, IH. pose proof (psum_upd p x i rest ths' N1 N2) as E.
        rewrite N4 in E. rewrite H in E. unfold pushes, calls. simpl. unfold cnt in E at 1. simpl in E.
        destruct (Nat.eqb t x) eqn:Et; simpl in *; fold (cnt x rest) in *; unfold cnt in *; lia.
    + exists ths. split; auto. split; auto. intros x. rewrite pushes_app, calls_app, IH. unfold pushes, calls. simpl. lia.
Qed.

Lemma at_most_once s tr t : exec s tr -> calls t tr <= pushes t tr.
Proof.
  intros H. destruct (refinement _ _ H) as [c Hq]. destruct (count_inv _ _ Hq) as (ths&_&_&E). rewrite E. lia.
Qed.

Lemma exactly_once s tr t : exec s tr -> quiescent s -> calls t tr = pushes t tr.
Proof.
  intros H [Hidle Hh]. destruct (sim_exec _ _ H) as (c&own&Hq&HS). destruct (count_inv _ _ Hq) as (ths&_&_&E).
  rewrite E. destruct HS as [Sq _ _ _ _ Spc _].
  assert (queue c = []) as ->.
  { rewrite Hh in Sq. destruct (rev (queue c)) eqn:Er; [|simpl in Sq; destruct Sq; discriminate].
    apply (f_equal (@rev node)) in Er. rewrite rev_involutive in Er. auto. }
  assert (psum (pending c) t ths = 0) as ->.
  { clear E. induction ths as [|j ths IH]; simpl; auto. rewrite IH.
    specialize (Spc j). rewrite Hidle in Spc. rewrite Spc. auto. }
  unfold cnt. simpl. lia.
Qed.

(** A pushed element is never unreachable: what has been pushed and not yet handed out is in the
    list or in the hands of a running sweep. *)
Lemma not_lost s tr t : exec s tr -> calls t tr < pushes t tr ->
  (exists l, chain (next s) (head s) l /\ In t l) \/
  (exists i h l, pcs s i = Unlinking h /\ chain (next s) h l /\ In t l) \/
  (exists i h r l1 l2, pcs s i = Reversing h r /\ chain (next s) h l1 /\ chain (next s) r l2 /\ In t (l1 ++ l2)).
Proof.
  intros H Hlt. destruct (sim_exec _ _ H) as (c&own&Hq&HS). destruct (count_inv _ _ Hq) as (ths&_&_&E).
  rewrite E in Hlt. destruct HS as [Sq _ _ _ _ Spc _].
  assert (Hcnt : forall l, 0 < cnt t l -> In t l).
  { intros l Hl. unfold cnt in Hl. destruct (filter (fun x => Nat.eqb x t) l) as [|x f] eqn:Ef; simpl in Hl; [lia|].
    assert (In x (filter (fun x => Nat.eqb x t) l)) by (rewrite Ef; left; auto).
    apply filter_In in H0. destruct H0 as [H0 H1]. apply Nat.eqb_eq in H1. subst. auto. }
  assert (0 < cnt t (queue c) \/ exists i, 0 < cnt t (pending c i)) as [Hc|[i Hc]].
  { assert (0 < cnt t (queue c) \/ 0 < psum (pending c) t ths) as [|Hp] by lia; [auto|right].
    clear -Hp. induction ths as [|j ths IH]; simpl in Hp; [lia|].
    destruct (Nat.eq_dec (cnt t (pending c j)) 0); [apply IH; lia|exists j; lia]. }
  - left. exists (rev (queue c)). split; auto. apply -> in_rev. auto.
  - apply Hcnt in Hc. specialize (Spc i). destruct (pcs s i) as [|t2 o2|t2 o2|h2 r2|h2] eqn:Ei.
    + rewrite Spc in Hc. destruct Hc.
    + destruct Spc as [Hp _]. rewrite Hp in Hc. destruct Hc.
    + destruct Spc as [Hp _]. rewrite Hp in Hc. destruct Hc.
    + right. right. destruct Spc as (l1&l2&H1&H2&H3). exists i, h2, r2, l1, l2. rewrite H3 in Hc. repeat split; auto.
      apply in_app_or in Hc. apply in_or_app. destruct Hc as [Hc|Hc]; auto. left. apply in_rev. auto.
    + right. left. exists i, h2, (pending c i). auto.
Qed.

Fixpoint run_acts (s : state) (l : list action) : option (state * list label) :=
  match l with
  | [] => Some (s, [])
  | a :: l' => match step s a with
               | None => None
               | Some (s1, ls) => match run_acts s1 l' with Some (s2, ls2) => Some (s2, ls ++ ls2) | None => None end
               end
  end.

Lemma run_acts_exec l : forall s tr s' ls, exec s tr -> run_acts s l = Some (s', ls) -> exec s' (tr ++ ls).
Proof.
  induction l as [|a l IH]; intros s tr s' ls He Hr; simpl in Hr.
  - inversion Hr; subst. rewrite app_nil_r. auto.
  - destruct (step s a) as [[s1 l1]|] eqn:Es; [|discriminate].
    destruct (run_acts s1 l) as [[s2 l2]|] eqn:E2; [|discriminate]. inversion Hr; subst.
    rewrite app_assoc. eapply IH; [|exact E2]. econstructor; eauto.
Qed.

Lemma exec_example : exists s, quiescent s /\
  exec s [LPush 1 20 true; LPush 0 10 false; LTake 2 true; LCall 2 20; LCall 2 10; LEnd 2].
Proof.
  destruct (run_acts init [AInsert 0 10; AInsert 1 20; AStep 1 false; AStep 0 false; AStep 1 false; AStep 0 false;
    AStep 0 false; AStep 0 false; ASweepOnce 2; AStep 2 false; AStep 2 false; AStep 2 false; AStep 2 false; AStep 2 false; AStep 2 false])
    as [[s tr]|] eqn:E; [|vm_compute in E; discriminate].
  exists s. split.
  - vm_compute in E. inversion E; subst. split; [|reflexivity]. intros i. simpl.
    destruct i as [|[|[|i]]]; reflexivity.
  - change [LPush 1 20 true; LPush 0 10 false; LTake 2 true; LCall 2 20; LCall 2 10; LEnd 2] with
      ([] ++ [LPush 1 20 true; LPush 0 10 false; LTake 2 true; LCall 2 20; LCall 2 10; LEnd 2]).
    eapply run_acts_exec; [constructor|]. rewrite E. vm_compute in E. inversion E; subst. reflexivity.
Qed.
