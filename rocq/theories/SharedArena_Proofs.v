(** Proofs for C76. *)
From Coq Require Import List ZArith Bool Arith Lia.
Import ListNotations.
From Verif Require Import Base Arena_Model Arena_Spec Arena_Proofs SharedArena_Model SharedArena_Spec.
Open Scope Z_scope.

Notation cf := default_config.
Lemma upd_n_same {A} (f : nat -> A) i x : upd_n f i x i = x.
Proof. unfold upd_n. now rewrite Nat.eqb_refl. Qed.
Lemma upd_n_other {A} (f : nat -> A) i x j : j <> i -> upd_n f i x j = f j.
Proof. intros N. unfold upd_n. destruct (Nat.eqb_spec j i); [contradiction|reflexivity]. Qed.
Lemma upd_z_same {A} (f : Z -> A) i x : upd_z f i x i = x.
Proof. unfold upd_z. now rewrite Z.eqb_refl. Qed.
Lemma upd_z_other {A} (f : Z -> A) i x j : j <> i -> upd_z f i x j = f j.
Proof. intros N. unfold upd_z. destruct (Z.eqb_spec j i); [contradiction|reflexivity]. Qed.

Lemma inside_disjoint r s r' s' : inside r' r -> inside s' s -> disjoint r s -> disjoint r' s'.
Proof. unfold disjoint, inside. lia. Qed.

(** ** Blocks of one arena *)
Lemma allocate_owned a n mem a' r : allocate cf a n mem = (a', r) -> forall o, In o (owned a') ->
  In o (owned a) \/ (0 <= snd o /\ mem (snd o) = Some (fst o)).
Proof.
  unfold allocate. destruct (roundUp cf n) as [size|]; [|intros [= <- <-]; auto].
  destruct (size <=? _); [intros [= <- <-] o H; left; exact H|].
  destruct (canReuseExistingBlock cf (add_used a size) size).
  - destruct (currentBlock (add_used a size)); [|intros [= <- <-] o H; left; exact H].
    destruct (nth_error (blocks (add_used a size)) (S n0)) as [[b s]|]; intros [= <- <-] o H; left; exact H.
  - unfold allocateSlow. destruct (_ <? _); [intros [= <- <-] o H; left; exact H|].
    destruct (_ && _); [intros [= <- <-] o H; left; exact H|].
    destruct (minBlockSize cf <? size).
    + destruct (mem (wrapu 64 (sizeof_LargeBlock + size))) as [b|] eqn:M; intros [= <- <-] o H; [|left; exact H].
      unfold owned in *. cbn [blocks largeBlocks] in H. rewrite app_assoc in H. apply in_app_or in H. destruct H as [H|[<-|[]]]; [left; exact H|].
      right. cbn [fst snd]. split; [|exact M]. unfold wrapu. now apply Z.mod_pos_bound.
    + destruct (mem (blockGoodAllocSize cf)) as [b|] eqn:M; intros [= <- <-] o H; [|left; exact H].
      unfold owned in *. cbn [blocks largeBlocks] in H. rewrite <- app_assoc in H. apply in_app_or in H. destruct H as [H|[<-|H]].
      * left. apply in_or_app. now left.
      * right. cbn [fst snd]. split; [|exact M]. unfold blockGoodAllocSize, wrapu. now apply Z.mod_pos_bound.
      * left. apply in_or_app. now right.
Qed.
Lemma clear_owned a o : In o (owned (clear cf a)) -> In o (owned a).
Proof.
  unfold clear. destruct (blocks (freeLargeBlocks a)) as [|[b s] bs] eqn:B; unfold owned; cbn [blocks largeBlocks freeLargeBlocks] in *;
    rewrite app_nil_r; intros H; apply in_or_app; left; first [exact H | rewrite B; exact H | rewrite B in H; exact H].
Qed.

Definition mine (th : nat) (a : Z) (l : list piece) : list region :=
  map bytes (filter (fun p => Nat.eqb (fst (fst p)) th && (from p =? a)) l).

Section Run.
(** What is known of each arena: its history. *)
Variable H : arena -> list region -> Prop.
Variable good : outcome Z -> Prop.
Hypothesis H_new : H arena_new [].
Hypothesis H_reset : forall x l, H x l -> H (clear cf x) [].
Hypothesis H_alloc : forall x l n mem x' r, H x l -> 0 < n < 2 ^ 64 -> system_answer_ok x mem -> allocate cf x n mem = (x', r) -> good r ->
  H x' (live_after (Allocate n mem) r l).

Record inv (w : world) (l : list piece) : Prop := {
  i_arena : forall th a id, objects w a <> None -> slots w th a = Some id -> exists x, arenas w id = Some x /\ H x (mine th a l);
  i_inj : forall th a th' a' id, objects w a <> None -> objects w a' <> None -> slots w th a = Some id -> slots w th' a' = Some id -> th = th' /\ a = a';
  i_ids : forall a ids, objects w a = Some ids -> NoDup ids /\ forall id, In id ids -> exists th, slots w th a = Some id;
  i_listed : forall th a id ids, slots w th a = Some id -> objects w a = Some ids -> In id ids \/ exists n, at_ w th = Made a id n;
  i_at : forall th a id n, at_ w th = Made a id n \/ at_ w th = Have a id n -> objects w a <> None /\ slots w th a = Some id /\ 0 < n < 2 ^ 64;
  i_made : forall th a id n ids, at_ w th = Made a id n -> objects w a = Some ids -> ~ In id ids;
  i_next : forall id, (next w <= id)%nat -> arenas w id = None;
  i_slot_next : forall th a id, slots w th a = Some id -> (id < next w)%nat;
  i_blocks : forall i j x y r s, arenas w i = Some x -> arenas w j = Some y -> i <> j -> In r (owned x) -> In s (owned y) -> disjoint r s;
  i_used : forall th a r, In (th, a, r) l -> exists ids id, objects w a = Some ids /\ slots w th a = Some id /\ In id ids
}.

Lemma inv_start : inv start [].
Proof. constructor; cbn; try discriminate; try contradiction; try tauto. intros th a id n [D|D]; discriminate D. Qed.

Lemma mine_keep th a b l : a <> b -> mine th a (filter (fun p => negb (from p =? b)) l) = mine th a l.
Proof.
  intros N. unfold mine. f_equal. induction l as [|p l IH]; [reflexivity|]. cbn.
  destruct (Z.eqb_spec (from p) b) as [E|E]; cbn.
  - rewrite IH. destruct (Z.eqb_spec (from p) a); [congruence|]. now rewrite andb_false_r.
  - now rewrite IH.
Qed.
Lemma mine_drop th a l : mine th a (filter (fun p => negb (from p =? a)) l) = [].
Proof.
  unfold mine. induction l as [|p l IH]; [reflexivity|]. cbn. destruct (Z.eqb_spec (from p) a) as [E|E]; cbn; [exact IH|].
  destruct (Z.eqb_spec (from p) a); [contradiction|]. now rewrite andb_false_r.
Qed.
Lemma mine_cons th a p l : mine th a (p :: l) = if Nat.eqb (fst (fst p)) th && (from p =? a) then bytes p :: mine th a l else mine th a l.
Proof. unfold mine. cbn. destruct (_ && _); reflexivity. Qed.
Lemma mine_none w l th a : inv w l -> slots w th a = None -> mine th a l = [].
Proof.
  intros I S. unfold mine. destruct (filter (fun p => Nat.eqb (fst (fst p)) th && (from p =? a)) l) as [|p l'] eqn:F; [reflexivity|exfalso].
  assert (In p (filter (fun p => Nat.eqb (fst (fst p)) th && (from p =? a)) l)) as X by (rewrite F; now left).
  apply filter_In in X. destruct X as [X Y]. apply andb_true_iff in Y. destruct Y as [Y1 Y2]. apply Nat.eqb_eq in Y1. apply Z.eqb_eq in Y2.
  destruct p as [[th' a'] r]. cbn in *. subst th' a'. destruct (i_used _ _ I _ _ _ X) as (ids & id & _ & Q & _). congruence.
Qed.

(** Steps over the arenas of an object *)
Lemma reset_ok : forall ids h, NoDup ids -> (forall id, In id ids -> h id <> None) -> exists h', reset_arenas cf ids h = Some h' /\
  (forall id, ~ In id ids -> h' id = h id) /\ (forall id x, In id ids -> h id = Some x -> h' id = Some (clear cf x)).
Proof.
  induction ids as [|i ids IH]; intros h N A.
  - exists h. split; [reflexivity|]. split; [auto|]. intros id x [].
  - inversion N as [|? ? N1 N2]. subst. cbn. destruct (h i) as [x|] eqn:Hi; [|destruct (A i (or_introl eq_refl) Hi)].
    destruct (IH (upd_n h i (Some (clear cf x))) N2) as (h' & R & O & S).
    { intros id I. destruct (Nat.eq_dec id i) as [->|D]; [now rewrite upd_n_same|]. rewrite upd_n_other by assumption. apply A. now right. }
    exists h'. split; [exact R|]. split.
    + intros id NI. rewrite O by (intros X; apply NI; now right). rewrite upd_n_other; [reflexivity|]. intros ->. apply NI. now left.
    + intros id y [<-|I] E.
      * rewrite Hi in E. injection E as <-. rewrite O by assumption. now rewrite upd_n_same.
      * assert (id <> i) by (intros ->; contradiction). apply S; [exact I|]. now rewrite upd_n_other.
Qed.
Lemma delete_ok : forall ids h, NoDup ids -> (forall id, In id ids -> h id <> None) -> exists h', delete_arenas ids h = Some h' /\
  (forall id, ~ In id ids -> h' id = h id) /\ (forall id, In id ids -> h' id = None).
Proof.
  induction ids as [|i ids IH]; intros h N A.
  - exists h. split; [reflexivity|]. split; [auto|]. intros id [].
  - inversion N as [|? ? N1 N2]. subst. cbn. destruct (h i) as [x|] eqn:Hi; [|destruct (A i (or_introl eq_refl) Hi)].
    destruct (IH (upd_n h i None) N2) as (h' & R & O & S).
    { intros id I. assert (id <> i) by (intros ->; contradiction). rewrite upd_n_other by assumption. apply A. now right. }
    exists h'. split; [exact R|]. split.
    + intros id NI. rewrite O by (intros X; apply NI; now right). rewrite upd_n_other; [reflexivity|]. intros ->. apply NI. now left.
    + intros id [<-|I]; [|now apply S]. rewrite O by assumption. now rewrite upd_n_same.
Qed.
Lemma usage_ok : forall ids h t, (forall id, In id ids -> h id <> None) -> exists n, sum_usage ids h t = Some n.
Proof.
  induction ids as [|i ids IH]; intros h t A; [cbn; eauto|]. cbn. destruct (h i) as [x|] eqn:Hi; [|destruct (A i (or_introl eq_refl) Hi)].
  apply IH. intros id I. apply A. now right.
Qed.
Lemma listed_alive w l a ids : inv w l -> objects w a = Some ids -> forall id, In id ids -> arenas w id <> None.
Proof.
  intros I O id X. destruct (i_ids _ _ I _ _ O) as [_ S]. destruct (S id X) as (th & T).
  destruct (i_arena _ _ I th a id) as (x & E & _); [congruence|exact T|congruence].
Qed.

Lemma step_inv w l c w' r : inv w l -> allowed w c -> new_places w c -> step w c = (w', r) ->
  (r = Err \/ exists v, r = Ret v) /\ (good r -> inv w' (in_use_after w c r l)).
Proof.
  intros I A NP E. destruct c as [a|th a n|th|th mem|a|a|th a]; cbn [step allowed new_places] in *.
  - (* Create *) injection E as <- <-. split; [eauto|]. intros _. cbn [in_use_after]. constructor; cbn [arenas next slots objects at_ set_objects].
    + intros th b id O S. destruct (Z.eq_dec b a) as [->|D]; [rewrite NP in S; discriminate S|]. rewrite upd_z_other in O by assumption. now apply (i_arena _ _ I).
    + intros th b th' b' id O O' S S'. destruct (Z.eq_dec b a) as [->|D]; [rewrite NP in S; discriminate S|].
      destruct (Z.eq_dec b' a) as [->|D']; [rewrite NP in S'; discriminate S'|]. rewrite upd_z_other in O, O' by assumption. eapply (i_inj _ _ I); eassumption.
    + intros b ids O. destruct (Z.eq_dec b a) as [->|D]; [rewrite upd_z_same in O; injection O as <-; split; [constructor|intros id []]|].
      rewrite upd_z_other in O by assumption. now apply (i_ids _ _ I).
    + intros th b id ids S O. destruct (Z.eq_dec b a) as [->|D]; [rewrite NP in S; discriminate S|]. rewrite upd_z_other in O by assumption. eapply (i_listed _ _ I); eassumption.
    + intros th b id n P. destruct (i_at _ _ I _ _ _ _ P) as (O & S & N). split; [|auto].
      destruct (Z.eq_dec b a) as [->|D]; [now rewrite upd_z_same|now rewrite upd_z_other].
    + intros th b id n ids P O. destruct (Z.eq_dec b a) as [->|D]; [rewrite upd_z_same in O; now injection O as <-|]. rewrite upd_z_other in O by assumption. eapply (i_made _ _ I); eassumption.
    + apply (i_next _ _ I).
    + apply (i_slot_next _ _ I).
    + apply (i_blocks _ _ I).
    + intros th b rg X. destruct (i_used _ _ I _ _ _ X) as (ids & id & O & S & Y). exists ids, id. split; [|auto].
      rewrite upd_z_other; [exact O|]. intros ->. congruence.
  - (* Enter *) destruct A as (O & AT & N). destruct (objects w a) as [ids|] eqn:OA; [|contradiction]. destruct (slots w th a) as [id|] eqn:S.
    + injection E as <- <-. split; [eauto|]. intros _. cbn [in_use_after]. constructor; cbn [arenas next slots objects at_ set_at].
      * apply (i_arena _ _ I).
      * apply (i_inj _ _ I).
      * apply (i_ids _ _ I).
      * intros th' b id' ids' S' O'. destruct (i_listed _ _ I _ _ _ _ S' O') as [X|(n' & X)]; [now left|right]. exists n'.
        rewrite upd_n_other; [exact X|]. intros ->. congruence.
      * intros th' b id' n' P. destruct (Nat.eq_dec th' th) as [->|D].
        -- rewrite upd_n_same in P. destruct P as [P|P]; [discriminate P|injection P as <- <- <-]. repeat split; [congruence|exact S|lia|lia].
        -- rewrite upd_n_other in P by assumption. now apply (i_at _ _ I).
      * intros th' b id' n' ids' P. destruct (Nat.eq_dec th' th) as [->|D]; [rewrite upd_n_same in P; discriminate P|]. rewrite upd_n_other in P by assumption. now apply (i_made _ _ I) with (1 := P).
      * apply (i_next _ _ I).
      * apply (i_slot_next _ _ I).
      * apply (i_blocks _ _ I).
      * apply (i_used _ _ I).
    + injection E as <- <-. split; [eauto|]. intros _. cbn [in_use_after].
      assert (forall th' b id', upd_n (slots w) th (upd_z (slots w th) a (Some (next w))) th' b = Some id' ->
        (th' = th /\ b = a /\ id' = next w) \/ ((th' <> th \/ b <> a) /\ slots w th' b = Some id' /\ id' <> next w)) as SL.
      { intros th' b id' Q. assert (slots w th' b = Some id' -> id' <> next w) as LT by (intros Z1; pose proof (i_slot_next _ _ I _ _ _ Z1); lia).
        destruct (Nat.eq_dec th' th) as [->|D]; [rewrite upd_n_same in Q|rewrite upd_n_other in Q by assumption; right; auto].
        destruct (Z.eq_dec b a) as [->|D]; [rewrite upd_z_same in Q; injection Q as <-; now left|rewrite upd_z_other in Q by assumption; right; auto]. }
      constructor; cbn [arenas next slots objects at_ set_at set_slot].
      * intros th' b id' O' Q. destruct (SL _ _ _ Q) as [(-> & -> & ->)|(_ & Q' & NE)].
        -- exists arena_new. split; [apply upd_n_same|]. rewrite (mine_none w l th a I S). exact H_new.
        -- rewrite upd_n_other by assumption. now apply (i_arena _ _ I).
      * intros th1 b1 th2 b2 id' O1 O2 Q1 Q2. destruct (SL _ _ _ Q1) as [(-> & -> & ->)|(_ & Q1' & NE1)]; destruct (SL _ _ _ Q2) as [(-> & -> & E2)|(_ & Q2' & NE2)]; try congruence; auto.
        eapply (i_inj _ _ I); eassumption.
      * intros b ids' O'. destruct (i_ids _ _ I _ _ O') as [ND X]. split; [exact ND|]. intros id' Y. destruct (X id' Y) as (th' & Z1). exists th'.
        destruct (Nat.eq_dec th' th) as [->|D]; [rewrite upd_n_same|now rewrite upd_n_other].
        destruct (Z.eq_dec b a) as [->|D]; [congruence|now rewrite upd_z_other].
      * intros th' b id' ids' Q O'. destruct (SL _ _ _ Q) as [(-> & -> & ->)|(NE & Q' & _)]; [right; exists n; apply upd_n_same|].
        destruct (i_listed _ _ I _ _ _ _ Q' O') as [X|(n' & X)]; [now left|right]. exists n'. rewrite upd_n_other; [exact X|]. intros ->. congruence.
      * intros th' b id' n' P. destruct (Nat.eq_dec th' th) as [->|D].
        -- rewrite upd_n_same in P. destruct P as [P|P]; [injection P as <- <- <-|discriminate P]. split; [congruence|]. split; [|exact N]. now rewrite upd_n_same, upd_z_same.
        -- rewrite upd_n_other in P by assumption. rewrite upd_n_other by assumption. now apply (i_at _ _ I).
      * intros th' b id' n' ids' P O'. destruct (Nat.eq_dec th' th) as [->|D].
        -- rewrite upd_n_same in P. injection P as <- <- <-. intros X. destruct (i_ids _ _ I _ _ O') as [_ Y]. destruct (Y _ X) as (t & Z1).
           pose proof (i_slot_next _ _ I _ _ _ Z1). lia.
        -- rewrite upd_n_other in P by assumption. now apply (i_made _ _ I) with (1 := P).
      * intros id' L. rewrite upd_n_other by lia. apply (i_next _ _ I). lia.
      * intros th' b id' Q. destruct (SL _ _ _ Q) as [(-> & -> & ->)|(NE & Q' & _)]; [lia|]. pose proof (i_slot_next _ _ I _ _ _ Q'). lia.
      * intros i j x y rg s X Y NE IX IY. destruct (Nat.eq_dec i (next w)) as [->|Di]; [rewrite upd_n_same in X; injection X as <-; destruct IX|].
        destruct (Nat.eq_dec j (next w)) as [->|Dj]; [rewrite upd_n_same in Y; injection Y as <-; destruct IY|].
        rewrite upd_n_other in X, Y by assumption. exact (i_blocks _ _ I _ _ _ _ _ _ X Y NE IX IY).
      * intros th' b rg X. destruct (i_used _ _ I _ _ _ X) as (ids' & id' & O' & S' & Y). exists ids', id'. split; [exact O'|]. split; [|exact Y].
        destruct (Nat.eq_dec th' th) as [->|D]; [rewrite upd_n_same|now rewrite upd_n_other].
        destruct (Z.eq_dec b a) as [->|D]; [congruence|now rewrite upd_z_other].
  - (* Publish *) destruct A as (a & id & n & AT). rewrite AT in E. destruct (i_at _ _ I _ _ _ _ (or_introl AT)) as (O & S & N).
    destruct (objects w a) as [ids|] eqn:OA; [|contradiction]. injection E as <- <-. split; [eauto|]. intros _. cbn [in_use_after].
    assert (forall b, upd_z (objects w) a (Some (ids ++ [id])) b <> None -> objects w b <> None) as OO.
    { intros b. destruct (Z.eq_dec b a) as [->|D]; [congruence|now rewrite upd_z_other]. }
    constructor; cbn [arenas next slots objects at_ set_at set_objects].
    + intros th' b id' O'. apply OO in O'. now apply (i_arena _ _ I).
    + intros th1 b1 th2 b2 id' O1 O2. apply OO in O1, O2. now apply (i_inj _ _ I).
    + intros b ids' O'. destruct (Z.eq_dec b a) as [->|D].
      * rewrite upd_z_same in O'. injection O' as <-. destruct (i_ids _ _ I _ _ OA) as [ND X]. split.
        -- apply NoDup_rev in ND. rewrite <- rev_involutive, rev_app_distr. apply NoDup_rev. cbn. constructor; [|exact ND]. rewrite <- in_rev. exact (i_made _ _ I _ _ _ _ _ AT OA).
        -- intros id' Y. apply in_app_or in Y. destruct Y as [Y|[<-|[]]]; [auto|eauto].
      * rewrite upd_z_other in O' by assumption. now apply (i_ids _ _ I).
    + intros th' b id' ids' S' O'. destruct (Z.eq_dec b a) as [->|D].
      * rewrite upd_z_same in O'. injection O' as <-. destruct (i_listed _ _ I _ _ _ _ S' OA) as [X|(n' & X)]; [left; apply in_or_app; now left|].
        destruct (Nat.eq_dec th' th) as [->|D].
        -- left. apply in_or_app. right. rewrite S in S'. injection S' as <-. now left.
        -- right. exists n'. now rewrite upd_n_other.
      * rewrite upd_z_other in O' by assumption. destruct (i_listed _ _ I _ _ _ _ S' O') as [X|(n' & X)]; [now left|right]. exists n'. rewrite upd_n_other; [exact X|]. intros ->. congruence.
    + intros th' b id' n' P. destruct (Nat.eq_dec th' th) as [->|D].
      * rewrite upd_n_same in P. destruct P as [P|P]; [discriminate P|injection P as <- <- <-]. rewrite upd_z_same. repeat split; [discriminate|exact S|lia|lia].
      * rewrite upd_n_other in P by assumption. destruct (i_at _ _ I _ _ _ _ P) as (O' & S' & N'). split; [|auto].
        destruct (Z.eq_dec b a) as [->|D']; [now rewrite upd_z_same|now rewrite upd_z_other].
    + intros th' b id' n' ids' P O'. destruct (Nat.eq_dec th' th) as [->|D]; [rewrite upd_n_same in P; discriminate P|]. rewrite upd_n_other in P by assumption.
      destruct (Z.eq_dec b a) as [->|D'].
      * rewrite upd_z_same in O'. injection O' as <-. intros X. apply in_app_or in X. destruct X as [X|[<-|[]]]; [exact (i_made _ _ I _ _ _ _ _ P OA X)|].
        destruct (i_at _ _ I _ _ _ _ (or_introl P)) as (O1 & S1 & _). destruct (i_inj _ _ I th' a th a id O1 O1 S1 S) as [-> _]. contradiction.
      * rewrite upd_z_other in O' by assumption. exact (i_made _ _ I _ _ _ _ _ P O').
    + apply (i_next _ _ I).
    + apply (i_slot_next _ _ I).
    + apply (i_blocks _ _ I).
    + intros th' b rg X. destruct (i_used _ _ I _ _ _ X) as (ids' & id' & O' & S' & Y). destruct (Z.eq_dec b a) as [->|D].
      * rewrite upd_z_same. exists (ids ++ [id]), id'. split; [reflexivity|]. split; [exact S'|]. apply in_or_app. left. congruence.
      * rewrite upd_z_other by assumption. eauto.
  - (* Finish *) destruct A as ((a & id & n & AT) & MEM). rewrite AT in E. destruct (i_at _ _ I _ _ _ _ (or_intror AT)) as (O & S & N).
    destruct (i_arena _ _ I th a id O S) as (x & AX & HX). rewrite AX in E. destruct (allocate cf x n mem) as [x' r0] eqn:AL. injection E as <- <-.
    assert (system_answer_ok x mem) as SA. { intros k b K M. destruct (MEM k b K M) as (M1 & M2 & M3 & M4). repeat split; auto. exact (M4 id x AX). }
    assert (objects w a <> None -> In id match objects w a with Some ids => ids | None => [] end) as LISTED.
    { intros _. destruct (objects w a) as [ids|] eqn:OA; [|contradiction]. destruct (i_listed _ _ I _ _ _ _ S OA) as [X|(n' & X)]; [exact X|congruence]. }
    assert (forall g, (r0 = Err \/ exists v, r0 = Ret v) -> (g -> inv (set_at th Outside (set_arenas (upd_n (arenas w) id (Some x')) w)) (in_use_after w (Finish th mem) r0 l)) ->
      (r0 = Err \/ exists v, r0 = Ret v) /\ (g -> inv (set_at th Outside (set_arenas (upd_n (arenas w) id (Some x')) w)) (in_use_after w (Finish th mem) r0 l))) as SPLIT by auto.
    split.
    { clear -AL. revert AL. unfold allocate. destruct (roundUp cf n) as [size|]; [|intros [= <- <-]; auto].
      destruct (size <=? _); [intros [= <- <-]; eauto|]. destruct (canReuseExistingBlock cf (add_used x size) size) eqn:CR.
      - unfold canReuseExistingBlock in CR. destruct (_ <? _); [discriminate CR|]. destruct (currentBlock (add_used x size)) as [i|]; [|discriminate CR].
        destruct (nth_error (blocks (add_used x size)) (S i)) as [[b s]|] eqn:NE; [intros [= <- <-]; eauto|]. exfalso. apply nth_error_None in NE. apply Nat.ltb_lt in CR. lia.
      - unfold allocateSlow. destruct (_ <? _); [intros [= <- <-]; eauto|]. destruct (_ && _); [intros [= <- <-]; eauto|].
        destruct (minBlockSize cf <? size); destruct (mem _); intros [= <- <-]; eauto. }
    intros G. pose proof (H_alloc _ _ _ _ _ _ HX N SA AL G) as HX'.
    assert (forall th' b id', objects w b <> None -> slots w th' b = Some id' -> th' <> th \/ b <> a -> id' <> id) as DIFF.
    { intros th' b id' OB SB NE ->. destruct (i_inj _ _ I _ _ _ _ _ OB O SB S) as [-> ->]. destruct NE; contradiction. }
    assert (forall th' b, mine th' b (in_use_after w (Finish th mem) r0 l) =
      if Nat.eqb th th' && (a =? b) then live_after (Allocate n mem) r0 (mine th a l) else mine th' b l) as MINE.
    { intros th' b. cbn [in_use_after]. rewrite AT. destruct (Nat.eqb_spec th th') as [<-|D1]; [destruct (Z.eqb_spec a b) as [<-|D2]|];
        cbn [andb]; destruct r0; cbn [live_after]; try reflexivity; rewrite mine_cons; cbn [fst snd from bytes].
      - now rewrite Nat.eqb_refl, Z.eqb_refl.
      - rewrite (proj2 (Z.eqb_neq a b) D2), andb_false_r. reflexivity.
      - rewrite (proj2 (Nat.eqb_neq th th') D1). reflexivity. }
    assert (forall o, In o (owned x') -> In o (owned x) \/ (0 <= snd o /\ mem (snd o) = Some (fst o))) as OWN by exact (allocate_owned _ _ _ _ _ AL).
    assert (forall j y o s, arenas w j = Some y -> j <> id -> In o (owned x') -> In s (owned y) -> disjoint o s) as CROSS.
    { intros j y o s AY NE IO IS. destruct (OWN o IO) as [X|[X1 X2]]; [exact (i_blocks _ _ I _ _ _ _ _ _ AX AY (not_eq_sym NE) X IS)|].
      destruct (MEM _ _ X1 X2) as (_ & _ & _ & M). pose proof (proj1 (Forall_forall _ _) (M j y AY) _ IS) as Q. now rewrite <- surjective_pairing in Q. }
    constructor; cbn [arenas next slots objects at_ set_at set_arenas].
    + intros th' b id' O' S'. rewrite MINE. destruct (Nat.eqb_spec th th') as [<-|D1]; [destruct (Z.eqb_spec a b) as [<-|D2]|]; cbn [andb].
      * rewrite S in S'. injection S' as <-. exists x'. split; [apply upd_n_same|exact HX'].
      * rewrite upd_n_other by (eapply DIFF; [exact O'|exact S'|auto]). now apply (i_arena _ _ I).
      * rewrite upd_n_other by (eapply DIFF; [exact O'|exact S'|auto]). now apply (i_arena _ _ I).
    + apply (i_inj _ _ I).
    + apply (i_ids _ _ I).
    + intros th' b id' ids' S' O'. destruct (i_listed _ _ I _ _ _ _ S' O') as [X|(n' & X)]; [now left|right]. exists n'. rewrite upd_n_other; [exact X|]. intros ->. congruence.
    + intros th' b id' n' P. destruct (Nat.eq_dec th' th) as [->|D]; [rewrite upd_n_same in P; destruct P; discriminate|]. rewrite upd_n_other in P by assumption. now apply (i_at _ _ I).
    + intros th' b id' n' ids' P. destruct (Nat.eq_dec th' th) as [->|D]; [rewrite upd_n_same in P; discriminate|]. rewrite upd_n_other in P by assumption. now apply (i_made _ _ I) with (1 := P).
    + intros id' L. pose proof (i_slot_next _ _ I _ _ _ S). rewrite upd_n_other by lia. now apply (i_next _ _ I).
    + apply (i_slot_next _ _ I).
    + intros i j y z rg s Y Z1 NE IY IZ. destruct (Nat.eq_dec i id) as [->|Di].
      * rewrite upd_n_same in Y. injection Y as <-. rewrite upd_n_other in Z1 by auto. exact (CROSS _ _ _ _ Z1 (not_eq_sym NE) IY IZ).
      * rewrite upd_n_other in Y by assumption. destruct (Nat.eq_dec j id) as [->|Dj].
        -- rewrite upd_n_same in Z1. injection Z1 as <-. apply disjoint_sym. exact (CROSS _ _ _ _ Y Di IZ IY).
        -- rewrite upd_n_other in Z1 by assumption. exact (i_blocks _ _ I _ _ _ _ _ _ Y Z1 NE IY IZ).
    + intros th' b rg X. cbn [in_use_after] in X. rewrite AT in X. destruct r0 as [p| | |]; try (now apply (i_used _ _ I _ _ _ X)).
      destruct X as [X|X]; [|now apply (i_used _ _ I _ _ _ X)]. injection X as <- <- <-. destruct (objects w a) as [ids|] eqn:OA; [|contradiction].
      exists ids, id. split; [reflexivity|]. split; [exact S|]. apply LISTED. discriminate.
  - (* ResetAll *) destruct A as (O & NB). destruct (objects w a) as [ids|] eqn:OA; [|contradiction]. destruct (i_ids _ _ I _ _ OA) as [ND IDS].
    destruct (reset_ok ids (arenas w) ND (listed_alive w l a ids I OA)) as (h & RS & OT & CL). rewrite RS in E. injection E as <- <-. split; [eauto|]. intros _.
    cbn [in_use_after].
    assert (forall th' b id', objects w b <> None -> slots w th' b = Some id' -> (b = a /\ In id' ids) \/ (b <> a /\ ~ In id' ids)) as WHERE.
    { intros th' b id' OB SB. destruct (Z.eq_dec b a) as [->|D].
      - left. split; [reflexivity|]. destruct (i_listed _ _ I _ _ _ _ SB OA) as [X|(n & X)]; [exact X|]. exfalso. apply NB. exists th', id', n. now left.
      - right. split; [exact D|]. intros X. destruct (IDS _ X) as (t & T). destruct (i_inj _ _ I th' b t a id') as [_ Q]; auto. congruence. }
    assert (forall i y, h i = Some y -> exists x, arenas w i = Some x /\ forall o, In o (owned y) -> In o (owned x)) as OLD.
    { intros i y Y. destruct (in_dec Nat.eq_dec i ids) as [X|X].
      - destruct (arenas w i) as [x|] eqn:AX; [|destruct (listed_alive w l a ids I OA i X AX)]. rewrite (CL _ _ X AX) in Y. injection Y as <-.
        exists x. split; [reflexivity|apply clear_owned].
      - rewrite (OT _ X) in Y. exists y. auto. }
    constructor; cbn [arenas next slots objects at_ set_arenas].
    + intros th' b id' O' S'. destruct (i_arena _ _ I th' b id' O' S') as (x & AX & HX). destruct (WHERE _ _ _ O' S') as [(-> & X)|(D & X)].
      * exists (clear cf x). split; [now apply CL|]. rewrite mine_drop. eapply H_reset. exact HX.
      * exists x. split; [now rewrite OT|]. now rewrite mine_keep.
    + apply (i_inj _ _ I).
    + apply (i_ids _ _ I).
    + apply (i_listed _ _ I).
    + apply (i_at _ _ I).
    + apply (i_made _ _ I).
    + intros id' L. destruct (h id') as [y|] eqn:Y; [|reflexivity]. destruct (OLD _ _ Y) as (x & AX & _). rewrite (i_next _ _ I _ L) in AX. discriminate AX.
    + apply (i_slot_next _ _ I).
    + intros i j x y rg s X Y NE IX IY. destruct (OLD _ _ X) as (x0 & AX & SX). destruct (OLD _ _ Y) as (y0 & AY & SY). exact (i_blocks _ _ I _ _ _ _ _ _ AX AY NE (SX _ IX) (SY _ IY)).
    + intros th' b rg X. apply filter_In in X. apply (i_used _ _ I _ _ _ (proj1 X)).
  - (* Usage *) destruct A as (O & NB). destruct (objects w a) as [ids|] eqn:OA; [|contradiction].
    destruct (usage_ok ids (arenas w) 0 (listed_alive w l a ids I OA)) as (n & U). rewrite U in E. injection E as <- <-. split; [eauto|]. intros _. exact I.
  - (* Destroy *) destruct A as (O & NB). destruct (objects w a) as [ids|] eqn:OA; [|contradiction]. destruct (i_ids _ _ I _ _ OA) as [ND IDS].
    destruct (delete_ok ids (arenas w) ND (listed_alive w l a ids I OA)) as (h & RS & OT & CL). rewrite RS in E. injection E as <- <-. split; [eauto|]. intros _.
    cbn [in_use_after].
    assert (forall b, upd_z (objects w) a None b <> None -> b <> a /\ objects w b <> None) as OO.
    { intros b. destruct (Z.eq_dec b a) as [->|D]; [rewrite upd_z_same; congruence|]. rewrite upd_z_other by assumption. auto. }
    assert (forall th' b id', b <> a -> upd_n (slots w) th (upd_z (slots w th) a None) th' b = Some id' -> slots w th' b = Some id') as SL.
    { intros th' b id' D Q. destruct (Nat.eq_dec th' th) as [->|D']; [rewrite upd_n_same, upd_z_other in Q by assumption; exact Q|now rewrite upd_n_other in Q]. }
    assert (forall th' b, b <> a -> upd_n (slots w) th (upd_z (slots w th) a None) th' b = slots w th' b) as SL2.
    { intros th' b D. destruct (Nat.eq_dec th' th) as [->|D']; [now rewrite upd_n_same, upd_z_other|now rewrite upd_n_other]. }
    assert (forall th' b id', b <> a -> objects w b <> None -> slots w th' b = Some id' -> ~ In id' ids) as WHERE.
    { intros th' b id' D OB SB X. destruct (IDS _ X) as (t & T). destruct (i_inj _ _ I th' b t a id') as [_ Q]; auto. congruence. }
    assert (forall i y, h i = Some y -> arenas w i = Some y) as OLD.
    { intros i y Y. destruct (in_dec Nat.eq_dec i ids) as [X|X]; [rewrite (CL _ X) in Y; discriminate Y|now rewrite <- (OT _ X)]. }
    constructor; cbn [arenas next slots objects at_ set_arenas set_objects set_slot].
    + intros th' b id' O' S'. destruct (OO _ O') as [D O2]. apply SL in S'; [|exact D]. destruct (i_arena _ _ I th' b id' O2 S') as (x & AX & HX).
      exists x. split; [rewrite OT; [exact AX|exact (WHERE _ _ _ D O2 S')]|]. now rewrite mine_keep.
    + intros th1 b1 th2 b2 id' O1 O2 S1 S2. destruct (OO _ O1) as [D1 O1']. destruct (OO _ O2) as [D2 O2']. apply SL in S1, S2; try assumption. eapply (i_inj _ _ I); eassumption.
    + intros b ids' O'. destruct (Z.eq_dec b a) as [->|D]; [rewrite upd_z_same in O'; discriminate O'|]. rewrite upd_z_other in O' by assumption.
      destruct (i_ids _ _ I _ _ O') as [ND' X]. split; [exact ND'|]. intros id' Y. destruct (X _ Y) as (t & T). exists t. now rewrite SL2.
    + intros th' b id' ids' S' O'. destruct (Z.eq_dec b a) as [->|D]; [rewrite upd_z_same in O'; discriminate O'|]. rewrite upd_z_other in O' by assumption.
      apply SL in S'; [|exact D]. exact (i_listed _ _ I _ _ _ _ S' O').
    + intros th' b id' n P. destruct (i_at _ _ I _ _ _ _ P) as (O' & S' & N). assert (b <> a) as D by (intros ->; apply NB; exists th', id', n; exact P).
      rewrite upd_z_other, SL2 by assumption. auto.
    + intros th' b id' n ids' P O'. destruct (Z.eq_dec b a) as [->|D]; [rewrite upd_z_same in O'; discriminate O'|]. rewrite upd_z_other in O' by assumption. exact (i_made _ _ I _ _ _ _ _ P O').
    + intros id' L. destruct (h id') as [y|] eqn:Y; [|reflexivity]. apply OLD in Y. rewrite (i_next _ _ I _ L) in Y. discriminate Y.
    + intros th' b id' S'. destruct (Z.eq_dec b a) as [->|D]; [|apply SL in S'; [exact (i_slot_next _ _ I _ _ _ S')|exact D]].
      destruct (Nat.eq_dec th' th) as [->|D']; [rewrite upd_n_same, upd_z_same in S'; discriminate S'|]. rewrite upd_n_other in S' by assumption. exact (i_slot_next _ _ I _ _ _ S').
    + intros i j x y rg s X Y NE. apply OLD in X, Y. exact (i_blocks _ _ I _ _ _ _ _ _ X Y NE).
    + intros th' b rg X. apply filter_In in X. destruct X as [X Y]. cbn in Y. destruct (Z.eqb_spec b a) as [|D]; [discriminate Y|].
      destruct (i_used _ _ I _ _ _ X) as (ids' & id' & O' & S' & Y'). exists ids', id'. rewrite upd_z_other, SL2 by assumption. auto.
Qed.
Lemma run_inv w l : run new_places good w l -> inv w l.
Proof. induction 1 as [|w l c w' r R IH A N E G]; [exact inv_start|]. destruct (step_inv _ _ _ _ _ IH A N E) as [_ X]. auto. Qed.
End Run.

(** ** The pieces of all threads *)
Lemma all_disjoint (f : piece -> region) (l : list piece) :
  (forall th a, pairwise_disjoint (map f (filter (fun p => Nat.eqb (fst (fst p)) th && (from p =? a)) l))) ->
  (forall p q, In p l -> In q l -> fst p <> fst q -> disjoint (f p) (f q)) ->
  pairwise_disjoint (map f l).
Proof.
  unfold pairwise_disjoint. induction l as [|p l IH]; intros S C; [constructor|]. cbn [map]. constructor.
  - apply Forall_forall. intros y Y. apply in_map_iff in Y. destruct Y as (q & <- & Q).
    destruct p as [[th a] r]. destruct q as [[th' a'] r']. destruct (Nat.eq_dec th th') as [<-|D].
    + destruct (Z.eq_dec a a') as [<-|D].
      * specialize (S th a). cbn [filter fst snd from] in S. rewrite Nat.eqb_refl in S. unfold from in S. cbn [fst snd] in S. rewrite Z.eqb_refl in S. cbn [andb map] in S.
        inversion S as [|? ? S1 S2]. subst. apply (proj1 (Forall_forall _ _) S1). apply in_map, filter_In. split; [exact Q|]. cbn [fst snd]. now rewrite Nat.eqb_refl, Z.eqb_refl.
      * apply C; [now left|now right|]. cbn [fst]. congruence.
    + apply C; [now left|now right|]. cbn [fst]. congruence.
  - apply IH.
    + intros th a. specialize (S th a). cbn [filter] in S. destruct (_ && _) in S; [|exact S]. cbn [map] in S. now inversion S.
    + intros q q' Q Q'. apply C; now right.
Qed.

Lemma run_history w l : run new_places (fun _ => True) w l -> inv (history cf) w l.
Proof.
  apply run_inv.
  - constructor.
  - intros x m Hx. change (@nil region) with (live_after Reset (Ret 0) m). eapply h_step; [exact Hx|exact I|reflexivity].
  - intros x m n mem x' r Hx N S A _. eapply h_step; [exact Hx|split; assumption|exact A].
Qed.
Lemma run_history_ok w l : run new_places returns w l -> inv (history_ok cf) w l.
Proof.
  apply run_inv.
  - constructor.
  - intros x m Hx. change (@nil region) with (live_after Reset (Ret 0) m). eapply ho_step; [exact Hx|exact I|reflexivity].
  - intros x m n mem x' r Hx N S A (v & ->). eapply ho_step; [exact Hx|split; assumption|exact A].
Qed.

Lemma mine_in th a r l : In (th, a, r) l -> In r (mine th a l).
Proof.
  intros X. unfold mine. apply in_map_iff. exists (th, a, r). split; [reflexivity|]. apply filter_In. split; [exact X|]. cbn. now rewrite Nat.eqb_refl, Z.eqb_refl.
Qed.

Lemma shared_ok w l : run new_places (fun _ => True) w l ->
  pairwise_disjoint (map bytes l) /\
  (forall th a r, In (th, a, r) l -> (16 | fst r) /\ exists id x o,
    objects w a <> None /\ slots w th a = Some id /\ arenas w id = Some x /\ In o (owned x) /\ inside r o) /\
  (forall c w' r, allowed w c -> new_places w c -> step w c = (w', r) -> r = Err \/ exists v, r = Ret v).
Proof.
  intros R. pose proof (run_history w l R) as V.
  assert (forall th a r, In (th, a, r) l -> exists id x o,
    objects w a <> None /\ slots w th a = Some id /\ arenas w id = Some x /\ history cf x (mine th a l) /\ In o (owned x) /\ inside r o /\ (16 | fst r)) as LOC.
  { intros th a r X. destruct (i_used _ _ _ V _ _ _ X) as (ids & id & O & S & _). destruct (i_arena _ _ _ V th a id) as (x & AX & HX); [congruence|exact S|].
    destruct (arena_safe cf default_config_ok x _ HX) as [_ F]. pose proof (proj1 (Forall_forall _ _) F r (mine_in _ _ _ _ X)) as [AL (o & OO & IN)].
    exists id, x, o. repeat (split; [first [assumption|congruence]|]). exact AL. }
  split; [|split].
  - apply all_disjoint.
    + intros th a. fold (mine th a l). destruct (mine th a l) as [|r0 m] eqn:M; [constructor|].
      assert (exists r, In (th, a, r) l) as (r & X).
      { assert (In r0 (mine th a l)) as Y by (rewrite M; now left). unfold mine in Y. apply in_map_iff in Y. destruct Y as ([[th' a'] r'] & <- & Y). apply filter_In in Y.
        destruct Y as [Y Z1]. cbn in Z1. apply andb_true_iff in Z1. destruct Z1 as [Z1 Z2]. apply Nat.eqb_eq in Z1. apply Z.eqb_eq in Z2. subst. eauto. }
      destruct (LOC _ _ _ X) as (id & x & o & _ & _ & _ & HX & _). rewrite <- M. apply (arena_safe cf default_config_ok x _ HX).
    + intros [[th a] r] [[th' a'] r'] P Q NE. cbn [fst snd bytes] in *.
      destruct (LOC _ _ _ P) as (id & x & o & O & S & AX & _ & OO & IN & _). destruct (LOC _ _ _ Q) as (id' & x' & o' & O' & S' & AX' & _ & OO' & IN' & _).
      assert (id <> id') as D. { intros <-. destruct (i_inj _ _ _ V _ _ _ _ _ O O' S S') as [-> ->]. now apply NE. }
      eapply inside_disjoint; [exact IN|exact IN'|exact (i_blocks _ _ _ V _ _ _ _ _ _ AX AX' D OO OO')].
  - intros th a r X. destruct (LOC _ _ _ X) as (id & x & o & O & S & AX & _ & OO & IN & AL). split; [exact AL|]. exists id, x, o. auto.
  - intros c w' r A N E. apply (step_inv (history cf) (fun _ => True)) with (l := l) in E; auto.
    + apply E.
    + constructor.
    + intros x m Hx. change (@nil region) with (live_after Reset (Ret 0) m). eapply h_step; [exact Hx|exact I|reflexivity].
    + intros x m n mem x' r' Hx K S A' _. eapply h_step; [exact Hx|split; assumption|exact A'].
Qed.

(** ** Usage *)
Lemma sum_once (k : Z) t : forall ths, NoDup ths -> In t ths -> fold_right (fun th s => (if Nat.eqb t th then k else 0) + s) 0 ths = k.
Proof.
  assert (forall ths, ~ In t ths -> fold_right (fun th s => (if Nat.eqb t th then k else 0) + s) 0 ths = 0) as Z0.
  { induction ths as [|u ths IH]; intros N; [reflexivity|]. cbn. rewrite IH by (intros X; apply N; now right).
    destruct (Nat.eqb_spec t u) as [->|]; [destruct N; now left|reflexivity]. }
  induction ths as [|u ths IH]; intros N X; [destruct X|]. inversion N as [|? ? N1 N2]. subst. cbn. destruct (Nat.eqb_spec t u) as [->|D].
  - rewrite Z0 by assumption. lia.
  - rewrite IH; [lia|assumption|]. destruct X as [->|X]; [contradiction|exact X].
Qed.
Lemma sum_threads al a ths : NoDup ths -> forall l, (forall p, In p l -> from p = a -> In (fst (fst p)) ths) ->
  total_rounded al (map bytes (filter (fun p => from p =? a) l)) = fold_right (fun th s => total_rounded al (mine th a l) + s) 0 ths.
Proof.
  intros N. induction l as [|p l IH]; intros A.
  - cbn. clear. induction ths; [reflexivity|]. cbn. lia.
  - cbn [filter]. specialize (IH (fun q Q => A q (or_intror Q))).
    assert (fold_right (fun th s => total_rounded al (mine th a (p :: l)) + s) 0 ths =
      (if from p =? a then ceil_to al (snd (bytes p)) else 0) + fold_right (fun th s => total_rounded al (mine th a l) + s) 0 ths) as ->.
    { destruct (Z.eqb_spec (from p) a) as [E|E].
      - rewrite <- (sum_once (ceil_to al (snd (bytes p))) (fst (fst p)) ths N (A p (or_introl eq_refl) E)) at 1.
        clear -E. induction ths as [|u ths IH]; [reflexivity|]. cbn [fold_right]. rewrite IH, mine_cons, (proj2 (Z.eqb_eq _ _) E), andb_true_r.
        destruct (Nat.eqb _ u); cbn [total_rounded fold_right]; unfold total_rounded; cbn [fold_right]; lia.
      - clear -E. induction ths as [|u ths IH]; [reflexivity|]. cbn [fold_right]. rewrite IH, mine_cons, (proj2 (Z.eqb_neq _ _) E), andb_false_r. lia. }
    rewrite <- IH. destruct (from p =? a); [reflexivity|lia].
Qed.
Lemma sum_usage_wrap h : forall ids t, (forall id, In id ids -> h id <> None) ->
  sum_usage ids h (wrapu 64 t) = Some (wrapu 64 (t + fold_right (fun id s => match h id with Some x => bytesUsed x | None => 0 end + s) 0 ids)).
Proof.
  induction ids as [|i ids IH]; intros t A; [cbn; now rewrite Z.add_0_r|]. cbn [sum_usage fold_right]. destruct (h i) as [x|] eqn:Hi; [|destruct (A i (or_introl eq_refl) Hi)].
  replace (wrapu 64 (wrapu 64 t + bytesUsed x)) with (wrapu 64 (t + bytesUsed x)) by (unfold wrapu; now rewrite Zplus_mod_idemp_l).
  rewrite IH by (intros id I; apply A; now right). do 2 f_equal. lia.
Qed.
Lemma owners (slot : nat -> option nat) : forall ids, NoDup ids -> (forall id, In id ids -> exists th, slot th = Some id) ->
  exists ths, NoDup ths /\ Forall2 (fun id th => slot th = Some id) ids ths.
Proof.
  induction ids as [|i ids IH]; intros N A; [exists []; split; constructor|]. inversion N as [|? ? N1 N2]. subst.
  destruct (IH N2 (fun id I => A id (or_intror I))) as (ths & NT & F). destruct (A i (or_introl eq_refl)) as (th & T). exists (th :: ths). split; [|now constructor].
  constructor; [|exact NT]. intros X. apply N1. clear -F X T. induction F as [|id u ids ths E F IH]; [destruct X|]. destruct X as [->|X]; [left; congruence|right; auto].
Qed.
Definition rounded_bytes (p : piece) : region := (fst (bytes p), ceil_to 16 (snd (bytes p))).
Lemma FOP_map_filter (f : piece -> region) g l : pairwise_disjoint (map f l) -> pairwise_disjoint (map f (filter g l)).
Proof.
  unfold pairwise_disjoint. induction l as [|p l IH]; intros P; [exact P|]. cbn in *. inversion P as [|? ? P1 P2]. subst. destruct (g p); [|auto]. cbn. constructor; [|auto].
  apply Forall_forall. intros y Y. apply in_map_iff in Y. destruct Y as (q & <- & Q). apply filter_In in Q. apply (proj1 (Forall_forall _ _) P1). apply in_map, Q.
Qed.
Lemma rounded_fits w l g : inv (history_ok cf) w l -> 0 <= total_rounded 16 (map bytes (filter g l)) < 2 ^ 64.
Proof.
  intros V.
  assert (forall th a r, In (th, a, r) l -> exists id x o,
    objects w a <> None /\ slots w th a = Some id /\ arenas w id = Some x /\ history cf x (mine th a l) /\ In o (owned x) /\ inside (rounded_bytes (th, a, r)) o /\
    1 <= fst (rounded_bytes (th, a, r)) /\ 0 < snd (rounded_bytes (th, a, r)) /\ fst (rounded_bytes (th, a, r)) + snd (rounded_bytes (th, a, r)) <= 2 ^ 64) as LOC.
  { intros th a r X. destruct (i_used _ _ _ V _ _ _ X) as (ids & id & O & S & _). destruct (i_arena _ _ _ V th a id) as (x & AX & HX); [congruence|exact S|].
    apply history_ok_history in HX. destruct (history_inv cf default_config_ok x _ HX) as [HI HF].
    assert (In (rounded_bytes (th, a, r)) (rounded cf (mine th a l))) as Y. { unfold rounded. apply in_map_iff. exists r. split; [reflexivity|exact (mine_in _ _ _ _ X)]. }
    destruct (located_owned _ _ _ _ HI Y) as (o & OO & IN). exists id, x, o. repeat (split; [first [assumption|congruence]|]).
    pose proof (proj1 (Forall_forall _ _) (I_good _ _ _ HI) o OO) as (G1 & G2 & _).
    pose proof (proj1 (Forall_forall _ _) (I_loc _ _ _ HI) _ Y) as (_ & L1 & _). unfold inside in IN. lia. }
  assert (pairwise_disjoint (map rounded_bytes l)) as PD.
  { apply all_disjoint.
    - intros th a. destruct (filter (fun p => Nat.eqb (fst (fst p)) th && (from p =? a)) l) as [|[[th' a'] r] m] eqn:M; [constructor|].
      assert (In (th', a', r) (filter (fun p => Nat.eqb (fst (fst p)) th && (from p =? a)) l)) as Y by (rewrite M; now left). apply filter_In in Y.
      destruct Y as [Y Z1]. cbn in Z1. apply andb_true_iff in Z1. destruct Z1 as [Z1 Z2]. apply Nat.eqb_eq in Z1. apply Z.eqb_eq in Z2. subst.
      destruct (LOC _ _ _ Y) as (id & x & o & _ & _ & _ & HX & _). rewrite <- M.
      destruct (history_inv cf default_config_ok x _ HX) as [HI _]. pose proof (I_live _ _ _ HI) as L. unfold rounded, mine in L. rewrite map_map in L. exact L.
    - intros [[th a] r] [[th' a'] r'] P Q NE. cbn [fst] in NE.
      destruct (LOC _ _ _ P) as (id & x & o & O & S & AX & _ & OO & IN & _). destruct (LOC _ _ _ Q) as (id' & x' & o' & O' & S' & AX' & _ & OO' & IN' & _).
      assert (id <> id') as D. { intros <-. destruct (i_inj _ _ _ V _ _ _ _ _ O O' S S') as [-> ->]. now apply NE. }
      eapply inside_disjoint; [exact IN|exact IN'|exact (i_blocks _ _ _ V _ _ _ _ _ _ AX AX' D OO OO')]. }
  apply (FOP_map_filter _ g) in PD.
  assert (total_rounded 16 (map bytes (filter g l)) = total (map rounded_bytes (filter g l))) as ->.
  { unfold total_rounded, total. clear. induction (filter g l) as [|p m IH]; [reflexivity|]. cbn. now rewrite IH. }
  assert (Forall (fun r => 1 <= fst r /\ 0 < snd r /\ fst r + snd r <= 2 ^ 64) (map rounded_bytes (filter g l))) as FR.
  { apply Forall_forall. intros y Y. apply in_map_iff in Y. destruct Y as ([[th a] r] & <- & Q). apply filter_In in Q. destruct Q as [Q _].
    destruct (LOC _ _ _ Q) as (id & x & o & _ & _ & _ & _ & _ & _ & B). exact B. }
  split.
  - clear -FR. induction FR as [|x m G _ IHl]; cbn; [lia|]. unfold total in IHl. lia.
  - assert (total (map rounded_bytes (filter g l)) <= 2 ^ 64 - 1) as T by (apply (disjoint_total cf (length (map rounded_bytes (filter g l))) _ 1 (2 ^ 64)); [lia|lia|exact PD|exact FR]). lia.
Qed.
Lemma usage_sum w l a ids : run new_places returns w l -> objects w a = Some ids -> ~ busy w a ->
  exists n, snd (step w (Usage a)) = Ret n /\ n = total_rounded 16 (map bytes (filter (fun p => from p =? a) l)).
Proof.
  intros R O NB. pose proof (run_history_ok w l R) as V. destruct (i_ids _ _ _ V _ _ O) as [ND IDS].
  pose proof (listed_alive _ w l a ids V O) as ALIVE. destruct (owners (fun th => slots w th a) ids ND IDS) as (ths & NT & F).
  cbn [step]. rewrite O. change 0 with (wrapu 64 0) at 1. rewrite (sum_usage_wrap (arenas w) ids 0 ALIVE). cbn [snd]. eexists. split; [reflexivity|]. rewrite Z.add_0_l.
  assert (forall p, In p l -> from p = a -> In (fst (fst p)) ths) as IN.
  { intros [[th b] r] P E. cbn in E. subst b. destruct (i_used _ _ _ V _ _ _ P) as (ids' & id & O' & S & X). cbn [fst]. rewrite O in O'. injection O' as <-.
    assert (forall th', slots w th' a = Some id -> th' = th) as U. { intros th' S'. apply (i_inj _ _ _ V th' a th a id); congruence. }
    clear -F X U. induction F as [|i u ids ths E F IH]; [destruct X|]. destruct X as [->|X]; [left; exact (U _ E)|right; auto]. }
  rewrite (sum_threads 16 a ths NT l IN).
  assert (fold_right (fun id s => match arenas w id with Some x => bytesUsed x | None => 0 end + s) 0 ids =
    fold_right (fun th s => total_rounded 16 (mine th a l) + s) 0 ths) as ->.
  { assert (objects w a <> None) as O' by congruence. clear -F V O'. induction F as [|i u ids' ths E F IH]; [reflexivity|]. cbn [fold_right]. rewrite IH. f_equal.
    destruct (i_arena _ _ _ V u a i) as (x & AX & HX); [exact O'|exact E|]. rewrite AX. exact (used_exact cf default_config_ok x _ HX). }
  rewrite <- (sum_threads 16 a ths NT l IN). apply wrapu_id. now apply (rounded_fits w l).
Qed.

(** ** A value left behind *)
(** an allocator with room from 65536 *)
Definition room (b : Z) (k : Z) : option Z := if k <=? 1048576 then Some b else None.
Lemma stale (a : Z) (th1 th2 : nat) : th1 <> th2 -> exists w l mem,
  run (fun _ _ => True) returns w l /\ allowed w (Finish th2 mem) /\ snd (step w (Finish th2 mem)) = UB.
Proof.
  intros D.
  assert (forall w l c, run (fun _ _ => True) returns w l -> allowed w c -> (exists v, snd (step w c) = Ret v) ->
    exists l', run (fun _ _ => True) returns (fst (step w c)) l') as NEXT.
  { intros w l c R A (v & E). exists (in_use_after w c (Ret v) l). eapply run_step; [exact R|exact A|exact I| |exists v; reflexivity].
    rewrite <- E. apply surjective_pairing. }
  set (w1 := fst (step start (Create a))). destruct (NEXT start [] (Create a) (run_start _ _) eq_refl (ex_intro _ 0 eq_refl)) as (l1 & R1). fold w1 in R1.
  assert (objects w1 a = Some []) as O1 by (apply upd_z_same).
  destruct (NEXT w1 l1 (Enter th2 a 100) R1) as (l2 & R2).
  { split; [rewrite O1; discriminate|]. split; [reflexivity|lia]. }
  { exists 0. cbn [step]. rewrite O1. reflexivity. }
  assert (slots w1 th2 a = None) as S1 by reflexivity. cbn [step] in R2. rewrite O1, S1 in R2. cbv zeta in R2.
  match type of R2 with run _ _ (fst (?x, _)) _ => set (w2 := x) in R2 end. cbn [fst] in R2.
  assert (at_ w2 th2 = Made a 0 100) as A2 by (apply upd_n_same). assert (objects w2 a = Some []) as O2 by exact O1.
  destruct (NEXT w2 l2 (Publish th2) R2) as (l3 & R3).
  { exists a, 0%nat, 100. exact A2. }
  { exists 0. cbn [step]. rewrite A2, O2. reflexivity. }
  cbn [step] in R3. rewrite A2, O2 in R3. match type of R3 with run _ _ (fst (?x, _)) _ => set (w3 := x) in R3 end. cbn [fst] in R3.
  assert (at_ w3 th2 = Have a 0 100) as A3 by (apply upd_n_same). assert (objects w3 a = Some [0%nat]) as O3 by (apply upd_z_same).
  assert (arenas w3 0%nat = Some arena_new) as AR3 by reflexivity.
  assert (forall id x, arenas w3 id = Some x -> x = arena_new) as AL3. { intros [|id] x; cbn; [congruence|discriminate]. }
  destruct (allocate cf arena_new 100 (room 65536)) as [x4 r4] eqn:AL.
  assert (exists v, r4 = Ret v) as (v4 & ->). { revert AL. vm_compute. intros [= <- <-]. eauto. }
  destruct (NEXT w3 l3 (Finish th2 (room 65536)) R3) as (l4 & R4).
  { split; [eauto|]. intros n b N M. unfold room in M. destruct (Z.leb_spec n 1048576); [|discriminate M]. injection M as <-.
    split; [lia|]. split; [exists 4096; reflexivity|]. split; [lia|]. intros id x X. rewrite (AL3 _ _ X). constructor. }
  { exists v4. cbn [step]. rewrite A3, AR3, AL. reflexivity. }
  cbn [step] in R4. rewrite A3, AR3, AL in R4. match type of R4 with run _ _ (fst (?x, _)) _ => set (w4 := x) in R4 end. cbn [fst] in R4.
  assert (at_ w4 th2 = Outside) as A4 by (apply upd_n_same). assert (objects w4 a = Some [0%nat]) as O4 by exact O3.
  assert (forall th, at_ w4 th = Outside) as AA4.
  { intros th. destruct (Nat.eq_dec th th2) as [->|N]; [exact A4|]. cbn. rewrite !upd_n_other by assumption. reflexivity. }
  assert (arenas w4 0%nat = Some x4) as AR4 by reflexivity.
  destruct (NEXT w4 l4 (Destroy th1 a) R4) as (l5 & R5).
  { split; [rewrite O4; discriminate|]. intros (th & id & n & B). rewrite AA4 in B. destruct B as [B|B]; discriminate B. }
  { exists 0. cbn [step]. rewrite O4. cbn [delete_arenas]. rewrite AR4. reflexivity. }
  cbn [step] in R5. rewrite O4 in R5. cbn [delete_arenas] in R5. rewrite AR4 in R5. match type of R5 with run _ _ (fst (?x, _)) _ => set (w5 := x) in R5 end. cbn [fst] in R5.
  assert (objects w5 a = None) as O5 by (apply upd_z_same).
  assert (slots w5 th2 a = Some 0%nat) as S5.
  { cbn. rewrite upd_n_other by auto. rewrite upd_n_same, upd_z_same. reflexivity. }
  destruct (NEXT w5 l5 (Create a) R5 O5 (ex_intro _ 0 eq_refl)) as (l6 & R6).
  cbn [step] in R6. match type of R6 with run _ _ (fst (?x, _)) _ => set (w6 := x) in R6 end. cbn [fst] in R6.
  assert (objects w6 a = Some []) as O6 by (apply upd_z_same). assert (slots w6 th2 a = Some 0%nat) as S6 by exact S5.
  destruct (NEXT w6 l6 (Enter th2 a 100) R6) as (l7 & R7).
  { split; [rewrite O6; discriminate|]. split; [exact (AA4 th2)|lia]. }
  { exists 0. cbn [step]. rewrite O6, S6. reflexivity. }
  cbn [step] in R7. rewrite O6, S6 in R7. match type of R7 with run _ _ (fst (?x, _)) _ => set (w7 := x) in R7 end. cbn [fst] in R7.
  assert (at_ w7 th2 = Have a 0 100) as A7 by (apply upd_n_same). assert (forall id, arenas w7 id = None) as AR7. { intros [|[|id]]; reflexivity. }
  exists w7, l7, (room 65536). split; [exact R7|]. split.
  - split; [eauto|]. intros n b N M. unfold room in M. destruct (Z.leb_spec n 1048576); [|discriminate M]. injection M as <-.
    split; [lia|]. split; [exists 4096; reflexivity|]. split; [lia|]. intros id x X. rewrite AR7 in X. discriminate X.
  - cbn [step]. rewrite A7, AR7. reflexivity.
Qed.
(** two threads, interleaved inside their first Allocate *)
Definition after (cs : list action) : world := fold_left (fun w c => fst (step w c)) cs start.
Lemma two_threads : exists w, run new_places returns w [(1%nat, 4096, (262160, 50)); (2%nat, 4096, (65552, 100))].
Proof.
  assert (forall cs l c v l', run new_places returns (after cs) l -> allowed (after cs) c -> new_places (after cs) c -> snd (step (after cs) c) = Ret v ->
    in_use_after (after cs) c (Ret v) l = l' -> run new_places returns (after (cs ++ [c])) l') as NEXT.
  { intros cs l c v l' Q A N E <-. unfold after. rewrite fold_left_app. eapply run_step; [exact Q|exact A|exact N| |exists v; reflexivity].
    cbn [fold_left]. fold (after cs). rewrite <- E. apply surjective_pairing. }
  pose proof (NEXT [] [] (Create 4096) 0 [] (run_start _ _) eq_refl (fun _ => eq_refl) eq_refl eq_refl) as R1. cbn [app] in R1.
  assert (allowed (after [Create 4096]) (Enter 2 4096 100)) as A by (split; [discriminate|split; [reflexivity|lia]]).
  pose proof (NEXT _ _ _ 0 [] R1 A I eq_refl eq_refl) as R2. cbn [app] in R2. clear A R1.
  assert (allowed (after [Create 4096; Enter 2 4096 100]) (Enter 1 4096 50)) as A by (split; [discriminate|split; [reflexivity|lia]]).
  pose proof (NEXT _ _ _ 0 [] R2 A I eq_refl eq_refl) as R3. cbn [app] in R3. clear A R2.
  assert (allowed (after [Create 4096; Enter 2 4096 100; Enter 1 4096 50]) (Publish 1)) as A by (exists 4096, 1%nat, 50; reflexivity).
  pose proof (NEXT _ _ _ 0 [] R3 A I eq_refl eq_refl) as R4. cbn [app] in R4. clear A R3.
  assert (allowed (after [Create 4096; Enter 2 4096 100; Enter 1 4096 50; Publish 1]) (Publish 2)) as A by (exists 4096, 0%nat, 100; reflexivity).
  pose proof (NEXT _ _ _ 0 [] R4 A I eq_refl eq_refl) as R5. cbn [app] in R5. clear A R4.
  match type of R5 with run _ _ ?w _ => assert (allowed w (Finish 2 (room 65536))) as A end.
  { split; [exists 4096, 0%nat, 100; reflexivity|]. intros n b N M. unfold room in M. destruct (Z.leb_spec n 1048576); [|discriminate M]. injection M as <-.
    split; [lia|]. split; [exists 4096; reflexivity|]. split; [lia|]. intros [|[|id]] x X; cbn in X; [| |discriminate X]; injection X as <-; constructor. }
  pose proof (NEXT _ _ _ 65552 [(2%nat, 4096, (65552, 100))] R5 A I eq_refl eq_refl) as R6. cbn [app] in R6. clear A R5.
  match type of R6 with run _ _ ?w _ => assert (allowed w (Finish 1 (room 262144))) as A; [|assert (snd (step w (Finish 1 (room 262144))) = Ret 262160) as E by reflexivity] end.
  { split; [exists 4096, 1%nat, 50; reflexivity|]. intros n b N M. unfold room in M. destruct (Z.leb_spec n 1048576); [|discriminate M]. injection M as <-.
    split; [lia|]. split; [exists 16384; reflexivity|]. split; [lia|].
    intros [|[|id]] x X; [| |discriminate X]; apply (f_equal (option_map owned)) in X; cbn [option_map] in X;
      [replace (owned x) with [(65536, 4096)]|replace (owned x) with (@nil region)]; try (injection X as <-; vm_compute; reflexivity); [|constructor].
    constructor; [unfold disjoint; cbn [fst snd]; lia|constructor]. }
  pose proof (NEXT _ _ _ 262160 [(1%nat, 4096, (262160, 50)); (2%nat, 4096, (65552, 100))] R6 A I E eq_refl) as R7. eexists. exact R7.
Qed.
