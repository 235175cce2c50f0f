(** Proofs about the node pool. *)
From Coq Require Import List ZArith Bool Lia Arith Permutation.
Import ListNotations.
From Verif Require Import Base Arena_Model Arena_Spec Arena_Proofs Pool_Model Pool_Spec.
Open Scope Z_scope.

Record inv (p : pool) (tr : list event) (live : list region) (ended : list (list obj)) (cur : list obj) : Prop := {
  v_arena : history default_config (mem_ p) live;
  v_tr : tr = life ended cur;
  v_ids : map o_id (concat ended ++ cur) = seq 0 (objects p);
  v_live : Forall (fun o => In (extent o) live /\ 0 < o_size o) cur;
  v_dis : pairwise_disjoint (map extent cur);
  v_dtor : destructors p = map o_at (filter o_destructible cur);
  v_who : Forall (fun o => who p (o_at o) = Some (o_id o)) cur;
  v_past : Forall (fun l => pairwise_disjoint (map extent l)) ended
}.

Lemma inv_new : inv pool_new [] [] [] [].
Proof. constructor; cbn; try constructor. Qed.

Lemma ordpairs_snoc {A} (R : A -> A -> Prop) l x :
  ForallOrdPairs R l -> Forall (fun y => R y x) l -> ForallOrdPairs R (l ++ [x]).
Proof.
  induction 1 as [|a l H1 H2 IH]; intros F; cbn; constructor.
  - constructor.
  - constructor.
  - apply Forall_app. split; [exact H1|]. constructor; [exact (Forall_inv F)|constructor].
  - apply IH. exact (Forall_inv_tail F).
Qed.

Lemma disjoint_sym r s : disjoint r s -> disjoint s r.
Proof. unfold disjoint. tauto. Qed.

Lemma run_all p l : Forall (fun o => who p (o_at o) = Some (o_id o)) l ->
  run_destructors p (map o_at l) = Ret (map (fun o => Gone (o_id o)) l).
Proof.
  induction 1 as [|o l H F IH]; [reflexivity|]. cbn. unfold Destroy. rewrite H. cbn.
  rewrite IH. reflexivity.
Qed.

Lemma closes p tr live ended cur : inv p tr live ended cur ->
  run_destructors p (rev (destructors p)) =
  Ret (map (fun o => Gone (o_id o)) (rev (filter o_destructible cur))).
Proof.
  intros V. rewrite (v_dtor _ _ _ _ _ V), <- map_rev. apply run_all.
  apply Forall_rev. apply Forall_forall. intros o Io. apply filter_In in Io.
  exact (proj1 (Forall_forall _ _) (v_who _ _ _ _ _ V) _ (proj1 Io)).
Qed.

Lemma alloc_cases m live n sys : history default_config m live -> 0 < n < 2 ^ 64 ->
  system_answer_ok m sys ->
  match allocate default_config m n sys with
  | (m', Ret q) => history default_config m' ((q, n) :: live) /\ Forall (disjoint (q, n)) live
  | (m', Err) => history default_config m' live
  | _ => False
  end.
Proof.
  intros H R S.
  assert (O : op_ok m (Allocate n sys)) by (split; assumption).
  destruct (allocate default_config m n sys) as [m' r] eqn:E.
  assert (St : arena_step default_config m (Allocate n sys) = (m', r)) by exact E.
  destruct (history_no_ub default_config default_config_ok m live _ m' r H O St) as [->|(q & ->)].
  - exact (h_step _ _ _ _ _ _ H O St).
  - pose proof (h_step _ _ _ _ _ _ H O St) as H'. cbn in H'. split; [exact H'|].
    destruct (arena_safe default_config default_config_ok m' _ H') as (D & _).
    inversion D; assumption.
Qed.

Lemma life_close ended cur : life ended cur ++ closing cur = life (ended ++ [cur]) [].
Proof.
  unfold life. rewrite flat_map_app. cbn. rewrite !app_nil_r, <- app_assoc. reflexivity.
Qed.

Lemma step_inv p tr live ended cur o : inv p tr live ended cur -> pool_op_ok p o ->
  match pool_step p o with
  | (p', Ret es) => exists live' ended' cur', inv p' (tr ++ es) live' ended' cur'
  | (p', Err) => exists live' ended' cur', inv p' tr live' ended' cur'
  | _ => False
  end.
Proof.
  intros V Ok. destruct o as [n d sys|n sys|]; cbn [pool_step pool_op_ok] in *.
  - destruct Ok as (R & S). unfold New.
    pose proof (alloc_cases _ _ n sys (v_arena _ _ _ _ _ V) R S) as A.
    destruct (allocate default_config (mem_ p) n sys) as [m [q| | |]]; try contradiction.
    + destruct A as (A & D).
      set (o := {| o_id := objects p; o_at := q; o_size := n; o_destructible := d |}).
      assert (Dc : Forall (fun x => disjoint (q, n) (extent x)) cur).
      { apply Forall_forall. intros x Ix.
        pose proof (proj1 (Forall_forall _ _) (v_live _ _ _ _ _ V) _ Ix) as (Lx & _).
        exact (proj1 (Forall_forall _ _) D _ Lx). }
      exists ((q, n) :: live), ended, (cur ++ [o]). constructor; cbn [mem_ destructors objects who].
      * exact A.
      * rewrite (v_tr _ _ _ _ _ V). unfold life. rewrite map_app, <- app_assoc. reflexivity.
      * rewrite app_assoc, map_app, (v_ids _ _ _ _ _ V), seq_S. reflexivity.
      * apply Forall_app. split.
        -- eapply Forall_impl; [|exact (v_live _ _ _ _ _ V)]. intros x (L1 & L2). split; [now right|exact L2].
        -- constructor; [|constructor]. split; [now left|cbn; lia].
      * rewrite map_app. apply ordpairs_snoc; [exact (v_dis _ _ _ _ _ V)|].
        apply Forall_map. eapply Forall_impl; [|exact Dc]. intros x. apply disjoint_sym.
      * rewrite (v_dtor _ _ _ _ _ V), filter_app. cbn [filter]. subst o; cbn [o_destructible].
        destruct d; [now rewrite map_app|now rewrite app_nil_r].
      * apply Forall_app. split.
        -- apply Forall_forall. intros x Ix.
           pose proof (proj1 (Forall_forall _ _) (v_live _ _ _ _ _ V) _ Ix) as (_ & Sx).
           pose proof (proj1 (Forall_forall _ _) Dc _ Ix) as Px.
           unfold disjoint, extent in Px; cbn in Px.
           destruct (Z.eqb_spec (o_at x) q); [lia|].
           exact (proj1 (Forall_forall _ _) (v_who _ _ _ _ _ V) _ Ix).
        -- constructor; [|constructor]. cbn. now rewrite Z.eqb_refl.
      * exact (v_past _ _ _ _ _ V).
    + exists live, ended, cur. destruct V. constructor; auto.
  - destruct Ok as (R & S). unfold Raw.
    pose proof (alloc_cases _ _ n sys (v_arena _ _ _ _ _ V) R S) as A.
    destruct (allocate default_config (mem_ p) n sys) as [m [q| | |]]; try contradiction.
    + exists ((q, n) :: live), ended, cur. destruct A as (A & _). rewrite app_nil_r.
      destruct V. constructor; auto. eapply Forall_impl; [|exact v_live0]. intros x (L1 & L2).
      split; [now right|exact L2].
    + exists live, ended, cur. destruct V. constructor; auto.
  - unfold Reset. rewrite (closes _ _ _ _ _ V). cbn [obind].
    exists [], (ended ++ [cur]), []. constructor; cbn [mem_ destructors objects who].
    + exact (h_step default_config _ _ Arena_Model.Reset _ (Ret 0) (v_arena _ _ _ _ _ V) I eq_refl).
    + fold (closing cur). rewrite (v_tr _ _ _ _ _ V). apply life_close.
    + rewrite concat_app. cbn. rewrite !app_nil_r. exact (v_ids _ _ _ _ _ V).
    + constructor.
    + constructor.
    + reflexivity.
    + constructor.
    + apply Forall_app. split; [exact (v_past _ _ _ _ _ V)|].
      constructor; [exact (v_dis _ _ _ _ _ V)|constructor].
Qed.

Lemma history_inv p tr : pool_history p tr -> exists live ended cur, inv p tr live ended cur.
Proof.
  induction 1 as [|p tr o p' es H (live & ended & cur & V) Ok E|p tr o p' H (live & ended & cur & V) Ok E].
  - exists [], [], []. exact inv_new.
  - pose proof (step_inv _ _ _ _ _ o V Ok) as S. rewrite E in S. exact S.
  - pose proof (step_inv _ _ _ _ _ o V Ok) as S. rewrite E in S. exact S.
Qed.

Lemma lives p tr : pool_history p tr ->
  exists ended current,
    tr = life ended current /\
    map o_id (concat ended ++ current) = seq 0 (length (concat ended ++ current)) /\
    Forall (fun l => pairwise_disjoint (map extent l)) (ended ++ [current]) /\
    Forall (fun o => (16 | o_at o) /\ exists b, In b (owned (mem_ p)) /\ inside (extent o) b) current /\
    Delete p = Ret (closing current).
Proof.
  intros H. destruct (history_inv _ _ H) as (live & ended & cur & V).
  exists ended, cur. split; [exact (v_tr _ _ _ _ _ V)|]. split; [|split; [|split]].
  - pose proof (v_ids _ _ _ _ _ V) as E. rewrite E. f_equal.
    rewrite <- (map_length o_id), E. now rewrite seq_length.
  - apply Forall_app. split; [exact (v_past _ _ _ _ _ V)|].
    constructor; [exact (v_dis _ _ _ _ _ V)|constructor].
  - destruct (arena_safe default_config default_config_ok _ _ (v_arena _ _ _ _ _ V)) as (_ & S).
    apply Forall_forall. intros o Io.
    pose proof (proj1 (Forall_forall _ _) (v_live _ _ _ _ _ V) _ Io) as (L & _).
    exact (proj1 (Forall_forall _ _) S _ L).
  - unfold Delete. rewrite (closes _ _ _ _ _ V). reflexivity.
Qed.

Lemma steps p tr o : pool_history p tr -> pool_op_ok p o ->
  (exists p' es, pool_step p o = (p', Ret es)) \/ exists p', pool_step p o = (p', Err).
Proof.
  intros H Ok. destruct (history_inv _ _ H) as (live & ended & cur & V).
  pose proof (step_inv _ _ _ _ _ o V Ok) as S.
  destruct (pool_step p o) as [p' [es| | |]]; try contradiction; [left|right]; eauto.
Qed.

(** Each object with a destructor is destroyed once. *)
Lemma gone_app k a b : times_gone k (a ++ b) = (times_gone k a + times_gone k b)%nat.
Proof. unfold times_gone. now rewrite filter_app, app_length. Qed.

Lemma gone_made k l : times_gone k (map made l) = 0%nat.
Proof. induction l as [|o l IH]; [reflexivity|]. exact IH. Qed.

Definition owned_by (k : nat) (l : list obj) : nat :=
  length (filter (fun o => Nat.eqb (o_id o) k && o_destructible o) l).

Lemma gone_closing k l : times_gone k (closing l) = owned_by k l.
Proof.
  unfold closing. rewrite gone_app. cbn [times_gone]. unfold times_gone at 2; cbn. rewrite Nat.add_0_r.
  unfold times_gone, owned_by. induction l as [|o l IH]; [reflexivity|].
  cbn [filter]. destruct (o_destructible o) eqn:D.
  - cbn [rev]. rewrite map_app, filter_app, app_length, IH. cbn [map filter].
    rewrite andb_true_r. destruct (Nat.eqb (o_id o) k); cbn; lia.
  - rewrite IH, andb_false_r. reflexivity.
Qed.

Lemma gone_life k ended cur : times_gone k (life ended cur ++ closing cur) = owned_by k (concat ended ++ cur).
Proof.
  unfold life. rewrite !gone_app, gone_made, gone_closing.
  unfold owned_by at 2. rewrite filter_app, app_length. fold (owned_by k cur). 
  replace (times_gone k (flat_map (fun l => map made l ++ closing l) ended)) with (owned_by k (concat ended)).
  - unfold owned_by. lia.
  - induction ended as [|l ended IH]; [reflexivity|]. cbn [concat flat_map].
    rewrite !gone_app, gone_made, gone_closing, <- IH. unfold owned_by.
    now rewrite filter_app, app_length.
Qed.

Lemma made_life k d ended cur : has_been_made k d (life ended cur) <->
  exists o, In o (concat ended ++ cur) /\ o_id o = k /\ o_destructible o = d.
Proof.
  unfold has_been_made, life. split.
  - intros (a & n & H). apply in_app_iff in H. destruct H as [H|H].
    + apply in_flat_map in H. destruct H as (l & Il & H). apply in_app_iff in H. destruct H as [H|H].
      * apply in_map_iff in H. destruct H as (o & E & Io). inversion E; subst.
        exists o. split; [|now split]. apply in_app_iff. left. apply in_concat. eauto.
      * unfold closing in H. apply in_app_iff in H. destruct H as [H|[H|[]]]; [|discriminate].
        apply in_map_iff in H. destruct H as (o & E & _). discriminate.
    + apply in_map_iff in H. destruct H as (o & E & Io). inversion E; subst.
      exists o. split; [|now split]. apply in_app_iff. now right.
  - intros (o & Io & E1 & E2). exists (o_at o), (o_size o).
    assert (M : Made k (o_at o) (o_size o) d = made o) by (unfold made; now rewrite E1, E2).
    rewrite M. apply in_app_iff in Io. apply in_app_iff. destruct Io as [Io|Io].
    + left. apply in_concat in Io. destruct Io as (l & Il & Io). apply in_flat_map.
      exists l. split; [exact Il|]. apply in_app_iff. left. now apply in_map.
    + right. now apply in_map.
Qed.

Lemma owned_one l k d : NoDup (map o_id l) -> (exists o, In o l /\ o_id o = k /\ o_destructible o = d) ->
  owned_by k l = if d then 1%nat else 0%nat.
Proof.
  induction l as [|x l IH]; intros N (o & Io & E1 & E2); [destruct Io|].
  cbn [map] in N. inversion N as [|? ? N1 N2]; subst. unfold owned_by. cbn [filter].
  destruct Io as [->|Io].
  - rewrite Nat.eqb_refl. cbn [andb].
    assert (Z0 : filter (fun y => Nat.eqb (o_id y) (o_id o) && o_destructible y) l = []).
    { assert (F : Forall (fun y => o_id y <> o_id o) l).
      { apply Forall_forall. intros y Iy E. apply N1. rewrite <- E. now apply in_map. }
      clear -F. induction F as [|y l H F IH]; [reflexivity|]. cbn.
      destruct (Nat.eqb_spec (o_id y) (o_id o)); [contradiction|exact IH]. }
    rewrite Z0. destruct (o_destructible o); reflexivity.
  - destruct (Nat.eqb_spec (o_id x) (o_id o)) as [E|E].
    + exfalso. apply N1. rewrite E. now apply in_map.
    + cbn [andb]. apply IH; [exact N2|eauto].
Qed.

Lemma destroyed_once p tr es : pool_history p tr -> Delete p = Ret es ->
  forall k d, has_been_made k d tr -> times_gone k (tr ++ es) = if d then 1%nat else 0%nat.
Proof.
  intros H E k d M. destruct (lives _ _ H) as (ended & cur & T & N & _ & _ & De).
  rewrite De in E. inversion E; subst es. subst tr. rewrite gone_life.
  apply made_life in M. apply owned_one; [|exact M]. rewrite N. apply seq_NoDup.
Qed.

(** Vectors. *)
Record vinv (v : avec) (tr : list vevent) : Prop := {
  w_next : forall k, vcount (constructs k) tr = if Nat.ltb k (next v) then 1%nat else 0%nat;
  w_live : in_arena v = true -> forall k,
    (vcount (destroys k) tr + count_occ Nat.eq_dec (elems v) k)%nat = vcount (constructs k) tr;
  w_none : in_arena v = false -> forall k, vcount (destroys k) tr = 0%nat;
  w_mem : in_arena v = false -> forall n,
    vcount (takes n) tr = (vcount (returns n) tr + (if Nat.eqb n (capacity v) && negb (Nat.eqb n 0) then 1 else 0))%nat;
  w_none_mem : in_arena v = true -> forall n, vcount (takes n) tr = 0%nat /\ vcount (returns n) tr = 0%nat
}.

Lemma vcount_app f a b : vcount f (a ++ b) = (vcount f a + vcount f b)%nat.
Proof. unfold vcount. now rewrite filter_app, app_length. Qed.

Lemma count_constructed k l : vcount (constructs k) (map Constructed l) = count_occ Nat.eq_dec l k.
Proof.
  unfold vcount. induction l as [|x l IH]; [reflexivity|]. cbn.
  destruct (Nat.eqb_spec x k), (Nat.eq_dec x k); cbn; rewrite ?IH; congruence.
Qed.

Lemma count_constructed_other f l : (forall k, f (Constructed k) = false) -> vcount f (map Constructed l) = 0%nat.
Proof. intros H. unfold vcount. induction l as [|x l IH]; [reflexivity|]. cbn. now rewrite H. Qed.

Lemma count_destroy f v l : (forall k, f (Destroyed k) = false) -> vcount f (flat_map (adaptor_destroy v) l) = 0%nat.
Proof.
  intros H. unfold vcount, adaptor_destroy. induction l as [|x l IH]; [reflexivity|]. cbn.
  destruct (in_arena v); cbn; [now rewrite H|exact IH].
Qed.

Lemma count_destroyed v k l : vcount (destroys k) (flat_map (adaptor_destroy v) l) =
  if in_arena v then count_occ Nat.eq_dec l k else 0%nat.
Proof.
  unfold vcount, adaptor_destroy. destruct (in_arena v).
  - induction l as [|x l IH]; [reflexivity|]. cbn.
    destruct (Nat.eqb_spec x k), (Nat.eq_dec x k); cbn; rewrite ?IH; congruence.
  - induction l as [|x l IH]; [reflexivity|exact IH].
Qed.

Lemma count_occ_seq s n k : count_occ Nat.eq_dec (seq s n) k =
  if (Nat.leb s k && Nat.ltb k (s + n))%bool then 1%nat else 0%nat.
Proof.
  destruct (Nat.leb_spec s k), (Nat.ltb_spec k (s + n)); cbn.
  - apply NoDup_count_occ'; [apply seq_NoDup|apply in_seq; lia].
  - apply count_occ_not_In. rewrite in_seq. lia.
  - apply count_occ_not_In. rewrite in_seq. lia.
  - apply count_occ_not_In. rewrite in_seq. lia.
Qed.

Lemma count_occ_one x k : count_occ Nat.eq_dec [x] k = if Nat.eqb x k then 1%nat else 0%nat.
Proof. cbn. destruct (Nat.eq_dec x k), (Nat.eqb_spec x k); congruence. Qed.

Lemma vcount_one f e : vcount f [e] = if f e then 1%nat else 0%nat.
Proof. unfold vcount. cbn. destruct (f e); reflexivity. Qed.

Lemma count_allocate f v n : vcount f (adaptor_allocate v n) =
  if in_arena v then 0%nat else if f (Taken n) then 1%nat else 0%nat.
Proof. unfold adaptor_allocate. destruct (in_arena v); [reflexivity|apply vcount_one]. Qed.

Lemma count_deallocate f v n : vcount f (adaptor_deallocate v n) =
  if in_arena v then 0%nat else if negb (Nat.eqb n 0) && f (Returned n) then 1%nat else 0%nat.
Proof.
  unfold adaptor_deallocate. destruct (in_arena v); [reflexivity|].
  destruct n; [reflexivity|]. apply vcount_one.
Qed.

Ltac count := repeat (rewrite ?vcount_app, ?vcount_one, ?count_constructed, ?count_allocate, ?count_deallocate,
    ?count_destroyed, ?count_occ_app, ?count_occ_one, ?count_occ_seq, ?andb_false_r, ?andb_true_r;
    try (rewrite count_destroy by (intros; reflexivity));
    try (rewrite count_constructed_other by (intros; reflexivity)); cbn [constructs destroys takes returns andb]).

Ltac cases := repeat match goal with
  | |- context[Nat.eqb ?a ?b] => destruct (Nat.eqb_spec a b)
  | |- context[Nat.ltb ?a ?b] => destruct (Nat.ltb_spec a b)
  | |- context[Nat.leb ?a ?b] => destruct (Nat.leb_spec a b)
  end; cbn [andb negb] in *; try lia.

Lemma vinv_new b : vinv (avec_new b) [].
Proof. constructor; cbn; intros; auto. cases. Qed.

Lemma vstep_inv v tr o : vinv v tr -> let (v', e) := vstep v o in vinv v' (tr ++ e) /\ in_arena v' = in_arena v.
Proof.
  intros [W1 W2 W3 W4 W5]. destruct o; cbn [vstep].
  - unfold emplace_back. destruct (Nat.ltb (length (elems v)) (capacity v)) eqn:Q.
    + split; [|reflexivity].
      constructor; cbn [in_arena elems capacity next]; intros.
      * count. rewrite W1. cases.
      * specialize (W2 H k). count. cases.
      * count. rewrite (W3 H). lia.
      * count. rewrite (W4 H). lia.
      * specialize (W5 H n). count. lia.
    + cbv zeta. set (cap := match capacity v with O => 1%nat | _ => _ end).
      assert (C : cap <> 0%nat /\ cap <> capacity v).
      { subst cap. destruct (capacity v); lia. }
      split; [|reflexivity]. constructor; cbn [in_arena elems capacity next]; intros.
      * count. rewrite W1. destruct (in_arena v); cases.
      * specialize (W2 H k). count. rewrite H. cases.
      * specialize (W3 H k). count. rewrite H. lia.
      * count. rewrite (W4 H), H. cases.
      * specialize (W5 H n). count. rewrite H. lia.
  - split; [|reflexivity]. constructor; cbn [avec_clear in_arena elems capacity next count_occ]; intros.
    + count. rewrite W1. cases.
    + specialize (W2 H k). count. rewrite H. lia.
    + specialize (W3 H k). count. rewrite H. lia.
    + specialize (W4 H n). count. lia.
    + specialize (W5 H n). count. lia.
Qed.

Lemma vrun_inv l : forall v tr, vinv v tr ->
  let (v', e) := vrun v l in vinv v' (tr ++ e) /\ in_arena v' = in_arena v.
Proof.
  induction l as [|o l IH]; intros v tr V; cbn [vrun].
  - now rewrite app_nil_r.
  - pose proof (vstep_inv v tr o V) as S. destruct (vstep v o) as [v1 e1]. destruct S as (V1 & A1).
    specialize (IH v1 (tr ++ e1) V1). destruct (vrun v1 l) as [v2 e2]. rewrite app_assoc, <- A1. exact IH.
Qed.

Lemma vector_elements b l k :
  let (v, tr) := vrun (avec_new b) l in
  (vcount (constructs k) (tr ++ avec_delete v) <= 1)%nat /\
  vcount (destroys k) (tr ++ avec_delete v) = (if b then vcount (constructs k) (tr ++ avec_delete v) else 0%nat).
Proof.
  pose proof (vrun_inv l _ _ (vinv_new b)) as V. destruct (vrun (avec_new b) l) as [v tr].
  destruct V as ([W1 W2 W3 W4 W5] & A). cbn in A. cbn [app] in *. unfold avec_delete. rewrite <- A. split.
  - count. rewrite W1. destruct (in_arena v); cases.
  - destruct (in_arena v) eqn:Q.
    + specialize (W2 eq_refl k). count. rewrite Q. lia.
    + specialize (W3 eq_refl k). count. rewrite Q. lia.
Qed.

Lemma vector_memory b l n :
  let (v, tr) := vrun (avec_new b) l in
  vcount (returns n) (tr ++ avec_delete v) = vcount (takes n) (tr ++ avec_delete v).
Proof.
  pose proof (vrun_inv l _ _ (vinv_new b)) as V. destruct (vrun (avec_new b) l) as [v tr].
  destruct V as ([W1 W2 W3 W4 W5] & A). cbn [app] in *. unfold avec_delete.
  destruct (in_arena v) eqn:Q.
  - specialize (W5 eq_refl n). count. rewrite Q. lia.
  - count. rewrite (W4 eq_refl), Q. cases.
Qed.

Lemma leak : let (v, tr) := vrun (avec_new false) [VAdd] in
  vcount (constructs 0) (tr ++ avec_delete v) = 1%nat /\ vcount (destroys 0) (tr ++ avec_delete v) = 0%nat.
Proof. split; reflexivity. Qed.

(** A pool used for two rounds. *)
Definition sys_at (b : Z) : Z -> option Z := fun n => if n <? 2 ^ 63 then Some b else None.

Lemma ph_go p tr o es : pool_history p tr -> pool_op_ok p o -> snd (pool_step p o) = Ret es ->
  pool_history (fst (pool_step p o)) (tr ++ es).
Proof.
  intros H O E. apply (ph_ret p tr o _ es H O). rewrite <- E. apply surjective_pairing.
Qed.

Lemma sys_ok m b : 0 < b < 2 ^ 62 -> b mod 16 = 0 -> owned m = [] -> system_answer_ok m (sys_at b).
Proof.
  intros Hb Hm Ho n x Hn E. unfold sys_at in E. destruct (Z.ltb_spec n (2 ^ 63)); [|discriminate].
  inversion E; subst x. rewrite Ho. repeat split; [lia|now apply Z.mod_divide|lia|constructor].
Qed.

Lemma no_sys_ok m : system_answer_ok m (fun _ => None).
Proof. intros n x _ E. discriminate. Qed.

Definition s1 := fst (pool_step pool_new (PNew 40 true (sys_at 4096))).
Definition s2 := fst (pool_step s1 (PNew 8 false (fun _ => None))).
Definition s3 := fst (pool_step s2 (PRaw 64 (fun _ => None))).
Definition s4 := fst (pool_step s3 (PNew 24 true (fun _ => None))).
Definition s5 := fst (pool_step s4 PReset).
Definition s6 := fst (pool_step s5 (PNew 16 true (fun _ => None))).

Lemma example : exists p,
  pool_history p
    [Made 0 4112 40 true; Made 1 4160 8 false; Made 2 4240 24 true; Gone 2; Gone 0; Recycled;
     Made 3 4112 16 true] /\
  Delete p = Ret [Gone 3; Recycled].
Proof.
  assert (H1 : pool_history s1 [Made 0 4112 40 true]).
  { apply (ph_go pool_new [] (PNew 40 true (sys_at 4096)) [Made 0 4112 40 true] ph_new).
    - split; [lia|]. apply sys_ok; [lia|reflexivity|reflexivity].
    - vm_compute. reflexivity. }
  assert (H2 : pool_history s2 ([Made 0 4112 40 true] ++ [Made 1 4160 8 false])).
  { apply (ph_go s1 _ (PNew 8 false (fun _ => None)) [Made 1 4160 8 false] H1).
    - split; [lia|]. apply no_sys_ok.
    - vm_compute. reflexivity. }
  assert (H3 : pool_history s3 (([Made 0 4112 40 true] ++ [Made 1 4160 8 false]) ++ [])).
  { apply (ph_go s2 _ (PRaw 64 (fun _ => None)) [] H2).
    - split; [lia|]. apply no_sys_ok.
    - vm_compute. reflexivity. }
  assert (H4 : pool_history s4 ((([Made 0 4112 40 true] ++ [Made 1 4160 8 false]) ++ []) ++ [Made 2 4240 24 true])).
  { apply (ph_go s3 _ (PNew 24 true (fun _ => None)) [Made 2 4240 24 true] H3).
    - split; [lia|]. apply no_sys_ok.
    - vm_compute. reflexivity. }
  assert (H5 : pool_history s5 (((([Made 0 4112 40 true] ++ [Made 1 4160 8 false]) ++ []) ++ [Made 2 4240 24 true]) ++
                                [Gone 2; Gone 0; Recycled])).
  { apply (ph_go s4 _ PReset [Gone 2; Gone 0; Recycled] H4).
    - exact I.
    - vm_compute. reflexivity. }
  exists s6. split.
  - apply (ph_go s5 _ (PNew 16 true (fun _ => None)) [Made 3 4112 16 true] H5).
    + split; [lia|]. apply no_sys_ok.
    + vm_compute. reflexivity.
  - vm_compute. reflexivity.
Qed.
