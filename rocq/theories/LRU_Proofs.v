From Coq Require Import List NArith Bool Lia Permutation.
Import ListNotations.
From Verif Require Import Base LRU_Model LRU_Spec.

Section P.
Context {K V : Type}.
Variable K_dec : forall a b : K, {a = b} + {a <> b}.

Notation trip := (N * K * V)%type.
Definition tid (t : trip) : N := fst (fst t).
Definition tkey (t : trip) : K := snd (fst t).
Definition tval (t : trip) : V := snd t.
Definition t_list (t : trip) : N * K := (tid t, tkey t).
Definition t_abs (t : trip) : K * V := (tkey t, tval t).
Definition t_map (t : trip) : K * (V * N) := (tkey t, (tval t, tid t)).
Definition keep (k : K) (t : trip) : bool := if K_dec k (tkey t) then false else true.

Record R (c : lru K V) (st : N * list (K * V)) (ts : list trip) : Prop := {
  R_cap : m_capacity c = fst st;
  R_list : m_list c = map t_list ts;
  R_abs : snd st = map t_abs ts;
  R_map : Permutation (m_map c) (map t_map ts);
  R_ids : NoDup (map tid ts);
  R_keys : NoDup (map tkey ts);
  R_fresh : forall t, In t ts -> (tid t < next_id c)%N
}.

Lemma map_find_In (m : list (K * (V * N))) k x :
  NoDup (map fst m) -> (map_find K_dec m k = Some x <-> In (k, x) m).
Proof.
  induction m as [|[k' x'] m IH]; simpl; intros ND.
  - split; [discriminate|tauto].
  - inversion ND as [|? ? Hni ND']; subst. destruct (K_dec k k').
    + subst. split.
      * intros E; inversion E; auto.
      * intros [E|Hin]; [inversion E; auto|].
        exfalso. apply Hni. apply in_map with (f := fst) in Hin. exact Hin.
    + rewrite IH by auto. split; [auto|]. intros [E|]; [inversion E; congruence|auto].
Qed.

Lemma R_mapkeys c st ts : R c st ts -> NoDup (map fst (m_map c)).
Proof.
  intros H. eapply Permutation_NoDup with (l := map fst (map t_map ts)).
  - apply Permutation_map. symmetry. apply R_map with (1 := H).
  - rewrite map_map. simpl. apply R_keys with (1 := H).
Qed.

Lemma keys_inj ts a b : NoDup (map tkey ts) -> In a ts -> In b ts -> tkey a = tkey b -> a = b.
Proof.
  induction ts as [|t ts IH]; simpl; [tauto|]. intros ND Ha Hb E.
  inversion ND as [|? ? Hni ND']; subst.
  destruct Ha as [->|Ha], Hb as [->|Hb]; auto.
  - exfalso. apply Hni. rewrite E. apply in_map; auto.
  - exfalso. apply Hni. rewrite <- E. apply in_map; auto.
Qed.

Lemma find_some c st ts k v i : R c st ts ->
  map_find K_dec (m_map c) k = Some (v, i) <-> In (i, k, v) ts.
Proof.
  intros H. rewrite map_find_In by (eapply R_mapkeys; eauto).
  split; intros Hin.
  - apply Permutation_in with (1 := R_map _ _ _ H) in Hin.
    apply in_map_iff in Hin. destruct Hin as [[[i' k'] v'] [E Hin]].
    unfold t_map, tkey, tval, tid in E. simpl in E. inversion E; subst. auto.
  - apply Permutation_in with (1 := Permutation_sym (R_map _ _ _ H)).
    apply in_map_iff. exists (i, k, v). split; auto.
Qed.

Lemma find_none c st ts k : R c st ts ->
  map_find K_dec (m_map c) k = None -> ~ In k (map tkey ts).
Proof.
  intros H E Hin. apply in_map_iff in Hin. destruct Hin as [[[i k'] v] [E' Hin]].
  unfold tkey in E'. simpl in E'. subst k'.
  apply (find_some c st ts k v i H) in Hin. congruence.
Qed.

Lemma lookup_In (ts : list trip) k v :
  NoDup (map tkey ts) -> (lookup K_dec (map t_abs ts) k = Some v <-> exists i, In (i, k, v) ts).
Proof.
  induction ts as [|[[i k'] v'] ts IH]; simpl; intros ND.
  - split; [discriminate|]. intros [i []].
  - inversion ND as [|? ? Hni ND']; subst. unfold t_abs at 1, tkey, tval. simpl.
    destruct (K_dec k k').
    + subst. split.
      * intros E; inversion E; subst. eauto.
      * intros [j [E|Hin]]; [inversion E; auto|].
        exfalso. apply Hni. apply in_map with (f := tkey) in Hin. exact Hin.
    + rewrite IH by auto. split; intros [j Hj]; exists j; auto.
      destruct Hj as [E|]; auto. inversion E; congruence.
Qed.

Lemma lookup_find c st ts k : R c st ts ->
  lookup K_dec (snd st) k =
  match map_find K_dec (m_map c) k with Some (v, _) => Some v | None => None end.
Proof.
  intros H. rewrite (R_abs _ _ _ H).
  destruct (map_find K_dec (m_map c) k) as [[v i]|] eqn:E.
  - apply lookup_In; [apply R_keys with (1 := H)|]. exists i. eapply find_some; eauto.
  - destruct (lookup K_dec (map t_abs ts) k) as [v|] eqn:E2; auto.
    apply lookup_In in E2; [|apply R_keys with (1 := H)]. destruct E2 as [i Hin].
    apply (find_some c st ts) in Hin; auto. congruence.
Qed.

Lemma size_eq c st ts : R c st ts -> length (m_map c) = length ts.
Proof.
  intros H. rewrite (Permutation_length (R_map _ _ _ H)), map_length. auto.
Qed.

Lemma filter_all {A} (f : A -> bool) l : (forall x, In x l -> f x = true) -> filter f l = l.
Proof.
  induction l; simpl; intros H; auto. rewrite H by auto. f_equal. apply IHl. auto.
Qed.

Lemma keep_none ts k : ~ In k (map tkey ts) -> filter (keep k) ts = ts.
Proof.
  intros H. apply filter_all. intros t Hin. unfold keep. destruct (K_dec k (tkey t)); auto.
  exfalso. apply H. subst. apply in_map; auto.
Qed.

Lemma list_erase_keep ts i k v :
  NoDup (map tid ts) -> NoDup (map tkey ts) -> In (i, k, v) ts ->
  list_erase (map t_list ts) i = Some (map t_list (filter (keep k) ts)).
Proof.
  induction ts as [|[[i' k'] v'] ts IH]; [intros ? ? []|].
  intros NI NK Hin. simpl in *. unfold tid, tkey in *. simpl in *.
  inversion NI as [|? ? Hni NI']; inversion NK as [|? ? Hnk NK']; subst.
  unfold keep at 1; unfold tkey; simpl.
  destruct (N.eqb_spec i' i) as [->|Hne].
  - assert ((i, k', v') = (i, k, v)) as E.
    { destruct Hin as [E|Hin]; auto. exfalso. apply Hni.
      apply in_map with (f := fun t : trip => fst (fst t)) in Hin. exact Hin. }
    inversion E; subst. destruct (K_dec k k); [|congruence].
    rewrite keep_none; auto.
  - destruct Hin as [E|Hin]; [inversion E; congruence|].
    rewrite IH; auto. destruct (K_dec k k') as [->|]; auto.
    exfalso. apply Hnk. apply in_map with (f := fun t : trip => snd (fst t)) in Hin. exact Hin.
Qed.

Lemma remove_keep ts k : remove K_dec (map t_abs ts) k = map t_abs (filter (keep k) ts).
Proof.
  induction ts as [|[[i k'] v'] ts IH]; auto.
  cbn [map filter remove]. unfold keep at 1. change (t_abs (i, k', v')) with (k', v').
  change (tkey (i, k', v')) with k'.
  destruct (K_dec k k'); cbn [map]; rewrite IH; destruct (K_dec k k'); try reflexivity; congruence.
Qed.

Lemma map_erase_keep (m : list (K * (V * N))) ts k :
  Permutation m (map t_map ts) -> Permutation (map_erase K_dec m k) (map t_map (filter (keep k) ts)).
Proof.
  intros H. unfold map_erase.
  assert (E : map t_map (filter (keep k) ts) =
    filter (fun e => if K_dec k (fst e) then false else true) (map t_map ts)).
  { clear H. induction ts as [|t ts IH]; simpl; auto. unfold keep at 1.
    destruct (K_dec k (tkey t)); simpl; rewrite IH; auto. }
  rewrite E. clear E. remember (map t_map ts) as m2. clear Heqm2.
  induction H; simpl; auto.
  - destruct (K_dec k (fst x)); auto.
  - destruct (K_dec k (fst x)), (K_dec k (fst y)); auto. apply perm_swap.
  - eapply perm_trans; eauto.
Qed.

Lemma NoDup_filter_map {A B} (g : A -> B) f l : NoDup (map g l) -> NoDup (map g (filter f l)).
Proof.
  induction l; simpl; intros ND; [constructor|]. inversion ND; subst.
  destruct (f a); simpl; auto. constructor; auto.
  intros Hin. apply H1. apply in_map_iff in Hin. destruct Hin as [x [E Hin]].
  apply filter_In in Hin. destruct Hin. rewrite <- E. apply in_map. auto.
Qed.

Lemma R_filter c cap l ts k : R c (cap, l) ts ->
  R {| m_map := map_erase K_dec (m_map c) k;
       m_list := map t_list (filter (keep k) ts);
       m_capacity := m_capacity c; next_id := next_id c |}
    (cap, remove K_dec l k) (filter (keep k) ts).
Proof.
  intros H. destruct H. simpl in *. constructor; simpl; auto.
  - rewrite R_abs0. apply remove_keep.
  - apply map_erase_keep; auto.
  - apply NoDup_filter_map; auto.
  - apply NoDup_filter_map; auto.
  - intros t Hin. apply filter_In in Hin. apply R_fresh0. tauto.
Qed.

Lemma R_push c cap l ts k v : R c (cap, l) ts -> ~ In k (map tkey ts) ->
  R {| m_map := map_set K_dec (m_map c) k (v, next_id c);
       m_list := (next_id c, k) :: m_list c;
       m_capacity := m_capacity c; next_id := N.succ (next_id c) |}
    (cap, (k, v) :: l) ((next_id c, k, v) :: ts).
Proof.
  intros H Hk. destruct H. simpl in *. constructor; simpl; auto.
  - rewrite R_list0. auto.
  - rewrite R_abs0. auto.
  - unfold map_set, t_map at 1. unfold tkey, tval, tid. simpl. apply perm_skip.
    rewrite <- (keep_none ts k) by auto. apply map_erase_keep; auto.
  - constructor; auto. intros Hin. apply in_map_iff in Hin. destruct Hin as [t [E Hin]].
    apply R_fresh0 in Hin. unfold tid in *. simpl in *. lia.
  - constructor; auto.
  - intros t [<-|Hin]. unfold tid; simpl; lia. apply R_fresh0 in Hin. lia.
Qed.

Lemma removelast_last_map {A B} (f : A -> B) l : removelast (map f l) = map f (removelast l).
Proof.
  induction l as [|a l IH]; auto. simpl. destruct l; auto. simpl in *. rewrite IH. auto.
Qed.

Lemma keep_last ts (t : trip) : NoDup (map tkey (ts ++ [t])) -> filter (keep (tkey t)) (ts ++ [t]) = ts.
Proof.
  intros ND. rewrite filter_app. simpl. unfold keep at 2.
  destruct (K_dec (tkey t) (tkey t)); [|congruence]. rewrite app_nil_r.
  apply keep_none. rewrite map_app in ND. simpl in ND.
  apply NoDup_remove_2 in ND. rewrite app_nil_r in ND. auto.
Qed.

Lemma R_evict c cap l ts : R c (cap, l) ts -> ts <> [] ->
  exists c' ts', lru_evict K_dec c = Ret c' /\ R c' (cap, removelast l) ts' /\
    (forall k, ~ In k (map tkey ts) -> ~ In k (map tkey ts')) /\ m_capacity c' = m_capacity c.
Proof.
  intros H Hne. destruct (exists_last Hne) as [ts' [t E]]. subst ts.
  destruct t as [[i k] v].
  assert (HR : rev (m_list c) = (i, k) :: rev (map t_list ts')).
  { rewrite (R_list _ _ _ H), map_app, rev_app_distr. reflexivity. }
  unfold lru_evict. rewrite HR, (R_list _ _ _ H).
  rewrite (list_erase_keep (ts' ++ [(i,k,v)]) i k v);
    [|apply R_ids with (1:=H)|apply R_keys with (1:=H)|apply in_or_app; simpl; auto].
  pose proof (R_filter c cap l _ k H) as HF.
  pose proof (keep_last ts' (i,k,v) (R_keys _ _ _ H)) as KL. unfold tkey at 1 in KL. simpl in KL.
  rewrite KL in *.
  assert (EL : remove K_dec l k = removelast l).
  { pose proof (R_abs _ _ _ H) as A. simpl in A. rewrite A.
    rewrite remove_keep. rewrite KL. rewrite removelast_last_map. rewrite removelast_last. auto. }
  rewrite EL in HF. eexists. exists ts'. split; [reflexivity|]. split; [exact HF|].
  split; auto. intros k0 Hk0 Hin. apply Hk0. rewrite map_app. apply in_or_app. auto.
Qed.

Lemma R_insert c cap l ts k v : R c (cap, l) ts -> (0 < cap)%N ->
  exists c' ts', lru_insert K_dec c k v = Ret c' /\ R c' (cap, spec_insert K_dec cap l k v) ts'.
Proof.
  intros H Hcap. unfold lru_insert, spec_insert.
  pose proof (lookup_find c (cap, l) ts k H) as L. simpl in L. rewrite L.
  destruct (map_find K_dec (m_map c) k) as [[v0 i]|] eqn:E.
  - exists c, ts. auto.
  - pose proof (find_none _ _ _ _ H E) as Hni.
    unfold lru_size. rewrite (size_eq _ _ _ H). pose proof (R_cap _ _ _ H) as HC. simpl in HC. rewrite HC.
    assert (length l = length ts) as EL.
    { pose proof (R_abs _ _ _ H) as A. simpl in A. rewrite A, map_length. auto. }
    rewrite EL. destruct (N.leb_spec cap (N.of_nat (length ts))).
    + destruct (R_evict c cap l ts H) as [c' [ts' [E1 [R1 [Hk Hcc]]]]].
      { intros ->. simpl in *. lia. }
      rewrite E1. simpl.
      eexists. eexists. split; [reflexivity|]. exact (R_push _ _ _ _ k v R1 (Hk k Hni)).
    + simpl. eexists. eexists. split; [reflexivity|]. exact (R_push _ _ _ _ k v H Hni).
Qed.

Lemma R_get c cap l ts k : R c (cap, l) ts ->
  exists c' ts', lru_get K_dec c k = Ret (c', snd (spec_get K_dec l k)) /\
    R c' (cap, fst (spec_get K_dec l k)) ts'.
Proof.
  intros H. unfold lru_get, spec_get.
  pose proof (lookup_find c (cap, l) ts k H) as L. simpl in L. rewrite L.
  destruct (map_find K_dec (m_map c) k) as [[v i]|] eqn:E; simpl; [|eauto].
  apply (find_some _ _ _ _ _ _ H) in E.
  destruct (m_list c) as [|[i0 k0] ml] eqn:EM.
  { rewrite (R_list _ _ _ H) in EM. destruct ts; [destruct E|discriminate]. }
  destruct (N.eqb_spec i0 i) as [->|Hne].
  - exists c, ts. split; auto.
    rewrite (R_list _ _ _ H) in EM. destruct ts as [|[[i1 k1] v1] ts]; [discriminate|].
    simpl in EM. unfold t_list at 1, tid, tkey in EM. simpl in EM. inversion EM; subst.
    assert ((i, k0, v1) = (i, k, v)) as EQ.
    { destruct E as [|Hin]; auto. exfalso. pose proof (R_ids _ _ _ H) as ND. simpl in ND.
      inversion ND; subst. apply H2. apply in_map with (f := tid) in Hin. exact Hin. }
    inversion EQ; subst.
    assert ((k, v) :: remove K_dec l k = l) as ->; auto.
    pose proof (R_abs _ _ _ H) as A. simpl in A. rewrite A. unfold t_abs at 1 3, tkey, tval. simpl.
    destruct (K_dec k k); [|congruence]. f_equal. rewrite remove_keep. rewrite keep_none; auto.
    pose proof (R_keys _ _ _ H) as NK. simpl in NK. inversion NK; auto.
  - assert (list_erase ((i0, k0) :: ml) i = Some (map t_list (filter (keep k) ts))) as ->.
    { rewrite <- EM, (R_list _ _ _ H). eapply list_erase_keep; eauto.
      apply R_ids with (1:=H). apply R_keys with (1:=H). }
    eexists. exists ((next_id c, k, v) :: filter (keep k) ts). split; [reflexivity|].
    pose proof (R_filter c cap l ts k H) as HF.
    assert (Hk : ~ In k (map tkey (filter (keep k) ts))).
    { intros Hin. apply in_map_iff in Hin. destruct Hin as [t [Et Hin]].
      apply filter_In in Hin. destruct Hin as [_ Hk]. unfold keep in Hk. subst k.
      destruct (K_dec (tkey t) (tkey t)); congruence. }
    pose proof (R_push _ _ _ _ k v HF Hk) as HP. simpl in HP.
    destruct HP. constructor; simpl in *; auto.
    unfold map_set in *. simpl in *.
    assert (map_erase K_dec (map_erase K_dec (m_map c) k) k = map_erase K_dec (m_map c) k) as EE.
    { unfold map_erase. apply filter_all. intros x Hx. apply filter_In in Hx. tauto. }
    rewrite EE in R_map0. auto.
Qed.

Lemma R_erase c cap l ts k : R c (cap, l) ts ->
  exists c' ts', lru_erase K_dec c k = Ret c' /\ R c' (cap, remove K_dec l k) ts'.
Proof.
  intros H. unfold lru_erase.
  destruct (map_find K_dec (m_map c) k) as [[v i]|] eqn:E.
  - apply (find_some _ _ _ _ _ _ H) in E. rewrite (R_list _ _ _ H).
    rewrite (list_erase_keep ts i k v); [|apply R_ids with (1:=H)|apply R_keys with (1:=H)|auto].
    eexists. eexists. split; [reflexivity|]. apply R_filter; auto.
  - exists c, ts. split; auto. pose proof (find_none _ _ _ _ H E) as Hni.
    pose proof (R_abs _ _ _ H) as A. simpl in A. subst l.
    rewrite remove_keep, keep_none; auto.
Qed.

Lemma R_step c st ts o : R c st ts -> (0 < fst st)%N ->
  exists c' ts', lru_step K_dec c o = Ret (c', snd (spec_step K_dec st o)) /\
    R c' (fst (spec_step K_dec st o)) ts'.
Proof.
  intros H Hcap. destruct st as [cap l]. simpl in Hcap. destruct o; simpl.
  - destruct (R_insert c cap l ts k v H Hcap) as [c' [ts' [-> R']]]. simpl. eauto.
  - destruct (R_get c cap l ts k H) as [c' [ts' [-> R']]]. simpl.
    destruct (spec_get K_dec l k). simpl in *. eauto.
  - exists c, ts. split; auto. unfold lru_contains.
    pose proof (lookup_find c (cap,l) ts k H) as L. simpl in L. rewrite L.
    destruct (map_find K_dec (m_map c) k) as [[? ?]|]; auto.
  - destruct (R_erase c cap l ts k H) as [c' [ts' [-> R']]]. simpl. eauto.
  - eexists. exists []. split; [reflexivity|]. destruct H. constructor; simpl in *; auto; try constructor.
    intros ? [].
  - exists c, ts. split; auto. unfold lru_size. rewrite (size_eq _ _ _ H).
    pose proof (R_abs _ _ _ H) as A. simpl in A. rewrite A, map_length. auto.
  - eexists. exists ts. split; [reflexivity|]. destruct H. constructor; simpl in *; auto.
  - unfold lru_get_or_insert. destruct (R_get c cap l ts k H) as [c1 [ts1 [E1 R1]]]. rewrite E1. simpl.
    destruct (spec_get K_dec l k) as [l' [v'|]] eqn:ES; simpl in *; [eauto|].
    destruct (R_insert c1 cap l' ts1 k v R1 Hcap) as [c2 [ts2 [-> R2]]]. simpl. eauto.
Qed.

Lemma spec_step_cap (st : N * list (K * V)) o : fst (fst (spec_step K_dec st o)) = match o with OpResetCapacity n => n | _ => fst st end.
Proof.
  destruct st as [cap l]. destruct o; simpl; auto.
  - destruct (spec_get K_dec l k); auto.
  - destruct (spec_get K_dec l k) as [? [|]]; auto.
Qed.

Lemma R_run os : forall c st ts, R c st ts -> (0 < fst st)%N -> caps_positive os ->
  exists c' ts', lru_run K_dec c os = Ret (c', snd (spec_run K_dec st os)) /\
    R c' (fst (spec_run K_dec st os)) ts'.
Proof.
  induction os as [|o os IH]; intros c st ts H Hcap Hpos; simpl; [eauto|].
  destruct (R_step c st ts o H Hcap) as [c1 [ts1 [-> R1]]]. simpl.
  pose proof (spec_step_cap st o) as EC.
  destruct (spec_step K_dec st o) as [st1 r]. simpl in *.
  destruct (IH c1 st1 ts1 R1) as [c2 [ts2 [-> R2]]].
  - rewrite EC. destruct o; auto. apply Hpos. simpl; auto.
  - intros n Hn. apply Hpos. simpl; auto.
  - simpl. destruct (spec_run K_dec st1 os). simpl in *. eauto.
Qed.

Lemma R_new cap : R (lru_new cap) (cap, []) [].
Proof. constructor; simpl; auto; try constructor. intros ? []. Qed.

Lemma lru_refines_spec cap (os : list (lru_op K V)) : (0 < cap)%N -> caps_positive os ->
  exists c', lru_run K_dec (lru_new cap) os = Ret (c', snd (spec_run K_dec (cap, []) os)).
Proof.
  intros. destruct (R_run os _ _ _ (R_new cap)) as [c' [ts' [E _]]]; simpl; eauto.
Qed.

(** Properties of the specification itself. *)
Lemma remove_length (l : list (K * V)) k : length (remove K_dec l k) <= length l.
Proof. induction l as [|[k' v] l IH]; simpl; auto. destruct (K_dec k k'); simpl; lia. Qed.

Lemma remove_length_lt (l : list (K * V)) k v : lookup K_dec l k = Some v -> length (remove K_dec l k) < length l.
Proof.
  induction l as [|[k' v'] l IH]; simpl; [discriminate|].
  destruct (K_dec k k'); simpl; intros; [pose proof (remove_length l k)|]; try apply IH in H; lia.
Qed.

Lemma removelast_length {A} (l : list A) : l <> [] -> S (length (removelast l)) = length l.
Proof.
  intros H. destruct (exists_last H) as [l' [a ->]]. rewrite removelast_last, app_length. simpl. lia.
Qed.

Lemma spec_insert_length cap (l : list (K * V)) k v m : (0 < cap)%N ->
  (N.of_nat (length l) <= m)%N -> (cap <= m)%N -> (N.of_nat (length (spec_insert K_dec cap l k v)) <= m)%N.
Proof.
  intros Hc Hl Hm. unfold spec_insert. destruct (lookup K_dec l k); auto.
  destruct (N.leb_spec cap (N.of_nat (length l))).
  - assert (l <> []) as Hne by (intros ->; simpl in *; lia).
    pose proof (removelast_length l Hne). cbn [length]. lia.
  - cbn [length]. lia.
Qed.

Lemma spec_get_length (l : list (K * V)) k : length (fst (spec_get K_dec l k)) <= length l.
Proof.
  unfold spec_get. destruct (lookup K_dec l k) eqn:E; simpl; auto.
  apply remove_length_lt in E. lia.
Qed.

Lemma spec_step_length (st : N * list (K * V)) o m : (0 < fst st)%N -> (fst st <= m)%N ->
  (N.of_nat (length (snd st)) <= m)%N -> (N.of_nat (length (snd (fst (spec_step K_dec st o)))) <= m)%N.
Proof.
  destruct st as [cap l]. simpl. intros H0 H1 H2.
  assert (forall k, (N.of_nat (length (fst (spec_get K_dec l k))) <= m)%N) as HG.
  { intros k. pose proof (spec_get_length l k). lia. }
  destruct o; simpl; auto.
  - apply spec_insert_length; auto.
  - specialize (HG k). destruct (spec_get K_dec l k). auto.
  - pose proof (remove_length l k). lia.
  - lia.
  - specialize (HG k). destruct (spec_get K_dec l k) as [l' [|]]; simpl in *; auto.
    apply spec_insert_length; auto.
Qed.

Lemma spec_run_length os : forall (st : N * list (K * V)) m, (0 < fst st)%N -> (fst st <= m)%N -> caps_positive os ->
  (N.of_nat (length (snd st)) <= m)%N ->
  (N.of_nat (length (snd (fst (spec_run K_dec st os)))) <= max_cap m os)%N.
Proof.
  induction os as [|o os IH]; simpl; intros st m H0 H1 HP HL; auto.
  pose proof (spec_step_length st o m H0 H1 HL) as HS. pose proof (spec_step_cap st o) as HC.
  destruct (spec_step K_dec st o) as [st1 r]. simpl in *.
  assert (HP' : caps_positive os) by (intros n Hn; apply HP; simpl; auto).
  set (m' := match o with OpResetCapacity n => N.max m n | _ => m end).
  assert (EM : match o with OpResetCapacity n => max_cap (N.max m n) os | _ => max_cap m os end = max_cap m' os)
    by (unfold m'; destruct o; auto).
  assert (0 < fst st1)%N by (rewrite HC; destruct o; auto; apply HP; simpl; auto).
  assert (fst st1 <= m')%N by (rewrite HC; unfold m'; destruct o; auto; lia).
  assert (N.of_nat (length (snd st1)) <= m')%N by (unfold m'; destruct o; lia).
  specialize (IH st1 m' H H2 HP' H3). rewrite <- EM in IH.
  destruct (spec_run K_dec st1 os) as [st2 rs]. simpl in *. auto.
Qed.

Lemma max_cap_no_reset (os : list (lru_op K V)) : forall m, (forall n, ~ In (OpResetCapacity n) os) -> max_cap m os = m.
Proof.
  induction os as [|o os IH]; simpl; intros m H; auto.
  destruct o; try (apply IH; intros n Hn; apply (H n); auto).
  exfalso. apply (H n). auto.
Qed.

Lemma lru_size_bound cap (os : list (lru_op K V)) c' outs : (0 < cap)%N -> caps_positive os ->
  lru_run K_dec (lru_new cap) os = Ret (c', outs) -> (lru_size c' <= max_cap cap os)%N.
Proof.
  intros H0 HP E. destruct (R_run os _ _ _ (R_new cap) H0 HP) as [c2 [ts [E2 R2]]].
  rewrite E2 in E. inversion E; subst. unfold lru_size. rewrite (size_eq _ _ _ R2).
  pose proof (spec_run_length os (cap, []) cap) as HL. simpl in HL.
  specialize (HL H0 (N.le_refl _) HP (N.le_0_l _)).
  rewrite (R_abs _ _ _ R2), map_length in HL. auto.
Qed.

Lemma lru_size_bound_no_reset cap (os : list (lru_op K V)) c' outs : (0 < cap)%N ->
  (forall n, ~ In (OpResetCapacity n) os) ->
  lru_run K_dec (lru_new cap) os = Ret (c', outs) -> (lru_size c' <= cap)%N.
Proof.
  intros H0 HN E. rewrite <- (max_cap_no_reset os cap HN). eapply lru_size_bound; eauto.
  intros n Hn. destruct (HN n Hn).
Qed.

(** Keys are unique in every state of the specification. *)
Lemma spec_keys_unique cap os : (0 < cap)%N -> caps_positive os ->
  NoDup (map fst (snd (fst (spec_run K_dec (cap, @nil (K * V)) os)))).
Proof.
  intros H0 HP. destruct (R_run os _ _ _ (R_new cap) H0 HP) as [c2 [ts [E2 R2]]].
  rewrite (R_abs _ _ _ R2), map_map. apply R_keys with (1 := R2).
Qed.
End P.

(** Witnesses. *)
Lemma lru_capacity_zero_ub :
  lru_run N.eq_dec (lru_new 0) [OpInsert 1%N 1%N] = UB.
Proof. reflexivity. Qed.

Lemma lru_shrink_not_enforced :
  exists (os : list (lru_op N N)) c' outs,
    lru_run N.eq_dec (lru_new 3) os = Ret (c', outs) /\
    (m_capacity c' < lru_size c')%N /\ exists k v, last os OpClear = OpInsert k v.
Proof.
  exists [OpInsert 1%N 1%N; OpInsert 2%N 2%N; OpInsert 3%N 3%N; OpResetCapacity 1; OpInsert 4%N 4%N; OpInsert 5%N 5%N].
  eexists. eexists. split; [vm_compute; reflexivity|]. split; [vm_compute; reflexivity|].
  exists 5%N, 5%N. reflexivity.
Qed.
