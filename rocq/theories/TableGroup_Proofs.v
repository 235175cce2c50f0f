(** Groups, duplicates. *)
From Coq Require Import List Bool Arith ZArith Lia Sorted Permutation.
Import ListNotations.
From Verif Require Import Base Simd_Spec Vector_Spec Vector_Model Vector_Proofs Simd_Model Simd_Proofs
  Table_Model Table_Spec Table_Proofs TableRows_Proofs TableColumns_Proofs.
Local Open Scope Z_scope.

(** ** Grouping keys of any kind *)
Section G.
Context {K : Type}.
Variable eq : K -> K -> bool.
Fixpoint gadd (key : K) (i : nat) (m : list (K * list nat)) : list (K * list nat) :=
  match m with
  | [] => [(key, [i])]
  | (key', l) :: m' => if eq key' key then (key', l ++ [i]) :: m' else (key', l) :: gadd key i m'
  end.
Fixpoint gall (i : nat) (keys : list K) (m : list (K * list nat)) : list (K * list nat) :=
  match keys with
  | [] => m
  | key :: keys' => gall (S i) keys' (gadd key i m)
  end.

Definition entry_ok (ks : list K) (e : K * list nat) : Prop :=
  exists i l, snd e = i :: l /\ nth_error ks i = Some (fst e) /\ increasing (i :: l) /\
    forall j, In j l -> exists kj, nth_error ks j = Some kj /\ eq (fst e) kj = true.
Definition ginv (ks : list K) (m : list (K * list nat)) : Prop :=
  Permutation (concat (map snd m)) (seq 0 (length ks)) /\ Forall (entry_ok ks) m /\
  ForallOrdPairs (fun a b => eq (fst a) (fst b) = false) m.

Lemma nth_error_snoc {A} (l : list A) x i y : nth_error l i = Some y -> nth_error (l ++ [x]) i = Some y.
Proof. intros H. rewrite nth_error_app1; auto. apply nth_error_Some. congruence. Qed.
Lemma entry_snoc ks key e : entry_ok ks e -> entry_ok (ks ++ [key]) e.
Proof.
  intros (i & l & E & H & S & J). exists i, l. split; auto. split; [now apply nth_error_snoc|]. split; auto.
  intros j Hj. destruct (J j Hj) as (kj & Hk & Ek). exists kj. split; auto. now apply nth_error_snoc.
Qed.
Lemma gadd_perm key i m : Permutation (concat (map snd (gadd key i m))) (concat (map snd m) ++ [i]).
Proof.
  induction m as [|[k l] m IH]; cbn; auto. destruct (eq k key); cbn.
  - rewrite <- !app_assoc. apply Permutation_app_head. apply Permutation_app_comm.
  - rewrite <- app_assoc. apply Permutation_app_head. exact IH.
Qed.
Lemma sorted_snoc l i : increasing l -> (forall j, In j l -> (j < i)%nat) -> increasing (l ++ [i]).
Proof.
  induction l as [|x l IH]; intros S H; cbn. { repeat constructor. }
  inversion S as [|? ? S' F]; subst. constructor.
  - apply IH; auto. intros j Hj. apply H. now right.
  - apply Forall_app. split; auto. constructor; auto. apply H. now left.
Qed.
Lemma entry_add ks key k l : entry_ok ks (k, l) -> (forall j, In j l -> (j < length ks)%nat) -> eq k key = true ->
  entry_ok (ks ++ [key]) (k, l ++ [length ks]).
Proof.
  intros (i & l' & E & H & S & J) B Q. cbn [fst snd] in *. subst l. exists i, (l' ++ [length ks]). cbn [fst snd].
  split; [reflexivity|]. split; [now apply nth_error_snoc|]. split.
  - apply (sorted_snoc (i :: l')); auto.
  - intros j Hj. apply in_app_or in Hj. destruct Hj as [Hj|[<-|[]]].
    + destruct (J j Hj) as (kj & Hk & Ek). exists kj. split; auto. now apply nth_error_snoc.
    + exists key. split; auto. rewrite nth_error_app2 by lia. now rewrite Nat.sub_diag.
Qed.
Lemma gadd_keys key i m e : In e (gadd key i m) -> In (fst e) (map fst m) \/ fst e = key.
Proof.
  induction m as [|[k l] m IH]; cbn; [intros [<-|[]]; auto|]. destruct (eq k key); cbn.
  - intros [<-|H]; auto. left. right. now apply in_map.
  - intros [<-|H]; auto. destruct (IH H); auto.
Qed.
Lemma gadd_ok ks key m : ginv ks m -> ginv (ks ++ [key]) (gadd key (length ks) m).
Proof.
  intros (P & E & D). split; [|split].
  - rewrite app_length. cbn [length]. rewrite seq_app. cbn [seq plus]. eapply Permutation_trans; [apply gadd_perm|].
    now apply Permutation_app_tail.
  - assert (B : forall e j, In e m -> In j (snd e) -> (j < length ks)%nat).
    { intros e j He Hj. assert (X : In j (concat (map snd m))) by (apply in_concat; exists (snd e); split; auto; now apply in_map).
      apply (Permutation_in _ P), in_seq in X. lia. }
    clear P D. induction m as [|[k l] m IH]; cbn [gadd].
    + repeat constructor. exists (length ks), []. cbn. split; [reflexivity|]. split; [|split; [repeat constructor|intros j []]].
      rewrite nth_error_app2 by lia. now rewrite Nat.sub_diag.
    + inversion E as [|? ? E1 E2]; subst. destruct (eq k key) eqn:Q.
      * constructor.
        -- apply entry_add; auto. intros j Hj. apply (B (k, l)); auto. now left.
        -- eapply Forall_impl; [|exact E2]. intros e. apply entry_snoc.
      * constructor; [now apply entry_snoc|]. apply IH; auto. intros e j He. apply B. now right.
  - clear P E. induction m as [|[k l] m IH]; cbn [gadd]; [repeat constructor|].
    inversion D as [|? ? D1 D2]; subst. destruct (eq k key) eqn:Q; constructor; auto.
    apply Forall_forall. intros e He. rewrite Forall_forall in D1. destruct (gadd_keys key (length ks) m e He) as [H|H].
    + apply in_map_iff in H. destruct H as (e' & <- & H). now apply (D1 e').
    + now rewrite H.
Qed.
Lemma gall_ok : forall keys ks m, ginv ks m -> ginv (ks ++ keys) (gall (length ks) keys m).
Proof.
  induction keys as [|key keys IH]; intros ks m I; cbn [gall]; [now rewrite app_nil_r|].
  replace (ks ++ key :: keys) with ((ks ++ [key]) ++ keys) by now rewrite <- app_assoc.
  replace (S (length ks)) with (length (ks ++ [key])) by (rewrite app_length; cbn; lia). apply IH. now apply gadd_ok.
Qed.
Lemma ginv_start : ginv [] []. Proof. repeat constructor. Qed.
Lemma gall_all keys : ginv keys (gall 0 keys []).
Proof. exact (gall_ok keys [] [] ginv_start). Qed.

Lemma fop_map {A B} (f : A -> B) (R : B -> B -> Prop) l : ForallOrdPairs (fun a b => R (f a) (f b)) l -> ForallOrdPairs R (map f l).
Proof.
  induction 1 as [|a l H F IH]; cbn; constructor; auto. apply Forall_forall. intros b Hb. apply in_map_iff in Hb.
  destruct Hb as (x & <- & Hx). rewrite Forall_forall in H. auto.
Qed.
Lemma fop_impl {A} (R Q : A -> A -> Prop) l : (forall a b, In a l -> In b l -> R a b -> Q a b) -> ForallOrdPairs R l -> ForallOrdPairs Q l.
Proof.
  intros H F. induction F as [|a l F1 F IH]; constructor.
  - rewrite Forall_forall in *. intros b Hb. apply H; auto; [now left|now right].
  - apply IH. intros x y Hx Hy. apply H; now right.
Qed.
Lemma fop_perm {A} (R : A -> A -> Prop) l l' : (forall a b, R a b -> R b a) -> Permutation l l' -> ForallOrdPairs R l -> ForallOrdPairs R l'.
Proof.
  intros S P. induction P as [|x l l' P IH|x y l|l l1 l2 P1 IH1 P2 IH2]; intros F; auto.
  - inversion F as [|? ? F1 F2]; subst. constructor; auto. now apply (Permutation_Forall P).
  - inversion F as [|? ? F1 F2]; subst. inversion F2 as [|? ? F3 F4]; subst. inversion F1 as [|? ? F5 F6]; subst.
    constructor; [constructor; auto|constructor; auto].
Qed.
Lemma concat_perm {A} (l l' : list (list A)) : Permutation l l' -> Permutation (concat l) (concat l').
Proof.
  induction 1 as [|x l l' P IH|x y l|l l1 l2 P1 IH1 P2 IH2]; cbn; auto.
  - now apply Permutation_app_head.
  - rewrite !app_assoc. apply Permutation_app_tail, Permutation_app_comm.
  - now apply (Permutation_trans IH1).
Qed.
Lemma grouped_perm (keys : list K) gs gs' : (forall x y, In x keys -> In y keys -> eq x y = true -> eq y x = true) ->
  Permutation gs gs' -> grouped eq keys gs -> grouped eq keys gs'.
Proof.
  intros S P (G1 & G2 & G3). split; [|split].
  - apply Permutation_sym in P. exact (Permutation_trans (concat_perm _ _ P) G1).
  - now apply (Permutation_Forall P).
  - apply (fop_perm _ gs); auto. intros a b AP i j ki kj Hi Hj Ei Ej.
    destruct (eq ki kj) eqn:Q; auto.
    pose proof (S ki kj (nth_error_In _ _ Ei) (nth_error_In _ _ Ej) Q) as Q'. rewrite (AP j i kj ki Hj Hi Ej Ei) in Q'. discriminate.
Qed.
Lemma ginv_grouped (keys : list K) m : (forall x y, In x keys -> In y keys -> eq x y = true -> eq y x = true) ->
  (forall x y z, In x keys -> In y keys -> In z keys -> eq x y = true -> eq y z = true -> eq x z = true) ->
  ginv keys m -> grouped eq keys (map snd m) /\ Forall increasing (map snd m).
Proof.
  intros S T (P & E & D).
  assert (Rep : forall e i ki, In e m -> In i (snd e) -> nth_error keys i = Some ki -> (ki = fst e \/ eq (fst e) ki = true) /\ In (fst e) keys).
  { intros e i ki He Hi Ek. rewrite Forall_forall in E. destruct (E e He) as (i0 & l & El & H0 & _ & J). rewrite El in Hi.
    split; [|eauto using nth_error_In]. destruct Hi as [<-|Hi]; [left; congruence|]. destruct (J i Hi) as (kj & Hk & Q). right. congruence. }
  split; [split; [|split]|].
  - exact P.
  - apply Forall_forall. intros g Hg. apply in_map_iff in Hg. destruct Hg as (e & <- & He). split.
    + rewrite Forall_forall in E. destruct (E e He) as (i0 & l & El & _). now rewrite El.
    + intros i j ki kj Hi Hj NE Ei Ej. destruct (Rep e i ki He Hi Ei) as (Ri & I0), (Rep e j kj He Hj Ej) as (Rj & _).
      assert (Ii : In ki keys) by eauto using nth_error_In. assert (Ij : In kj keys) by eauto using nth_error_In.
      rewrite Forall_forall in E. destruct (E e He) as (i0 & l & El & H0 & SS & J). rewrite El in Hi, Hj.
      destruct Hi as [<-|Hi].
      * destruct Hj as [<-|Hj]; [contradiction|]. destruct (J j Hj) as (kj' & Hk & Q). rewrite Ej in Hk. injection Hk as <-.
        rewrite H0 in Ei. injection Ei as <-. exact Q.
      * destruct (J i Hi) as (ki' & Hk & Q). rewrite Ei in Hk. injection Hk as <-. apply S in Q; auto.
        destruct Hj as [<-|Hj]; [rewrite H0 in Ej; injection Ej as <-; auto|].
        destruct (J j Hj) as (kj' & Hk & Q'). rewrite Ej in Hk. injection Hk as <-. exact (T ki (fst e) kj Ii I0 Ij Q Q').
  - apply fop_map. eapply fop_impl; [|exact D]. cbn. intros a b Ha Hb N i j ki kj Hi Hj Ei Ej.
    destruct (Rep a i ki Ha Hi Ei) as (Ri & Ia), (Rep b j kj Hb Hj Ej) as (Rj & Ib).
    assert (Ii : In ki keys) by eauto using nth_error_In. assert (Ij : In kj keys) by eauto using nth_error_In.
    destruct (eq ki kj) eqn:Q; auto. exfalso. assert (X : eq (fst a) (fst b) = true); [|congruence].
    assert (Q1 : eq (fst a) kj = true). { destruct Ri as [<-|Ri]; auto. exact (T (fst a) ki kj Ia Ii Ij Ri Q). }
    destruct Rj as [<-|Rj]; auto. apply S in Rj; auto. exact (T (fst a) kj (fst b) Ia Ij Ib Q1 Rj).
  - apply Forall_forall. intros g Hg. apply in_map_iff in Hg. destruct Hg as (e & <- & He). rewrite Forall_forall in E.
    destruct (E e He) as (i0 & l & El & _ & SS & _). now rewrite El.
Qed.
Lemma grouped_lt (keys : list K) gs : grouped eq keys gs -> Forall (Forall (fun i => i < length keys)%nat) gs.
Proof.
  intros (P & _). apply Forall_forall. intros g Hg. apply Forall_forall. intros i Hi.
  assert (X : In i (concat gs)) by (apply in_concat; eauto). apply (Permutation_in _ P), in_seq in X. lia.
Qed.
End G.

Section T.
Context {V : Type}.
Variables (lanes64 lanes8 garbage : Z).
Hypothesis LN : machine lanes64 lanes8.
Variable veq : V -> V -> bool.
Variable hashable : V -> bool.
Variable shuffle : forall A : Type, list A -> list A.
Notation table := (@table V).

(** ** GroupBy of a vector *)
Definition to_z {K} (m : list (K * list nat)) : list (K * list Z) := map (fun e => (fst e, map Z.of_nat (snd e))) m.
Lemma add_to_group_nat key i m : add_to_group veq key (Z.of_nat i) (to_z m) = to_z (gadd veq key i m).
Proof.
  induction m as [|[k l] m IH]; cbn; auto. destruct (veq k key); cbn; [unfold to_z; cbn; now rewrite map_app|]. f_equal. exact IH.
Qed.
Lemma group_keys_nat keys : forall i m, group_keys veq i keys (to_z m) = to_z (gall veq i keys m).
Proof. induction keys as [|key keys IH]; intros i m; cbn; auto. now rewrite add_to_group_nat, IH. Qed.

(** The tables of some groups. *)
Lemma gather_all_ok (t : table) gs : of_schema t -> aligned t -> Forall (Forall (fun i => i < Count t)%nat) gs ->
  exists ts, gather_all lanes64 garbage (map (map Z.of_nat) gs) t = Ret ts /\ Forall2 (table_of_group t) gs ts.
Proof.
  intros O A. induction 1 as [|g gs Hg F IH].
  - exists []. split; auto.
  - cbn [map gather_all]. unfold GatherSubTable at 1. rewrite (each_gather lanes64 lanes8 garbage LN) by auto. cbn [obind].
    destruct IH as (ts & -> & G). cbn [obind]. eexists. split; [reflexivity|]. constructor; auto.
    set (t' := ClearAll (with_rows (at_rows g (t_rows t)) (Clone t))).
    destruct (fresh_result t t' g O Hg) as (X1 & X2 & X3).
    { split; [reflexivity|]. split; [reflexivity|]. apply clear_new. }
    split; [reflexivity|]. split; [exact X1|]. split; [exact X2|]. split; [exact X3|]. apply clear_new.
Qed.
Lemma GroupBy_ok keys (t : table) : of_schema t -> aligned t -> length keys = Count t -> equality veq ->
  (forall A (l : list A), Permutation (shuffle A l) l) ->
  exists gs ts, GroupBy lanes64 garbage veq shuffle keys t = Ret ts /\ grouped veq keys gs /\ Forall increasing gs /\
    Forall2 (table_of_group t) gs ts.
Proof.
  intros O A L (ES & ET) SH. unfold GroupBy. rewrite L, Nat.eqb_refl. cbn [negb].
  change (@nil (V * list Z)) with (to_z (@nil (V * list nat))). rewrite group_keys_nat.
  set (m := gall veq 0 keys []).
  destruct (ginv_grouped veq keys m) as (G & I); [intros; auto|intros; eauto|apply gall_all|].
  pose proof (SH _ (to_z m)) as P.
  apply Permutation_map_inv in P. destruct P as (m' & Em & P). rewrite Em.
  exists (map snd m').
  assert (G' : grouped veq keys (map snd m')). { apply (grouped_perm veq keys (map snd m)); auto. now apply Permutation_map. }
  destruct (gather_all_ok t (map snd m') O A) as (ts & E & F). { rewrite <- L. now apply (grouped_lt veq keys). }
  exists ts. split; [|split; [exact G'|split; [|exact F]]].
  - rewrite <- E. f_equal. rewrite !map_map. apply map_ext. intros []; reflexivity.
  - apply (Permutation_Forall (Permutation_map snd P)). exact I.
Qed.

(** ** Keys of several columns *)
Lemma same_key_sym : equality veq -> forall a b, same_key veq a b = true -> same_key veq b a = true.
Proof.
  intros (S & _). induction a as [|x a IH]; intros [|y b] H; try discriminate; auto. cbn in *. apply andb_true_iff in H.
  destruct H as (H1 & H2). now rewrite (S _ _ H1), (IH _ H2).
Qed.
Lemma same_key_trans : equality veq -> forall a b c, same_key veq a b = true -> same_key veq b c = true -> same_key veq a c = true.
Proof.
  intros (_ & T). induction a as [|x a IH]; intros [|y b] [|z c] H1 H2; try discriminate; auto. cbn in *.
  apply andb_true_iff in H1, H2. destruct H1 as (A1 & A2), H2 as (B1 & B2). now rewrite (T _ _ _ A1 B1), (IH _ _ A2 B2).
Qed.
Lemma keys_equal_plain : forall a b, length a = length b -> keys_equal veq (map Some a) (map Some b) = same_key veq a b.
Proof. induction a as [|x a IH]; intros [|y b] L; try discriminate; auto. cbn. f_equal. apply IH. now injection L. Qed.

Definition split_z {K} (m : list (K * list nat)) : list (K * (Z * list Z)) :=
  map (fun e => (fst e, (Z.of_nat (hd 0%nat (snd e)), map Z.of_nat (tl (snd e))))) m.
Lemma add_row_nat n (key : list V) i m : length key = n -> (forall e, In e m -> snd e <> [] /\ length (fst e) = n) ->
  add_row veq (map Some key) (Z.of_nat i) (split_z (map (fun e => (map Some (fst e), snd e)) m)) =
    split_z (map (fun e => (map Some (fst e), snd e)) (gadd (same_key veq) key i m)).
Proof.
  intros L. induction m as [|[k l] m IH]; intros H; cbn; auto.
  destruct (H (k, l) (or_introl eq_refl)) as (N & Lk). cbn in N, Lk. rewrite keys_equal_plain by congruence.
  destruct (same_key veq k key); cbn.
  - unfold split_z. destruct l as [|x l]; [contradiction|]. cbn. now rewrite map_app.
  - f_equal. apply IH. intros e He. apply H. now right.
Qed.
Lemma gadd_shape n (key : list V) i m : length key = n -> (forall e, In e m -> snd e <> [] /\ length (fst e) = n) ->
  forall e, In e (gadd (same_key veq) key i m) -> snd e <> [] /\ length (fst e) = n.
Proof.
  intros L. induction m as [|[k l] m IH]; intros H e He; cbn in He.
  - destruct He as [<-|[]]. cbn. split; [easy|auto].
  - destruct (same_key veq k key); cbn in He.
    + destruct He as [<-|He]; [|apply H; now right]. cbn. split; [now destruct l|]. apply (H (k, l)). now left.
    + destruct He as [<-|He]; [apply H; now left|]. apply IH; auto. intros e' He'. apply H. now right.
Qed.

Definition key_columns (h : heap) (t : table) (fs : list col_field) (cs : list (col_field * column)) : Prop :=
  Forall2 (fun f fc => fst fc = f /\ forall m, memory (snd fc) = Some m -> (Count t <= length m)%nat /\ firstn (Count t) m = column_values h t f) fs cs
  /\ Forall (fun fc => memory (snd fc) = None -> Count t = 0%nat) cs.
Lemma read_key_ok h (t : table) fs cs i : key_columns h t fs cs -> Forall (fun f => cf_bit f = false) fs -> (i < Count t)%nat ->
  read_key i cs = Ret (map Some (key_of h t fs (nth i (records t) []))).
Proof.
  intros (F & N) B L. induction F as [|f [f' c] fs cs (E & H) F IH]; auto.
  cbn [fst snd] in *. subst f'. inversion B as [|? ? B1 B2]; subst. inversion N as [|? ? N1 N2]; subst. cbn [fst snd] in *.
  cbn [read_key]. rewrite B1. destruct (memory c) as [m|]; [|exfalso; specialize (N1 eq_refl); lia].
  destruct (H m eq_refl) as (Lm & Fm).
  assert (E : nth_error m i = Some (h (nth (position (cf_schema f) (sc_rows (t_schema t))) (nth i (records t) []) 0) (cf_field f))).
  { assert (Lv : (i < length (column_values h t f))%nat) by now rewrite values_length.
    rewrite <- (firstn_skipn (Count t) m), Fm, nth_error_app1 by auto. unfold column_values.
    rewrite nth_error_map. rewrite (nth_error_nth' (records t) []) by now rewrite count_records. reflexivity. }
  rewrite E. cbn [obind]. rewrite IH by auto. reflexivity.
Qed.
Lemma row_keys_length h (t : table) fs : length (row_keys h t fs) = Count t.
Proof. unfold row_keys. now rewrite map_length, count_records. Qed.
Lemma row_keys_nth h (t : table) fs i : (i < Count t)%nat -> nth_error (row_keys h t fs) i = Some (key_of h t fs (nth i (records t) [])).
Proof. intros L. unfold row_keys. rewrite nth_error_map. rewrite (nth_error_nth' (records t) []) by now rewrite count_records. reflexivity. Qed.

Lemma skipn_more {A} (l : list A) : forall i x, nth_error l i = Some x -> skipn i l = x :: skipn (S i) l.
Proof. induction l as [|a l IH]; intros [|i] x H; try discriminate; cbn in *; [now injection H as ->|]. now apply IH. Qed.
Lemma distinct_loop_ok h (t : table) fs cs : key_columns h t fs cs -> good_keys hashable h t fs ->
  forall n i m, (i + n = Count t)%nat -> (forall e, In e m -> snd e <> [] /\ length (fst e) = length fs) ->
  distinct_loop veq hashable n i cs (split_z (map (fun e => (map Some (fst e), snd e)) m)) =
    Ret (split_z (map (fun e => (map Some (fst e), snd e)) (gall (same_key veq) i (skipn i (row_keys h t fs)) m))).
Proof.
  intros KC (NE & B & H). induction n as [|n IH]; intros i m L M.
  - cbn. rewrite skipn_all2 by (rewrite row_keys_length; lia). reflexivity.
  - cbn [distinct_loop]. rewrite (read_key_ok h t fs) by (auto; lia). cbn [obind].
    set (key := key_of h t fs (nth i (records t) [])).
    assert (Lk : length key = length fs) by (unfold key, key_of; now rewrite map_length).
    pose proof (row_keys_nth h t fs i ltac:(lia)) as Nk. fold key in Nk.
    assert (KH : key_hashable hashable (map Some key) = true).
    { unfold key_hashable. rewrite map_length, Lk. destruct fs as [|f0 fs0]; [contradiction|]. cbn [length Nat.eqb negb andb].
      apply forallb_forall. intros e He. apply in_map_iff in He. destruct He as (v & <- & Hv).
      rewrite Forall_forall in H. specialize (H key (nth_error_In _ _ Nk)). rewrite Forall_forall in H. auto. }
    rewrite KH. rewrite (add_row_nat (length fs)) by auto. rewrite IH; [|lia|now apply gadd_shape].
    rewrite (skipn_more _ _ _ Nk). reflexivity.
Qed.
Lemma Distinct_groups h (t : table) ks fs : table_ok h t -> fields_of t ks fs -> good_keys hashable h t fs -> equality veq ->
  (forall A (l : list A), Permutation (shuffle A l) l) ->
  exists t' gs, DistinctByColumns veq hashable shuffle h ks t =
      Ret (t', map (fun g => (Z.of_nat (hd 0%nat g), map Z.of_nat (tl g))) gs) /\
    same_rows t t' /\ table_ok h t' /\ grouped (same_key veq) (row_keys h t fs) gs /\ Forall increasing gs.
Proof.
  intros T F GK EQ SH. unfold DistinctByColumns.
  destruct (load_keys_ok h fs ks t T F) as (t' & cs & -> & S & T' & KC). cbn [obind].
  destruct (same_facts t t' S) as (-> & _). 
  change (@nil (list key_elem * (Z * list Z))) with (split_z (map (fun e : list V * list nat => (map Some (fst e), snd e)) [])).
  rewrite (distinct_loop_ok h t fs cs) by (auto; intros e []). cbn [obind skipn].
  set (m := gall (same_key veq) 0 (row_keys h t fs) []).
  destruct (ginv_grouped (same_key veq) (row_keys h t fs) m) as (G & I).
  { intros x y _ _. now apply same_key_sym. } { intros x y z _ _ _. now apply same_key_trans. } { apply gall_all. }
  match goal with |- exists t'' gs, Ret (t', shuffle ?A ?l) = _ /\ _ => pose proof (SH A l) as P end.
  unfold split_z in P |- *. rewrite !map_map in P |- *. cbn [fst snd] in P |- *.
  rewrite <- (map_map snd (fun g => (Z.of_nat (hd 0%nat g), map Z.of_nat (tl g)))) in P |- *.
  apply Permutation_map_inv in P. destruct P as (gs & -> & P).
  exists t', gs. split; [reflexivity|]. split; [exact S|]. split; [exact T'|]. split.
  - apply (grouped_perm (same_key veq) _ (map snd m)); auto. intros x y _ _. now apply same_key_sym.
  - now apply (Permutation_Forall P).
Qed.

Lemma first_last_perm g : Permutation (first_last g) g.
Proof. destruct g as [|i g]; auto. unfold first_last. cbn. apply Permutation_sym. apply Permutation_cons_append. Qed.
Lemma GroupBy_columns_ok h (t : table) ks fs : table_ok h t -> fields_of t ks fs -> good_keys hashable h t fs -> equality veq ->
  (forall A (l : list A), Permutation (shuffle A l) l) ->
  exists t' gs ts, GroupBy_columns lanes64 garbage veq hashable shuffle h ks t = Ret (t', ts) /\
    same_rows t t' /\ table_ok h t' /\ grouped (same_key veq) (row_keys h t fs) gs /\ Forall increasing gs /\
    Forall2 (table_of_group t) (map first_last gs) ts.
Proof.
  intros T F GK EQ SH. unfold GroupBy_columns.
  destruct (Distinct_groups h t ks fs T F GK EQ SH) as (t' & gs & -> & S & T' & G & I). cbn [obind].
  pose proof (grouped_lt _ _ _ G) as LT. rewrite row_keys_length in LT.
  destruct (gather_all_ok t' (map first_last gs)) as (ts & E & R).
  { apply T'. } { apply T'. }
  { apply Forall_forall. intros g Hg. apply in_map_iff in Hg. destruct Hg as (g0 & <- & Hg). rewrite Forall_forall in LT.
    destruct (same_facts t t' S) as (-> & _). apply (Permutation_Forall (Permutation_sym (first_last_perm g0))). auto. }
  exists t', gs, ts. split; [|split; [exact S|split; [exact T'|split; [exact G|split; [exact I|]]]]].
  - assert (X : map (fun g => snd g ++ [fst g]) (map (fun g => (Z.of_nat (hd 0%nat g), map Z.of_nat (tl g))) gs) = map (map Z.of_nat) (map first_last gs)).
    { rewrite !map_map. apply map_ext_in. intros g Hg. destruct G as (_ & G & _). rewrite Forall_forall in G.
      destruct (G g Hg) as (N & _). destruct g as [|i g]; [contradiction|]. cbn. rewrite map_app. reflexivity. }
    rewrite X, E. reflexivity.
  - destruct (same_facts t t' S) as (_ & R' & _). eapply Forall2_impl; [|exact R].
    intros g t1 (A1 & A2 & A3 & A4 & A5). destruct S as (S1 & S2). split; [congruence|]. split; auto. split; auto.
    rewrite R' in A4. rewrite S1 in A5. auto.
Qed.

(** ** Merging rows *)
Definition columns_of (n : nat) (rows : list (list Z)) : list (list Z) := map (fun k => map (fun r => nth k r 0) rows) (seq 0 n).
Lemma push_row_ok n : forall row rows, length row = n -> push_row row (columns_of n rows) = columns_of n (rows ++ [row]).
Proof.
  intros row rows L. unfold columns_of.
  assert (X : forall (row : list Z) a (f : nat -> list Z), push_row row (map f (seq a (length row))) =
    map (fun k => f k ++ [nth (k - a) row 0]) (seq a (length row))).
  { induction row0 as [|p row0 IH]; intros a f; auto. cbn [length seq map push_row]. rewrite IH. f_equal.
    - now rewrite Nat.sub_diag.
    - apply map_ext_in. intros k Hk. apply in_seq in Hk. replace (k - a)%nat with (S (k - S a)) by lia. reflexivity. }
  rewrite <- L, X. apply map_ext. intros k. rewrite map_app, Nat.sub_0_r. reflexivity.
Qed.
Lemma put_sets_records rs rows : (rs <> [] \/ rows = []) -> Forall (fun r => length r = length rs) rows ->
  let rs' := put_sets rs (columns_of (length rs) rows) in
  map fst rs' = map fst rs /\ aligned_rows rs' /\ records_of rs' = rows.
Proof.
  intros NE F. cbv zeta.
  assert (X : forall rs a (f : nat -> list Z), put_sets rs (map f (seq a (length rs))) = map (fun p => (fst (fst p), f (snd p))) (combine rs (seq a (length rs)))).
  { induction rs0 as [|[s o] rs0 IH]; intros a f; auto. cbn. f_equal. apply IH. }
  unfold columns_of. set (f := fun k => map (fun r => nth k r 0) rows). rewrite (X rs 0%nat f).
  assert (Lf : forall k, length (f k) = length rows) by (intros; apply map_length).
  assert (LC : length (combine rs (seq 0 (length rs))) = length rs) by (rewrite combine_length, seq_length; lia).
  split; [|split].
  - rewrite map_map. cbn [fst]. clear. generalize 0%nat. induction rs as [|r rs IH]; intros a; auto. cbn. f_equal. apply IH.
  - intros r Hr. apply in_map_iff in Hr. destruct Hr as ([r0 k] & <- & Hr). cbn [fst snd]. rewrite Lf.
    destruct rs as [|[s o] rs]; [easy|]. cbn [length seq combine map count_of fst snd]. now rewrite Lf.
  - unfold records_of. destruct rs as [|[s o] rs].
    { destruct NE as [NE| ->]; [contradiction|]. reflexivity. }
    cbn [length seq combine map count_of fst snd]. rewrite Lf.
    rewrite <- (nth_seq_map rows []) at 2. apply map_ext_in. intros i Hi. apply in_seq in Hi.
    rewrite Forall_forall in F. pose proof (F (nth i rows []) ltac:(apply nth_In; lia)) as Lr.
    unfold record_at.
    change ((s, f 0%nat) :: map (fun p => (fst (fst p), f (snd p))) (combine rs (seq 1 (length rs)))) with
      (map (fun p => (fst (fst p), f (snd p))) (combine ((s, o) :: rs) (seq 0 (length ((s, o) :: rs))))).
    rewrite map_map. cbn [snd].
    transitivity (map (fun p => nth (snd p) (nth i rows []) 0) (combine ((s, o) :: rs) (seq 0 (length ((s, o) :: rs))))).
    + apply map_ext. intros [r k]. cbn [snd]. unfold f. rewrite (nth_map_lt _ _ _ _ []) by lia. reflexivity.
    + rewrite <- (map_map snd (fun k => nth k (nth i rows []) 0)).
      assert (Y : forall (rs : list (nat * list Z)) a, map snd (combine rs (seq a (length rs))) = seq a (length rs)).
      { induction rs0 as [|r rs0 IH]; intros a; auto. cbn. f_equal. apply IH. }
      rewrite Y. rewrite <- Lr. apply nth_seq_map.
Qed.
Lemma merge_rows_ok merge rs : aligned_rows rs -> forall g row, Forall (fun i => i < count_of rs)%nat g ->
  merge_rows merge rs row (map Z.of_nat g) = Ret (fold_left (fun row j => merge row (nth j (records_of rs) [])) g row).
Proof.
  intros A. induction g as [|i g IH]; intros row F; auto. inversion F; subst. cbn [map merge_rows].
  rewrite Nat2Z.id, row_of_aligned by auto. cbn [obind]. now rewrite IH.
Qed.
Lemma merged_width merge rs g : keeps_width merge (length rs) -> g <> [] -> Forall (fun i => i < count_of rs)%nat g ->
  length (merged merge (records_of rs) g) = length rs.
Proof.
  intros W N F. assert (LR : forall i, (i < count_of rs)%nat -> length (nth i (records_of rs) []) = length rs).
  { intros i Hi. rewrite nth_records by auto. unfold record_at. now rewrite map_length. }
  destruct g as [|i g]; [contradiction|]. inversion F as [|? ? Hi F']; subst. cbn [merged].
  assert (X : length (nth i (records_of rs) []) = length rs) by auto. revert X. generalize (nth i (records_of rs) []).
  clear F N. induction F' as [|j g Hj F' IH]; intros row X; auto. cbn [fold_left]. apply IH. apply W; auto.
Qed.
Lemma merge_groups_ok merge rs : aligned_rows rs -> keeps_width merge (length rs) ->
  forall gs rows, Forall (fun g => g <> []) gs -> Forall (Forall (fun i => i < count_of rs)%nat) gs ->
  merge_groups merge rs (map (fun g => (Z.of_nat (hd 0%nat g), map Z.of_nat (tl g))) gs) (columns_of (length rs) rows) =
    Ret (columns_of (length rs) (rows ++ map (merged merge (records_of rs)) gs)).
Proof.
  intros A W. induction gs as [|g gs IH]; intros rows N F; cbn [map merge_groups].
  - now rewrite app_nil_r.
  - inversion N as [|? ? Ng N']; subst. inversion F as [|? ? Fg F']; subst. pose proof (merged_width merge rs g W Ng Fg) as WG.
    destruct g as [|i g]; [contradiction|]. inversion Fg as [|? ? Hi Fg']; subst. cbn [hd tl].
    rewrite Nat2Z.id, row_of_aligned by auto. cbn [obind]. rewrite merge_rows_ok by auto. cbn [obind].
    change (fold_left _ g _) with (merged merge (records_of rs) (i :: g)). rewrite push_row_ok by auto.
    rewrite IH by auto. now rewrite <- app_assoc.
Qed.
Lemma DistinctMerge_ok h (t : table) ks fs merge : table_ok h t -> fields_of t ks fs -> good_keys hashable h t fs -> equality veq ->
  (forall A (l : list A), Permutation (shuffle A l) l) -> keeps_width merge (length (sc_rows (t_schema t))) ->
  exists t' gs, DistinctMerge veq hashable shuffle h ks merge t = Ret t' /\ t_schema t' = t_schema t /\ table_ok h t' /\
    grouped (same_key veq) (row_keys h t fs) gs /\ Forall increasing gs /\ records t' = map (merged merge (records t)) gs.
Proof.
  intros T F GK EQ SH W. unfold DistinctMerge.
  destruct (Distinct_groups h t ks fs T F GK EQ SH) as (t1 & gs & -> & S & T1 & G & I). cbn [obind].
  destruct (same_facts t t1 S) as (C1 & R1 & _). destruct T1 as (P1 & O1 & A1 & K1).
  pose proof (grouped_lt _ _ _ G) as LT. rewrite row_keys_length, <- C1 in LT.
  assert (LL : length (t_rows t1) = length (sc_rows (t_schema t))). { rewrite of_schema_len by auto. now rewrite (proj1 S). }
  change (map (fun _ => []) (t_rows t1)) with (map (fun _ : nat * list Z => map (fun r : list Z => nth 0 r 0) []) (t_rows t1)).
  assert (CO : map (fun _ : nat * list Z => map (fun r : list Z => nth 0 r 0) []) (t_rows t1) = columns_of (length (t_rows t1)) []).
  { unfold columns_of. cbn [map]. clear. generalize (t_rows t1). intros l. generalize 0%nat. induction l; intros a0; cbn; auto. f_equal. apply IHl. }
  rewrite CO, merge_groups_ok.
  2:{ exact A1. } 2:{ now rewrite LL. }
  2:{ destruct G as (_ & G & _). eapply Forall_impl; [|exact G]. intros g (N & _). exact N. }
  2:{ exact LT. }
  cbn [obind app]. eexists _, gs. split; [reflexivity|]. split; [apply S|].
  destruct (put_sets_records (t_rows t1) (map (merged merge (records_of (t_rows t1))) gs)) as (X1 & X2 & X3).
  { destruct (t_rows t1) eqn:ER; [right|left; discriminate].
    destruct gs as [|g gs]; auto. exfalso. unfold Count in LT. rewrite ER in LT. inversion LT as [|? ? Hg]; subst. destruct G as (_ & G & _).
    inversion G as [|? ? (N & _)]; subst. destruct g; [contradiction|]. inversion Hg. lia. }
  { apply Forall_forall. intros r Hr. apply in_map_iff in Hr. destruct Hr as (g & <- & Hg).
    apply merged_width; [now rewrite LL| |].
    - destruct G as (_ & G & _). rewrite Forall_forall in G. now destruct (G g Hg).
    - rewrite Forall_forall in LT. apply LT. auto. }
  split; [|split; [exact G|split; [exact I|]]].
  - split; [exact P1|]. split; [|split; [exact X2|]].
    + split; [cbn; rewrite X1; apply O1|]. cbn. rewrite map_length. apply O1.
    + cbn. eapply unload_cols_ok. exact K1.
  - unfold records at 1. cbn. rewrite X3. fold (records t1). now rewrite R1.
Qed.
End T.
