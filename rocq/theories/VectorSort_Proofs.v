From Coq Require Import List Bool Arith ZArith Permutation Lia.
Import ListNotations.
From Verif Require Import Base VectorSort_Model VectorSort_Spec.

Section P.
Context {T V : Type}.
Variable leb : T -> T -> bool.
Variable lib : library T V.
Hypothesis C : contract leb lib.

Lemma sort_ok x d : writable x = true -> exists r, vector_sort lib x d = Ret r /\ Permutation (items x) r /\ sorted leb (fun x => x) d r.
Proof. intros W. unfold vector_sort. rewrite W. destruct (c_qsort leb lib C d (items x)) as [P S]. exists (qsort lib d (items x)). split; [reflexivity|]. split; assumption. Qed.
Lemma select_ok x k d : writable x = true -> k < length (items x) -> exists r, vector_select lib x k d = Ret r /\ Permutation (items x) r /\ in_place leb (fun x => x) d k r.
Proof. intros W K. unfold vector_select. rewrite W. apply (c_qselect leb lib C d k (items x) K). Qed.
Lemma topk_ok x k d : writable x = true -> k <= length (items x) -> exists r, vector_topk lib x k d = Ret r /\ Permutation (items x) r /\ topped leb (fun x => x) d k r.
Proof. intros W K. unfold vector_topk. rewrite W. apply (c_partial leb lib C d k (items x) K). Qed.
Lemma argsort_ok x d : exists r ts, vector_argsort lib x d = Ret r /\ Permutation (seq 0 (length (items x))) r /\ at_positions (items x) r ts /\ sorted leb (fun x => x) d ts.
Proof. unfold vector_argsort. destruct (c_argsort leb lib C d (items x)) as (P & ts & A & S). exists (argsort lib d (items x)), ts. auto. Qed.

Lemma sorted_selected {A} (key : A -> T) d k l : sorted leb key d l -> selected leb key d k l.
Proof. intros S i j x y [H1 H2] E1 E2. apply (S i j x y); auto. lia. Qed.
Lemma Forall2_split {A B} (R : A -> B -> Prop) m : forall l l', Forall2 R l l' -> Forall2 R (firstn m l) (firstn m l') /\ Forall2 R (skipn m l) (skipn m l').
Proof.
  induction m as [|m IH]; intros l l' H; [split; [constructor|exact H]|]. destruct H as [|x y l l' H H']; cbn; [split; constructor|].
  destruct (IH _ _ H') as [I1 I2]. split; [constructor; assumption|exact I2].
Qed.
Lemma at_length (data : list T) l ts : at_positions data l ts -> length ts = length l.
Proof. unfold at_positions. induction 1; cbn; auto. Qed.
Lemma argselect_ok x k d : (d = false -> k < length (items x)) -> (d = true -> 0 < k \/ items x = []) ->
  exists r ts, vector_argselect lib x k d = Ret r /\ Permutation (seq 0 (length (items x))) r /\ at_positions (items x) r ts /\ selected leb (fun x => x) d k ts.
Proof.
  intros Ka Kd. unfold vector_argselect. destruct d.
  - set (n := length (items x)) in *. destruct (Nat.leb_spec n k) as [L|L].
    + destruct (argsort_ok x true) as (r & ts & E & P & A & S). exists r, ts. split; [exact E|]. split; [exact P|]. split; [exact A|]. apply sorted_selected, S.
    + assert (0 < k) as K0 by (destruct (Kd eq_refl) as [?|E]; [assumption|]; unfold n in L; rewrite E in L; cbn in L; lia).
      destruct (c_argselect leb lib C (n - k) (items x)) as (r & -> & P & ts & A & S); [fold n; lia|]. fold n in P. cbn [obind].
      assert (length r = n) as Lr by (rewrite <- (Permutation_length P), seq_length; reflexivity).
      pose proof (at_length _ _ _ A) as Lt.
      exists (skipn (n - k) r ++ firstn (n - k) r), (skipn (n - k) ts ++ firstn (n - k) ts). split; [reflexivity|]. split; [|split].
      * rewrite P. rewrite <- (firstn_skipn (n - k) r) at 1. apply Permutation_app_comm.
      * destruct (Forall2_split _ (n - k) _ _ A) as [A1 A2]. apply Forall2_app; assumption.
      * intros i j u v [H1 H2] E1 E2. cbn [before].
        assert (length (skipn (n - k) ts) = k) as Ls by (rewrite skipn_length; lia).
        rewrite nth_error_app1 in E1 by lia. rewrite nth_error_app2 in E2 by lia. rewrite Ls in E2.
        assert (nth_error ts ((n - k) + i) = Some u) as U.
        { rewrite <- (firstn_skipn (n - k) ts). rewrite nth_error_app2 by (rewrite firstn_length; lia). rewrite firstn_length. rewrite <- E1. f_equal. lia. }
        assert (j - k < n - k) as Hj.
        { assert (j - k < length (firstn (n - k) ts)) by (apply nth_error_Some; congruence). rewrite firstn_length in H. lia. }
        assert (nth_error ts (j - k) = Some v) as W.
        { rewrite <- (firstn_skipn (n - k) ts). rewrite nth_error_app1 by (rewrite firstn_length; lia). exact E2. }
        apply (S (j - k) ((n - k) + i) v u); [lia|exact W|exact U].
  - destruct (c_argselect leb lib C k (items x)) as (r & -> & P & ts & A & S); [auto|]. exists r, ts. split; [reflexivity|]. split; [exact P|]. split; [exact A|].
    intros i j u v [H1 H2] E1 E2. apply (S i j u v); auto. lia.
Qed.
Lemma pairs_back (l : list (T * V)) : combine (map fst l) (map snd l) = l.
Proof. induction l as [|[a b] l IH]; cbn; rewrite ?IH; reflexivity. Qed.
Lemma key_value_ok {A} (keys : nvec T) (values : nvec V) (f : list (T * V) -> outcome A) : writable keys = true -> writable values = true -> length (items keys) = length (items values) ->
  key_value keys values f = f (combine (items keys) (items values)).
Proof. intros W1 W2 L. unfold key_value. rewrite W1, W2, L, Nat.eqb_refl. reflexivity. Qed.
Lemma kv_length (keys : nvec T) (values : nvec V) : length (items keys) = length (items values) -> length (combine (items keys) (items values)) = length (items keys).
Proof. intros L. rewrite combine_length. lia. Qed.

Theorem sort_kv_ok keys values d : writable keys = true -> writable values = true -> length (items keys) = length (items values) ->
  exists ks vs, vector_sort_key_value lib keys values d = Ret (ks, vs) /\ length ks = length vs /\
    Permutation (combine (items keys) (items values)) (combine ks vs) /\ sorted leb (fun x => x) d ks.
Proof.
  intros W1 W2 L. unfold vector_sort_key_value. rewrite key_value_ok by assumption. cbn [arrays obind].
  destruct (c_kv_sort leb lib C d (combine (items keys) (items values))) as [P S]. set (r := keyvalue_qsort lib d _) in *.
  exists (map fst r), (map snd r). split; [reflexivity|]. split; [rewrite !map_length; reflexivity|]. rewrite pairs_back. split; [exact P|].
  intros i j x y H E1 E2. rewrite nth_error_map in E1, E2. destruct (nth_error r i) as [a|] eqn:Ea; [|discriminate]. destruct (nth_error r j) as [b|] eqn:Eb; [|discriminate].
  injection E1 as <-. injection E2 as <-. apply (S i j a b H Ea Eb).
Qed.
Lemma mapped {A} (key : A -> T) (l : list A) i x : nth_error (map key l) i = Some x -> exists a, nth_error l i = Some a /\ key a = x.
Proof. rewrite nth_error_map. destruct (nth_error l i); cbn; [intros [= <-]; eauto|discriminate]. Qed.
Theorem topk_kv_ok keys values k d : writable keys = true -> writable values = true -> length (items keys) = length (items values) -> k <= length (items keys) ->
  exists ks vs, vector_topk_key_value lib keys values k d = Ret (ks, vs) /\ length ks = length vs /\
    Permutation (combine (items keys) (items values)) (combine ks vs) /\ topped leb (fun x => x) d k ks.
Proof.
  intros W1 W2 L K. unfold vector_topk_key_value. rewrite key_value_ok by assumption.
  destruct (c_kv_partial leb lib C d k (combine (items keys) (items values))) as (r & -> & P & S1 & S2); [rewrite kv_length; assumption|]. cbn [arrays obind].
  exists (map fst r), (map snd r). split; [reflexivity|]. split; [rewrite !map_length; reflexivity|]. rewrite pairs_back. split; [exact P|]. split.
  - intros i j x y H E1 E2. apply mapped in E1 as (a & Ea & <-). apply mapped in E2 as (b & Eb & <-). apply (S1 i j a b H Ea Eb).
  - rewrite firstn_map. intros i j x y H E1 E2. apply mapped in E1 as (a & Ea & <-). apply mapped in E2 as (b & Eb & <-). apply (S2 i j a b H Ea Eb).
Qed.
Theorem select_kv_ok keys values k d : writable keys = true -> writable values = true -> length (items keys) = length (items values) -> k < length (items keys) ->
  exists ks vs, vector_select_key_value lib keys values k d = Ret (ks, vs) /\ length ks = length vs /\
    Permutation (combine (items keys) (items values)) (combine ks vs) /\ in_place leb (fun x => x) d k ks.
Proof.
  intros W1 W2 L K. unfold vector_select_key_value. rewrite key_value_ok by assumption.
  destruct (c_kv_select leb lib C d k (combine (items keys) (items values))) as (r & -> & P & S1); [rewrite kv_length; assumption|]. cbn [arrays obind].
  exists (map fst r), (map snd r). split; [reflexivity|]. split; [rewrite !map_length; reflexivity|]. rewrite pairs_back. split; [exact P|].
  intros i j x y H E1 E2. apply mapped in E1 as (a & Ea & <-). apply mapped in E2 as (b & Eb & <-). apply (S1 i j a b H Ea Eb).
Qed.
End P.

(** Exceptions do not depend on the library. *)
Lemma read_only {T V} (lib : library T V) x k d : writable x = false -> vector_sort lib x d = Err /\ vector_select lib x k d = Err /\ vector_topk lib x k d = Err.
Proof. intros W. unfold vector_sort, vector_select, vector_topk. rewrite W. auto. Qed.
Lemma refused_pairs {T V} (lib : library T V) keys values k d :
  writable keys = false \/ writable values = false \/ length (items keys) <> length (items values) ->
  vector_sort_key_value lib keys values d = Err /\ vector_topk_key_value lib keys values k d = Err /\ vector_select_key_value lib keys values k d = Err.
Proof.
  intros H. assert (forall A (f : list (T * V) -> outcome A), key_value keys values f = Err) as E.
  { intros A f. unfold key_value. destruct H as [-> |[-> |N]]; [reflexivity|rewrite orb_true_r; reflexivity|].
    destruct (negb _ || negb _); [reflexivity|]. rewrite (proj2 (Nat.eqb_neq _ _) N). reflexivity. }
  unfold vector_sort_key_value, vector_topk_key_value, vector_select_key_value. rewrite !E. auto.
Qed.

(** ** A library that keeps the contract, and only that: insertion sort *)
Section Ref.
Context {A : Type}.
Variable le : A -> A -> bool.
Hypothesis total : forall x y, le x y = true \/ le y x = true.
Hypothesis trans : forall x y z, le x y = true -> le y z = true -> le x z = true.
Fixpoint insert (x : A) (l : list A) : list A := match l with [] => [x] | y :: l => if le x y then x :: y :: l else y :: insert x l end.
Fixpoint isort (l : list A) : list A := match l with [] => [] | x :: l => insert x (isort l) end.
Fixpoint chain (l : list A) : Prop := match l with [] => True | x :: l => Forall (fun y => le x y = true) l /\ chain l end.
Lemma insert_perm x l : Permutation (x :: l) (insert x l).
Proof. induction l as [|y l IH]; cbn; [auto|]. destruct (le x y); [auto|]. rewrite perm_swap. constructor. exact IH. Qed.
Lemma isort_perm l : Permutation l (isort l).
Proof. induction l as [|x l IH]; cbn; [auto|]. rewrite <- insert_perm. constructor. exact IH. Qed.
Lemma insert_chain x l : chain l -> chain (insert x l).
Proof.
  induction l as [|y l IH]; cbn; [auto|]. intros [F S]. destruct (le x y) eqn:E; cbn.
  - split; [|auto]. constructor; [exact E|]. eapply Forall_impl; [|exact F]. intros z. apply trans, E.
  - split; [|auto]. apply (Permutation_Forall (insert_perm x l)). constructor; [|exact F]. destruct (total x y); congruence.
Qed.
Lemma isort_chain l : chain (isort l).
Proof. induction l as [|x l IH]; cbn; [exact I|]. apply insert_chain, IH. Qed.
Lemma refl x : le x x = true.
Proof. destruct (total x x); assumption. Qed.
Lemma chain_nth l : chain l -> forall i j x y, i <= j -> nth_error l i = Some x -> nth_error l j = Some y -> le x y = true.
Proof.
  induction l as [|z l IH]; intros S i j x y H E1 E2; [destruct i; discriminate|]. destruct S as [F S].
  destruct i as [|i], j as [|j]; cbn in *; try lia.
  - injection E1 as ->. injection E2 as ->. apply refl.
  - injection E1 as ->. rewrite Forall_forall in F. apply F. eapply nth_error_In. exact E2.
  - apply (IH S i j x y); auto. lia.
Qed.
End Ref.

Section Lib.
Context {V : Type}.
Local Open Scope Z_scope.
Definition ord (d : bool) (x y : Z) : bool := if d then Z.leb y x else Z.leb x y.
Lemma ord_total d x y : ord d x y = true \/ ord d y x = true.
Proof. unfold ord. destruct d; rewrite !Z.leb_le; lia. Qed.
Lemma ord_trans d x y z : ord d x y = true -> ord d y z = true -> ord d x z = true.
Proof. unfold ord. destruct d; rewrite !Z.leb_le; lia. Qed.
Definition by_key {A} (key : A -> Z) (d : bool) (x y : A) : bool := ord d (key x) (key y).
Definition sort_by {A} (key : A -> Z) (d : bool) (l : list A) : list A := isort (by_key key d) l.
Lemma sort_by_perm {A} (key : A -> Z) d l : Permutation l (sort_by key d l).
Proof. apply isort_perm. Qed.
Lemma sort_by_sorted {A} (key : A -> Z) d l : sorted Z.leb key d (sort_by key d l).
Proof.
  intros i j x y H E1 E2. unfold before. pose proof (chain_nth (by_key key d) (fun x y => ord_total d _ _) _
    (isort_chain (by_key key d) (fun x y => ord_total d _ _) (fun x y z => ord_trans d _ _ _) l) i j x y H E1 E2) as L.
  unfold by_key, ord in L. destruct d; exact L.
Qed.
Definition reference : library Z V :=
  let within {A B} (k : nat) (l : list A) (r : B) := if Nat.leb k (length l) then Ret r else UB in
  let index l d := map snd (sort_by fst d (combine l (seq 0 (length l)))) in
  Library (sort_by (fun x => x)) (fun d k l => within (S k) l (sort_by (fun x => x) d l)) (fun d k l => within k l (sort_by (fun x => x) d l))
    (fun d l => index l d) (fun k l => within (S k) l (index l false))
    (sort_by fst) (fun d k l => within k l (sort_by fst d l)) (fun d k l => within (S k) l (sort_by fst d l)).
Lemma snd_combine {A B} (l : list A) : forall (l' : list B), length l = length l' -> map snd (combine l l') = l'.
Proof. induction l as [|x l IH]; intros [|y l'] H; cbn in *; try discriminate; [reflexivity|]. rewrite IH by lia. reflexivity. Qed.
Lemma index_ok (l : list Z) d : let r := map snd (sort_by fst d (combine l (seq 0 (length l)))) in
  Permutation (seq 0 (length l)) r /\ exists ts, at_positions l r ts /\ sorted Z.leb (fun x => x) d ts.
Proof.
  cbv zeta. set (p := combine l (seq 0 (length l))). assert (map snd p = seq 0 (length l)) as Hs by (apply snd_combine; rewrite seq_length; reflexivity).
  split; [rewrite <- Hs; apply Permutation_map, sort_by_perm|]. exists (map fst (sort_by fst d p)). split.
  - assert (Forall (fun q => nth_error l (snd q) = Some (fst q)) p) as F.
    { apply Forall_forall. intros [a b] H. apply In_nth_error in H as [i Hi]. cbn.
      assert (nth_error (map snd p) i = Some b) as H2 by (rewrite nth_error_map, Hi; reflexivity). rewrite Hs in H2.
      assert (i < length (seq 0 (length l)))%nat as Li by (apply nth_error_Some; congruence).
      assert (b = i). { rewrite seq_length in Li. rewrite (nth_error_nth' _ 0%nat) in H2 by (rewrite seq_length; exact Li). rewrite seq_nth in H2 by exact Li. injection H2 as <-. reflexivity. }
      subst b. assert (forall (l1 : list Z) (l2 : list nat) i a c, nth_error (combine l1 l2) i = Some (a, c) -> nth_error l1 i = Some a) as G.
      { clear. induction l1 as [|x l1 IH]; intros [|y l2] [|i] a c H; cbn in *; try discriminate; [injection H as <- <-; reflexivity|]. eapply IH. exact H. }
      eapply G. exact Hi. }
    apply (Permutation_Forall (sort_by_perm fst d p)) in F. revert F. generalize (sort_by fst d p). unfold at_positions.
    induction l0 as [|q l0 IH]; intros F; cbn; constructor; inversion F; subst; auto.
  - intros i j x y H E1 E2. apply (mapped fst) in E1 as (a & Ea & <-). apply (mapped fst) in E2 as (b & Eb & <-). apply (sort_by_sorted fst d p i j a b H Ea Eb).
Qed.
Lemma sorted_place {A} (key : A -> Z) d k l : sorted Z.leb key d l -> in_place Z.leb key d k l.
Proof. intros S i j x y [H1 H2]. apply S. lia. Qed.
Lemma sorted_topped {A} (key : A -> Z) d k l : sorted Z.leb key d l -> topped Z.leb key d k l.
Proof.
  intros S. split; [intros i j x y [H1 H2]; apply S; lia|]. intros i j x y H E1 E2.
  assert (forall i x, nth_error (firstn k l) i = Some x -> nth_error l i = Some x) as G.
  { intros i' x' E. rewrite <- (firstn_skipn k l). rewrite nth_error_app1; [exact E|]. apply nth_error_Some. congruence. }
  apply (S i j x y H); auto.
Qed.
Lemma reference_ok : contract Z.leb reference.
Proof.
  constructor; cbn [reference qsort qselect partial_qsort argsort argselect keyvalue_qsort keyvalue_partial_sort keyvalue_select].
  - intros. split; [apply sort_by_perm|apply sort_by_sorted].
  - intros d k l H. rewrite (proj2 (Nat.leb_le _ _)) by lia. eexists. split; [reflexivity|]. split; [apply sort_by_perm|apply sorted_place, sort_by_sorted].
  - intros d k l H. rewrite (proj2 (Nat.leb_le _ _)) by lia. eexists. split; [reflexivity|]. split; [apply sort_by_perm|apply sorted_topped, sort_by_sorted].
  - intros. apply index_ok.
  - intros k l H. rewrite (proj2 (Nat.leb_le _ _)) by lia. eexists. split; [reflexivity|]. destruct (index_ok l false) as (P & ts & At & S). split; [exact P|].
    exists ts. split; [exact At|]. intros i j x y [H1 H2]. apply S. lia.
  - intros. split; [apply sort_by_perm|apply sort_by_sorted].
  - intros d k l H. rewrite (proj2 (Nat.leb_le _ _)) by lia. eexists. split; [reflexivity|]. split; [apply sort_by_perm|apply sorted_topped, sort_by_sorted].
  - intros d k l H. rewrite (proj2 (Nat.leb_le _ _)) by lia. eexists. split; [reflexivity|]. split; [apply sort_by_perm|apply sorted_place, sort_by_sorted].
Qed.
Lemma reference_past : forall (x : nvec Z) (ys : nvec V) k d, writable x = true -> (length (items x) < k)%nat ->
  vector_topk reference x k d = UB /\ vector_select reference x k d = UB /\ vector_argselect reference x k false = UB.
Proof.
  intros x ys k d W H. unfold vector_topk, vector_select, vector_argselect. rewrite W. cbn [negb reference partial_qsort qselect argselect].
  rewrite !(proj2 (Nat.leb_gt _ _)) by lia. auto.
Qed.
Lemma reference_none : forall x : nvec Z, items x <> [] -> vector_argselect reference x 0 true = UB.
Proof.
  intros x H. unfold vector_argselect. destruct (items x) as [|a l] eqn:E; [contradiction|]. cbn [length Nat.leb]. rewrite Nat.sub_0_r. cbn [reference argselect].
  rewrite (proj2 (Nat.leb_gt _ _)) by (cbn; lia). reflexivity.
Qed.
End Lib.
