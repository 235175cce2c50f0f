From Coq Require Import List ZArith Bool Lia.
Import ListNotations.
From Verif Require Import Base StringView_Spec StringView_Model StringView_Proofs Vector_Spec Vector_Model.
Local Open Scope Z_scope.

(** ** Bits *)
Lemma bit_set_spec b n k : 0 <= n < 8 -> 0 <= k < 8 ->
  Z.testbit (bit_set b n) k = (k =? n) || Z.testbit b k.
Proof.
  intros Hn Hk. unfold bit_set, wrapu. rewrite Z.mod_pow2_bits_low, Z.lor_spec by lia.
  rewrite Z.shiftl_1_l, Z.pow2_bits_eqb by lia. rewrite (Z.eqb_sym n k), orb_comm. reflexivity.
Qed.
Lemma bit_clear_spec b n k : 0 <= n < 8 -> 0 <= k < 8 ->
  Z.testbit (bit_clear b n) k = negb (k =? n) && Z.testbit b k.
Proof.
  intros Hn Hk. unfold bit_clear, wrapu. rewrite Z.mod_pow2_bits_low, Z.land_spec by lia.
  rewrite Z.lnot_spec by lia. rewrite Z.shiftl_1_l, Z.pow2_bits_eqb by lia.
  rewrite (Z.eqb_sym n k), andb_comm. reflexivity.
Qed.
Lemma new_byte_spec v b n k : 0 <= n < 8 -> 0 <= k < 8 ->
  Z.testbit (new_byte v b n) k = if k =? n then v else Z.testbit b k.
Proof.
  intros. unfold new_byte. destruct v; [rewrite bit_set_spec by lia | rewrite bit_clear_spec by lia];
    destruct (k =? n); reflexivity.
Qed.
Lemma new_byte_range v b n : 0 <= new_byte v b n < 256.
Proof.
  unfold new_byte, bit_set, bit_clear. change 256 with (2 ^ 8). destruct v; apply wrapu_range; lia.
Qed.
Lemma byte_ext a b : 0 <= a < 256 -> 0 <= b < 256 ->
  (forall k, 0 <= k < 8 -> Z.testbit a k = Z.testbit b k) -> a = b.
Proof.
  intros Ha Hb H. rewrite <- (Z.mod_small a (2 ^ 8)), <- (Z.mod_small b (2 ^ 8)) by (pows; lia).
  apply Z.bits_inj'. intros k Hk. destruct (Z.lt_ge_cases k 8).
  - rewrite !Z.mod_pow2_bits_low by lia. apply H. lia.
  - rewrite !Z.mod_pow2_bits_high by lia. reflexivity.
Qed.
Lemma new_byte_idem v b n : 0 <= n < 8 -> new_byte v (new_byte v b n) n = new_byte v b n.
Proof.
  intros. apply byte_ext; try apply new_byte_range. intros k Hk.
  rewrite !new_byte_spec by lia. destruct (k =? n); reflexivity.
Qed.
Lemma new_byte_zero n : 0 <= n < 8 -> new_byte false 0 n = 0.
Proof.
  intros. apply byte_ext; [apply new_byte_range|lia|]. intros k Hk.
  rewrite new_byte_spec by lia. rewrite Z.bits_0. destruct (k =? n); reflexivity.
Qed.
Lemma new_byte_true_nz b n : 0 <= n < 8 -> new_byte true b n <> 0.
Proof.
  intros Hn E. assert (Z.testbit (new_byte true b n) n = true).
  { rewrite new_byte_spec by lia. now rewrite Z.eqb_refl. }
  rewrite E, Z.bits_0 in H. discriminate.
Qed.

(** ** Buffers *)
Lemma upd_length {A} (l : list A) n x : length (upd l n x) = length l.
Proof. revert n. induction l; intros [|n]; simpl; auto. Qed.
Lemma nth_upd {A} (l : list A) n m x d : (n < length l)%nat ->
  nth m (upd l n x) d = if Nat.eqb m n then x else nth m l d.
Proof.
  revert n m. induction l as [|y l IH]; intros [|n] [|m] H; simpl in *; try lia; auto.
  apply IH. lia.
Qed.
Lemma nth_error_upd {A} (l : list A) n m x : (n < length l)%nat ->
  nth_error (upd l n x) m = if Nat.eqb m n then Some x else nth_error l m.
Proof.
  revert n m. induction l as [|y l IH]; intros [|n] [|m] H; simpl in *; try lia; auto.
  apply IH. lia.
Qed.
Lemma upd_bytes mem n x : byte_buffer mem -> 0 <= x < 256 -> byte_buffer (upd mem n x).
Proof.
  intros H Hx. revert n. induction H; intros [|n]; simpl; try constructor; auto. apply IHForall.
Qed.
Lemma load_ret {A} (mem : list A) i d : 0 <= i < Z.of_nat (length mem) -> load mem i = Ret (nth (Z.to_nat i) mem d).
Proof.
  intros H. unfold load. rewrite (proj2 (Z.ltb_ge _ _)) by lia.
  rewrite (nth_error_nth' mem d) by lia. reflexivity.
Qed.
Lemma load_inv {A} (mem : list A) i x : load mem i = Ret x -> 0 <= i < Z.of_nat (length mem) /\ nth_error mem (Z.to_nat i) = Some x.
Proof.
  unfold load. destruct (Z.ltb_spec i 0); [discriminate|]. destruct (nth_error mem (Z.to_nat i)) eqn:E; [|discriminate].
  intros [= ->]. assert (Z.to_nat i < length mem)%nat by (apply nth_error_Some; congruence). split; auto. lia.
Qed.
Lemma store_ret {A} (mem : list A) i x : 0 <= i < Z.of_nat (length mem) -> store mem i x = Ret (upd mem (Z.to_nat i) x).
Proof.
  intros H. unfold store. rewrite (proj2 (Z.ltb_ge _ _)), (proj2 (Z.leb_gt _ _)) by lia. reflexivity.
Qed.

Lemma bit_of_upd mem b x i : 0 <= i -> 0 <= b < Z.of_nat (length mem) ->
  bit_of (upd mem (Z.to_nat b) x) i = if i / 8 =? b then Z.testbit x (i mod 8) else bit_of mem i.
Proof.
  intros Hi Hb. unfold bit_of. rewrite nth_upd by lia.
  assert (0 <= i / 8) by (apply Z.div_pos; lia).
  destruct (Z.eqb_spec (i / 8) b) as [->|N].
  - now rewrite Nat.eqb_refl.
  - rewrite (proj2 (Nat.eqb_neq _ _)) by lia. reflexivity.
Qed.

Lemma div_mod_eq i j : i / 8 = j / 8 -> i mod 8 = j mod 8 -> i = j.
Proof. intros. rewrite (Z.div_mod i 8), (Z.div_mod j 8) by lia. lia. Qed.

(** ** Set *)
Lemma set_loop_ret fuel b c v : (2 <= fuel)%nat -> 0 <= c < 8 -> (v = true \/ b <> 0) ->
  set_loop fuel b c v = Ret (new_byte v b c).
Proof.
  intros Hf Hc H. destruct fuel as [|[|fuel]]; try lia. cbn [set_loop].
  destruct (Z.eqb_spec b 0) as [->|N]; cbn [negb]; [|reflexivity].
  destruct H as [->|H]; [|congruence].
  rewrite (proj2 (Z.eqb_neq _ _)) by (apply new_byte_true_nz; assumption). cbn [negb].
  now rewrite new_byte_idem.
Qed.
Lemma set_loop_hang fuel c : 0 <= c < 8 -> set_loop fuel 0 c false = Hang.
Proof.
  intros Hc. induction fuel as [|fuel IH]; [reflexivity|]. cbn [set_loop].
  rewrite Z.eqb_refl. cbn [negb]. now rewrite new_byte_zero.
Qed.

(** The vector's elements lie inside the buffer. *)
Definition bits_fit (mem : list Z) (v : vec) : Prop :=
  byte_buffer mem /\ 0 <= data_ v /\ 8 * data_ v + size_ v <= 8 * Z.of_nat (length mem).

Lemma idx_byte mem v idx : bits_fit mem v -> 0 <= idx < size_ v ->
  0 <= data_ v + idx / 8 < Z.of_nat (length mem).
Proof.
  intros (B & D & F) H. split.
  - assert (0 <= idx / 8) by (apply Z.div_pos; lia). lia.
  - assert (idx / 8 < Z.of_nat (length mem) - data_ v); [|lia]. apply Z.div_lt_upper_bound; lia.
Qed.

Lemma global_div d i : (8 * d + i) / 8 = d + i / 8.
Proof. rewrite Z.mul_comm, Z.div_add_l by lia. reflexivity. Qed.
Lemma global_mod d i : (8 * d + i) mod 8 = i mod 8.
Proof. rewrite Z.add_comm, Z.mul_comm, Z_mod_plus_full. reflexivity. Qed.

Lemma bit_get_ok mem v i : bits_fit mem v -> 0 <= i < size_ v ->
  bit_get mem v i = Ret (bit_of mem (8 * data_ v + i)).
Proof.
  intros F H. unfold bit_get. rewrite (load_ret _ _ 0) by (eapply idx_byte; eauto). cbn [obind]. f_equal.
  unfold bit_of. rewrite global_div, global_mod.
  set (b := nth _ _ _). pose proof (Z.mod_pos_bound i 8 ltac:(lia)) as M.
  rewrite Z.land_ones with (n := 1) by lia. change (2 ^ 1) with 2.
  rewrite <- Z.bit0_mod, Z.shiftr_spec by lia. rewrite Z.add_0_l.
  destruct (Z.testbit b (i mod 8)); reflexivity.
Qed.

Lemma bit_set_ok fuel mem v idx x : (2 <= fuel)%nat -> bits_fit mem v -> writable_ v = true ->
  0 <= idx < size_ v ->
  (x = true \/ exists j, 0 <= j /\ j / 8 = (8 * data_ v + idx) / 8 /\ bit_of mem j = true) ->
  exists mem', bit_vec_set fuel mem v idx x = Ret mem' /\ length mem' = length mem /\ byte_buffer mem' /\
    bit_of mem' (8 * data_ v + idx) = x /\
    forall j, 0 <= j -> j <> 8 * data_ v + idx -> bit_of mem' j = bit_of mem j.
Proof.
  intros Hf F W H C. pose proof (idx_byte _ _ _ F H) as I. pose proof F as (B & D & _).
  unfold bit_vec_set, Size. rewrite (proj2 (Z.leb_gt _ _)) by lia. rewrite W. cbn [negb].
  rewrite (load_ret _ _ 0) by exact I. cbn [obind].
  pose proof (Z.mod_pos_bound idx 8 ltac:(lia)) as M.
  set (b := nth _ _ _) in *.
  rewrite set_loop_ret; auto.
  2:{ destruct C as [C|(j & J0 & J & T)]; [now left|right]. intros E.
      unfold bit_of in T. rewrite J, global_div in T. fold b in T. rewrite E, Z.bits_0 in T. discriminate. }
  cbn [obind]. rewrite store_ret by exact I. eexists; split; [reflexivity|].
  split; [apply upd_length|]. split; [apply upd_bytes; auto using new_byte_range|].
  split.
  - rewrite bit_of_upd by lia. rewrite global_div, global_mod, Z.eqb_refl, new_byte_spec by lia.
    now rewrite Z.eqb_refl.
  - intros j J N. rewrite bit_of_upd by lia. destruct (Z.eqb_spec (j / 8) (data_ v + idx / 8)) as [E|E]; auto.
    rewrite new_byte_spec by (try lia; apply Z.mod_pos_bound; lia).
    rewrite (proj2 (Z.eqb_neq _ _)).
    + unfold bit_of. rewrite E. reflexivity.
    + intros E2. apply N. apply div_mod_eq; [now rewrite global_div|now rewrite global_mod].
Qed.

Lemma bit_set_hang fuel mem v idx : bits_fit mem v -> writable_ v = true -> 0 <= idx < size_ v ->
  (forall j, 0 <= j -> j / 8 = (8 * data_ v + idx) / 8 -> bit_of mem j = false) ->
  bit_vec_set fuel mem v idx false = Hang.
Proof.
  intros F W H Z. pose proof (idx_byte _ _ _ F H) as I. pose proof F as (B & D & _).
  unfold bit_vec_set, Size. rewrite (proj2 (Z.leb_gt _ _)) by lia. rewrite W. cbn [negb].
  rewrite (load_ret _ _ 0) by exact I. cbn [obind].
  set (b := nth _ _ _) in *. assert (E : b = 0).
  { apply byte_ext; [|lia|].
    - unfold b. eapply (proj1 (Forall_forall _ _) B). apply nth_In. lia.
    - intros k Hk. rewrite Z.bits_0. specialize (Z (8 * (data_ v + idx / 8) + k)).
      unfold bit_of in Z. rewrite global_div, global_mod in Z. rewrite (Z.div_small k 8), Z.add_0_r in Z by lia.
      rewrite (Z.mod_small k 8) in Z by lia. apply Z; [lia|]. symmetry. apply global_div. }
  rewrite E, set_loop_hang by (apply Z.mod_pos_bound; lia). reflexivity.
Qed.

Lemma bit_set_range fuel mem v idx x : size_ v <= idx -> bit_vec_set fuel mem v idx x = Err.
Proof. intros. unfold bit_vec_set, Size. now rewrite (proj2 (Z.leb_le _ _)). Qed.

Lemma elem_set_ok {A} (mem : list A) v idx x d : writable_ v = true -> 0 <= data_ v ->
  data_ v + size_ v <= Z.of_nat (length mem) -> 0 <= idx < size_ v ->
  exists mem', elem_set mem v idx x = Ret mem' /\ length mem' = length mem /\
    elem_get mem' v idx = Ret x /\
    forall j, 0 <= j -> j <> data_ v + idx -> nth (Z.to_nat j) mem' d = nth (Z.to_nat j) mem d.
Proof.
  intros W D F H. unfold elem_set, Size. rewrite (proj2 (Z.leb_gt _ _)) by lia. rewrite W. cbn [negb].
  rewrite store_ret by lia. eexists; split; [reflexivity|]. split; [apply upd_length|]. split.
  - unfold elem_get. rewrite (load_ret _ _ d) by (rewrite upd_length; lia). f_equal.
    rewrite nth_upd, Nat.eqb_refl by lia. reflexivity.
  - intros j J N. rewrite nth_upd by lia. rewrite (proj2 (Nat.eqb_neq _ _)) by lia. reflexivity.
Qed.

(** ** Concurrency *)
Section Concurrent.
  Variable mem0 : list Z.

  Definition tbyte (t : thread) : Z := t_idx t / 8.
  Definition target (t : thread) : Z := new_byte (t_val t) (nth (Z.to_nat (tbyte t)) mem0 0) (t_idx t mod 8).
  Definition tinv (mem : list Z) (t : thread) : Prop :=
    0 <= tbyte t < Z.of_nat (length mem0) /\
    let m := nth (Z.to_nat (tbyte t)) mem 0 in
    (m = nth (Z.to_nat (tbyte t)) mem0 0 \/ m = target t) /\
    match t_pc t with
    | PLoad => True
    | PCompute cur => cur = m
    | PCas cur new => cur = m /\ new = target t
    | PDone => m = target t
    end.
  Definition same_job (t t' : thread) : Prop := t_idx t' = t_idx t /\ t_val t' = t_val t.

  Lemma target_idem t m : (m = nth (Z.to_nat (tbyte t)) mem0 0 \/ m = target t) ->
    new_byte (t_val t) m (t_idx t mod 8) = target t.
  Proof.
    intros [->| ->]; [reflexivity|]. unfold target. apply new_byte_idem. apply Z.mod_pos_bound. lia.
  Qed.

  Lemma step_inv mem t : length mem = length mem0 -> tinv mem t ->
    exists mem' t', thread_step mem t = Ret (mem', t') /\ length mem' = length mem0 /\
      same_job t t' /\ tinv mem' t' /\
      (forall n, n <> Z.to_nat (tbyte t) -> nth n mem' 0 = nth n mem 0).
  Proof.
    intros L (R & M & P). cbv zeta in M, P. unfold thread_step. fold (tbyte t).
    rewrite (load_ret _ _ 0) by lia. cbn [obind].
    set (m := nth (Z.to_nat (tbyte t)) mem 0) in *.
    destruct (t_pc t) as [|cur|cur new|] eqn:PC.
    - do 2 eexists. split; [reflexivity|]. split; [exact L|]. split; [split; reflexivity|].
      split; [split; [exact R|split; [exact M|reflexivity]]|]. reflexivity.
    - do 2 eexists. split; [reflexivity|]. split; [exact L|]. split; [split; reflexivity|].
      split; [split; [exact R|split; [exact M|]]|reflexivity].
      cbn [t_pc]. split; [exact P|]. rewrite target_idem by exact M. reflexivity.
    - destruct P as [-> ->]. rewrite Z.eqb_refl. rewrite store_ret by lia. cbn [obind].
      do 2 eexists. split; [reflexivity|].
      assert (E : nth (Z.to_nat (tbyte t)) (upd mem (Z.to_nat (tbyte t)) (target t)) 0 = target t).
      { rewrite nth_upd by lia. now rewrite Nat.eqb_refl. }
      split; [now rewrite upd_length|]. split; [split; reflexivity|]. split.
      + split; [exact R|]. split; [right; exact E|].
        cbn [t_pc]. destruct (negb (m =? 0)); [exact E|exact I].
      + intros n N. rewrite nth_upd by lia. rewrite (proj2 (Nat.eqb_neq _ _)) by lia. reflexivity.
    - do 2 eexists. split; [reflexivity|]. split; [exact L|]. split; [split; reflexivity|].
      split; [|reflexivity]. split; [exact R|split; [exact M|]]. rewrite PC. exact P.
  Qed.

  Definition inv (mem : list Z) (ts : list thread) : Prop :=
    length mem = length mem0 /\
    Forall (tinv mem) ts /\
    (forall a b t u, nth_error ts a = Some t -> nth_error ts b = Some u -> a <> b -> tbyte t <> tbyte u) /\
    (forall n, (forall t, In t ts -> n <> Z.to_nat (tbyte t)) -> nth n mem 0 = nth n mem0 0).

  Lemma same_job_refl ts : Forall2 same_job ts ts.
  Proof. induction ts; constructor; auto. split; reflexivity. Qed.
  Lemma same_job_trans a b c : Forall2 same_job a b -> Forall2 same_job b c -> Forall2 same_job a c.
  Proof.
    intros H. revert c. induction H; intros c Hc; inversion Hc; subst; constructor; auto.
    unfold same_job in *. intuition congruence.
  Qed.
  Lemma same_job_upd ts n t t' : nth_error ts n = Some t -> same_job t t' -> Forall2 same_job ts (upd ts n t').
  Proof.
    revert n. induction ts as [|u ts IH]; intros [|n] H J; try discriminate.
    - simpl in *. injection H as ->. constructor; auto using same_job_refl.
    - simpl in *. constructor; [split; reflexivity|]. eapply IH; eauto.
  Qed.

  Lemma run_inv sched mem ts : inv mem ts ->
    exists mem' ts', run sched mem ts = Ret (mem', ts') /\ inv mem' ts' /\ Forall2 same_job ts ts'.
  Proof.
    revert mem ts. induction sched as [|n sched IH]; intros mem ts H.
    - exists mem, ts. split; [reflexivity|]. auto using same_job_refl.
    - cbn [run]. destruct (nth_error ts n) as [t|] eqn:E; [|apply IH; exact H].
      destruct H as (L & F & D & U).
      assert (Ft : tinv mem t) by (eapply (proj1 (Forall_forall _ _) F), nth_error_In; eauto).
      destruct (step_inv mem t L Ft) as (mem' & t' & S & L' & J & T' & O).
      rewrite S. cbn [obind].
      assert (Lt : (n < length ts)%nat) by (apply nth_error_Some; congruence).
      assert (Tb : tbyte t' = tbyte t) by (unfold tbyte; destruct J as [-> _]; reflexivity).
      destruct (IH mem' (upd ts n t')) as (mem2 & ts2 & R & I2 & J2).
      { split; [assumption|]. split; [|split].
        - apply Forall_forall. intros u Hu. apply In_nth_error in Hu. destruct Hu as [k Hk].
          rewrite nth_error_upd in Hk by assumption. destruct (Nat.eqb_spec k n) as [Ek|N].
          + injection Hk as <-. assumption.
          + assert (tinv mem u) as (R & M & P) by (eapply (proj1 (Forall_forall _ _) F), nth_error_In; eauto).
            assert (tbyte u <> tbyte t) by (eapply (D k n); eauto).
            split; auto. rewrite (O (Z.to_nat (tbyte u))) by (destruct Ft as [? _]; lia). auto.
        - intros a b x y Ha Hb N. rewrite nth_error_upd in Ha, Hb by assumption.
          destruct (Nat.eqb_spec a n) as [->|Na], (Nat.eqb_spec b n) as [->|Nb]; try congruence.
          + injection Ha as <-. rewrite Tb. eapply (D n b); eauto.
          + injection Hb as <-. rewrite Tb. eapply (D a n); eauto.
          + eapply (D a b); eauto.
        - intros k Hk.
          assert (K : forall u, In u ts -> k <> Z.to_nat (tbyte u)).
          { intros u Hu. apply In_nth_error in Hu. destruct Hu as [q Hq].
            destruct (Nat.eq_dec q n) as [->|Nq].
            - rewrite E in Hq. injection Hq as <-. rewrite <- Tb. apply Hk.
              eapply nth_error_In with (n := n). rewrite nth_error_upd, Nat.eqb_refl by assumption. reflexivity.
            - apply Hk. eapply nth_error_In with (n := q). rewrite nth_error_upd by assumption.
              rewrite (proj2 (Nat.eqb_neq _ _)) by assumption. assumption. }
          rewrite O; [apply U, K|]. apply K. eapply nth_error_In; eauto. }
      exists mem2, ts2. split; [assumption|]. split; [assumption|].
      eapply same_job_trans; eauto. eapply same_job_upd; eauto.
  Qed.
End Concurrent.

Lemma concurrent_ok mem (jobs : list (Z * bool)) sched :
  byte_buffer mem ->
  (forall i v, In (i, v) jobs -> 0 <= i < 8 * Z.of_nat (length mem)) ->
  (forall a b i v j w, nth_error jobs a = Some (i, v) -> nth_error jobs b = Some (j, w) -> a <> b -> i / 8 <> j / 8) ->
  exists mem' ts', run sched mem (map (fun p => mk_thread (fst p) (snd p) PLoad) jobs) = Ret (mem', ts') /\
    (Forall (fun t => t_pc t = PDone) ts' ->
     (forall i v, In (i, v) jobs -> bit_of mem' i = v) /\
     (forall j, 0 <= j -> (forall v, ~ In (j, v) jobs) -> bit_of mem' j = bit_of mem j)).
Proof.
  intros B R D. set (ts := map _ jobs).
  assert (I : inv mem mem ts).
  { split; [reflexivity|]. split; [|split; [|reflexivity]].
    - apply Forall_forall. intros t Ht. unfold ts in Ht. apply in_map_iff in Ht.
      destruct Ht as ([i v] & <- & Hi). apply R in Hi. split; [|simpl; auto].
      unfold tbyte. simpl. split; [apply Z.div_pos; lia|apply Z.div_lt_upper_bound; lia].
    - intros a b t u Ha Hb N. unfold ts in Ha, Hb. rewrite nth_error_map in Ha, Hb.
      destruct (nth_error jobs a) as [[i v]|] eqn:Ea; [|discriminate].
      destruct (nth_error jobs b) as [[j w]|] eqn:Eb; [|discriminate].
      injection Ha as <-. injection Hb as <-. unfold tbyte. simpl. eapply D; eauto. }
  destruct (run_inv mem sched mem ts I) as (mem' & ts' & E & (L & F & D' & U) & J).
  exists mem', ts'. split; [assumption|]. intros Done.
  assert (K : forall i v, In (i, v) jobs ->
            nth (Z.to_nat (i / 8)) mem' 0 = new_byte v (nth (Z.to_nat (i / 8)) mem 0) (i mod 8)).
  { intros i v Hi. assert (In (mk_thread i v PLoad) ts).
    { unfold ts. apply in_map_iff. exists (i, v). auto. }
    clear - H J F Done.
    induction J as [|t t' l l' Jt J IH]; [destruct H|].
    inversion F; subst. inversion Done; subst. destruct H as [->|H]; [|apply IH; auto].
    destruct H2 as (_ & _ & P). cbv zeta in P. rewrite H4 in P. destruct Jt as [J1 J2]. simpl in J1, J2.
    unfold target, tbyte in P. rewrite J1, J2 in P. exact P. }
  split.
  - intros i v Hi. unfold bit_of. rewrite (K i v Hi). pose proof (Z.mod_pos_bound i 8 ltac:(lia)).
    rewrite new_byte_spec by lia. now rewrite Z.eqb_refl.
  - intros j Hj Nj. unfold bit_of.
    destruct (in_dec Z.eq_dec (j / 8) (map (fun p => fst p / 8) jobs)) as [Y|Y].
    + apply in_map_iff in Y. destruct Y as ([i v] & Ei & Hi). simpl in Ei.
      rewrite <- Ei, (K i v Hi). pose proof (Z.mod_pos_bound i 8 ltac:(lia)).
      rewrite new_byte_spec by (try lia; apply Z.mod_pos_bound; lia).
      destruct (Z.eqb_spec (j mod 8) (i mod 8)) as [E2|E2]; [|reflexivity].
      exfalso. apply (Nj v). rewrite (div_mod_eq j i); auto.
    + rewrite U; auto. intros t Ht Et.
      assert (exists i v, In (i, v) jobs /\ t_idx t = i).
      { clear - J Ht. assert (forall x, In x ts -> exists i v, In (i, v) jobs /\ t_idx x = i).
        { intros x Hx. unfold ts in Hx. apply in_map_iff in Hx. destruct Hx as ([i v] & <- & Hi). exists i, v. auto. }
        clearbody ts. induction J as [|a b l l' Jab J IH]; [destruct Ht|].
        destruct Ht as [->|Ht]; [|apply IH; auto with datatypes].
        destruct (H a ltac:(auto with datatypes)) as (i & v & Hi & <-). destruct Jab as [-> _]. eauto. }
      destruct H as (i & v & Hi & Ti). apply Y. apply in_map_iff. exists (i, v). split; auto.
      simpl. apply R in Hi. unfold tbyte in Et. rewrite Ti in Et.
      assert (0 <= i / 8) by (apply Z.div_pos; lia). assert (0 <= j / 8) by (apply Z.div_pos; lia). lia.
Qed.

Lemma lost_update : exists mem sched mem' ts',
  byte_buffer mem /\ bit_of mem 0 = false /\ bit_of mem 1 = false /\
  run sched mem [mk_thread 0 true PLoad; mk_thread 1 true PLoad] = Ret (mem', ts') /\
  Forall (fun t => t_pc t = PDone) ts' /\ bit_of mem' 0 = false /\ bit_of mem' 1 = true.
Proof.
  exists [128], [0;0;1;1;1;0]%nat, [130], [mk_thread 0 true PDone; mk_thread 1 true PDone].
  repeat split; try (repeat constructor; fail). repeat constructor; lia.
Qed.

(** ** Slice *)
Lemma slice_ok v pos len : 0 <= pos -> 0 <= len -> 0 <= size_ v < 2 ^ 30 ->
  size_ v <= capacity_ v < 2 ^ 30 -> pos + len < 2 ^ 32 ->
  Slice false v pos len =
    if pos + len <=? size_ v then Ret (mk_vec (data_ v + pos) len (capacity_ v - pos) (writable_ v)) else Err.
Proof.
  intros Hp Hl Hs Hc H. unfold Slice, Size. pows. rewrite wrapu_id by (unfold in_u; pows; lia).
  rewrite Z.leb_antisym. destruct (Z.ltb_spec (size_ v) (pos + len)); [reflexivity|].
  rewrite !wrapu_id by (unfold in_u; pows; lia). reflexivity.
Qed.
Lemma slice_bit_ok v pos len : 0 <= pos -> 0 <= len -> 0 <= size_ v < 2 ^ 30 ->
  size_ v <= capacity_ v < 2 ^ 30 -> pos + len < 2 ^ 32 ->
  Slice true v pos len =
    if (pos + len <=? size_ v) && (pos mod 8 =? 0)
    then Ret (mk_vec (data_ v + pos / 8) len (capacity_ v - pos) (writable_ v)) else Err.
Proof.
  intros Hp Hl Hs Hc H. unfold Slice, Size. pows. rewrite wrapu_id by (unfold in_u; pows; lia).
  rewrite Z.leb_antisym. destruct (Z.ltb_spec (size_ v) (pos + len)); [reflexivity|]. cbn [negb andb].
  rewrite !wrapu_id by (unfold in_u; pows; lia). reflexivity.
Qed.

Lemma load_window {A} (mem : list A) off n pos i : 0 <= off -> 0 <= pos -> 0 <= i < n ->
  load mem (off + pos + i) = load mem (off + (pos + i)).
Proof. intros. f_equal. lia. Qed.

(** ** Lanes of string comparisons *)
Definition views (ls : list (list Z)) (lv : list sv) : Prop :=
  Forall2 (fun s v => bytes s /\ short s /\ exists junk, of_string junk s = Ret v) ls lv.

Lemma views_length ls lv : views ls lv -> length lv = length ls.
Proof. induction 1; simpl; auto. Qed.

Lemma views_nth ls lv n : views ls lv -> (n < length ls)%nat ->
  bytes (nth n ls []) /\ short (nth n ls []) /\ exists j, nth_error lv n = Some (view j (nth n ls [])).
Proof.
  intros H. revert n. induction H as [|s v ls lv (B & S & j & E) H IH]; intros [|n] L; simpl in *; try lia.
  - rewrite of_string_view in E by auto using short_short32. injection E as <-. eauto.
  - apply IH. lia.
Qed.

Lemma compare_lanes_ok op n ls rs lv rv ret :
  byte_buffer ret -> Z.of_nat n <= 8 * Z.of_nat (length ret) ->
  (n <= length ls)%nat -> (n <= length rs)%nat ->
  views ls lv -> views rs rv ->
  exists ret', compare_lanes n op lv rv ret = Ret ret' /\
    byte_buffer ret' /\ length ret' = length ret /\
    (forall i, 0 <= i < Z.of_nat n ->
       bit_of ret' i = op_holds op (lex (nth (Z.to_nat i) ls []) (nth (Z.to_nat i) rs []))) /\
    (forall i, Z.of_nat n <= i -> bit_of ret' i = bit_of ret i).
Proof.
  intros B L Hl Hr Vl Vr. induction n as [|n IH].
  - exists ret. split; [reflexivity|]. repeat split; auto. intros; lia.
  - destruct IH as (r1 & E & B1 & L1 & I1 & O1); try lia.
    cbn [compare_lanes]. rewrite E. cbn [obind].
    destruct (views_nth ls lv n Vl ltac:(lia)) as (B2 & S2 & j2 & N2).
    destruct (views_nth rs rv n Vr ltac:(lia)) as (B3 & S3 & j3 & N3).
    assert (Ll : load lv (Z.of_nat n) = Ret (view j2 (nth n ls []))).
    { unfold load. rewrite (proj2 (Z.ltb_ge _ _)) by lia. now rewrite Nat2Z.id, N2. }
    assert (Lr : load rv (Z.of_nat n) = Ret (view j3 (nth n rs []))).
    { unfold load. rewrite (proj2 (Z.ltb_ge _ _)) by lia. now rewrite Nat2Z.id, N3. }
    rewrite Ll, Lr. cbn [obind].
    rewrite compare_string_view_spec by assumption. cbn [obind].
    assert (I : 0 <= Z.of_nat n / 8 < Z.of_nat (length r1)).
    { split; [apply Z.div_pos; lia|apply Z.div_lt_upper_bound; lia]. }
    rewrite (load_ret _ _ 0) by exact I. cbn [obind]. rewrite store_ret by exact I.
    set (v := op_holds _ _). set (b := nth (Z.to_nat (Z.of_nat n / 8)) r1 0).
    change (if v then bit_set b (Z.of_nat n mod 8) else bit_clear b (Z.of_nat n mod 8)) with (new_byte v b (Z.of_nat n mod 8)).
    pose proof (Z.mod_pos_bound (Z.of_nat n) 8 ltac:(lia)) as M.
    assert (T : forall i, 0 <= i -> bit_of (upd r1 (Z.to_nat (Z.of_nat n / 8)) (new_byte v b (Z.of_nat n mod 8))) i
                = if i =? Z.of_nat n then v else bit_of r1 i).
    { intros i Hi. pose proof (Z.mod_pos_bound i 8 ltac:(lia)). rewrite bit_of_upd by lia.
      destruct (Z.eqb_spec (i / 8) (Z.of_nat n / 8)) as [Ei|Ei].
      - rewrite new_byte_spec by lia. destruct (Z.eqb_spec (i mod 8) (Z.of_nat n mod 8)) as [Em|Em].
        + rewrite (proj2 (Z.eqb_eq _ _)); auto. apply div_mod_eq; auto.
        + rewrite (proj2 (Z.eqb_neq _ _)) by congruence. unfold bit_of. now rewrite Ei.
      - rewrite (proj2 (Z.eqb_neq _ _)) by congruence. reflexivity. }
    eexists; split; [reflexivity|]. split; [apply upd_bytes; auto using new_byte_range|].
    split; [now rewrite upd_length|]. split.
    + intros i Hi. rewrite T by lia. destruct (Z.eqb_spec i (Z.of_nat n)) as [->|N].
      * unfold v. now rewrite Nat2Z.id.
      * apply I1. lia.
    + intros i Hi. rewrite T by lia. rewrite (proj2 (Z.eqb_neq _ _)) by lia. apply O1. lia.
Qed.

(** ** Nested vectors *)
Lemma subspan_ret {A} (l : list A) pos len : 0 <= pos -> 0 <= len -> pos + len <= Z.of_nat (length l) ->
  subspan l pos len = Ret (window l pos len).
Proof.
  intros. unfold subspan, window. rewrite (proj2 (Z.ltb_ge _ _)) by lia. rewrite Z.min_r by lia. reflexivity.
Qed.

Definition jagged_of {A} (xs : list (list A)) : jagged A := fold_left jagged_add xs jagged_empty.

Lemma jagged_of_app {A} (xs : list (list A)) x : jagged_of (xs ++ [x]) = jagged_add (jagged_of xs) x.
Proof. unfold jagged_of. now rewrite fold_left_app. Qed.

Lemma jagged_content {A} (xs : list (list A)) : content_ (jagged_of xs) = concat xs.
Proof.
  induction xs as [|x xs IH] using rev_ind; [reflexivity|].
  rewrite jagged_of_app, concat_app. simpl. rewrite IH, app_nil_r. reflexivity.
Qed.
Lemma jagged_offsets {A} (xs : list (list A)) : Z.of_nat (length (concat xs)) < 2 ^ 32 ->
  length (offsets_ (jagged_of xs)) = length xs /\
  forall i, (i < length xs)%nat ->
    nth_error (offsets_ (jagged_of xs)) i = Some (Z.of_nat (length (concat (firstn i xs)))).
Proof.
  induction xs as [|x xs IH] using rev_ind; intros H.
  - split; [reflexivity|]. simpl. lia.
  - rewrite concat_app, app_length in H. destruct IH as [L I]; [lia|].
    rewrite jagged_of_app. simpl offsets_. rewrite !app_length, L. split; [reflexivity|].
    intros i Hi. rewrite jagged_content. rewrite wrapu_id by (unfold in_u; lia).
    destruct (Nat.lt_ge_cases i (length xs)) as [C|C].
    + rewrite nth_error_app1 by lia. rewrite I by assumption.
      rewrite firstn_app. replace (i - length xs)%nat with 0%nat by lia. now rewrite firstn_O, app_nil_r.
    + simpl in Hi. assert (i = length xs) by lia. subst.
      rewrite nth_error_app2 by lia. rewrite L, Nat.sub_diag. simpl.
      rewrite firstn_app, firstn_all, Nat.sub_diag, firstn_O, app_nil_r. reflexivity.
Qed.

Lemma firstn_skipn_concat {A} (xs : list (list A)) i x : nth_error xs i = Some x ->
  firstn (length x) (skipn (length (concat (firstn i xs))) (concat xs)) = x /\
  (length (concat (firstn i xs)) + length x <= length (concat xs))%nat /\
  length (concat (firstn (S i) xs)) = (length (concat (firstn i xs)) + length x)%nat.
Proof.
  revert i. induction xs as [|y xs IH]; intros [|i] H; try discriminate; simpl in H.
  - injection H as ->. simpl. rewrite firstn_app, firstn_all, Nat.sub_diag, firstn_O, !app_nil_r, app_length.
    repeat split; lia.
  - destruct (IH i H) as (E & L & S). cbn [firstn concat]. rewrite !app_length.
    rewrite skipn_app, skipn_all2 by lia. rewrite Nat.add_comm, Nat.add_sub. simpl app. rewrite E.
    repeat split; try lia. cbn [firstn concat] in S. destruct xs; [destruct i; discriminate|].
    cbn [firstn concat] in *. rewrite app_length in *. lia.
Qed.

Lemma jagged_get_prev {A} (xs : list (list A)) i : Z.of_nat (length (concat xs)) < 2 ^ 32 ->
  (i < length xs)%nat ->
  jagged_get (jagged_of xs) (Z.of_nat i) = Ret (match i with O => [] | S k => nth k xs [] end).
Proof.
  intros H Hi. destruct (jagged_offsets xs H) as [L O]. unfold jagged_get, jagged_length, jagged_offset.
  assert (LD : forall k, (k < length xs)%nat -> load (offsets_ (jagged_of xs)) (Z.of_nat k) =
            Ret (Z.of_nat (length (concat (firstn k xs))))).
  { intros k Hk. unfold load. rewrite (proj2 (Z.ltb_ge _ _)) by lia. rewrite Nat2Z.id, O by assumption. reflexivity. }
  destruct i as [|k].
  - change (Z.of_nat 0 =? 0) with true. cbv iota. cbn [obind]. rewrite LD by assumption.
    cbn [obind firstn concat length]. change (wrapu 64 (Z.of_nat 0 - 0)) with 0. rewrite subspan_ret by lia. reflexivity.
  - rewrite (proj2 (Z.eqb_neq _ _)) by lia.
    replace (Z.of_nat (S k) - 1) with (Z.of_nat k) by lia. rewrite !LD by lia. cbn [obind].
    destruct (nth_error xs k) as [x|] eqn:E; [|apply nth_error_None in E; lia].
    destruct (firstn_skipn_concat xs k x E) as (E1 & E2 & E3). rewrite E3.
    rewrite jagged_content.
    replace (Z.of_nat (length (concat (firstn k xs)) + length x) - Z.of_nat (length (concat (firstn k xs)))) with (Z.of_nat (length x)) by lia.
    rewrite wrapu_id by (unfold in_u; pows; lia).
    rewrite subspan_ret by lia. unfold window. rewrite !Nat2Z.id, E1. f_equal. symmetry.
    apply nth_error_nth. assumption.
Qed.

Definition fixed_of {A} (k : Z) (xs : list (list A)) : fixedv A :=
  fold_left (fun f x => snd (fixed_add f x)) xs (mk_fixed k []).
Definition accepted {A} (k : Z) (xs : list (list A)) : list (list A) :=
  filter (fun x => Z.of_nat (length x) =? k) xs.

Lemma fixed_content {A} k (xs : list (list A)) :
  fixed_of k xs = mk_fixed k (concat (accepted k xs)).
Proof.
  unfold fixed_of. enough (forall c, fold_left (fun f x => snd (fixed_add f x)) xs (mk_fixed k c) = mk_fixed k (c ++ concat (accepted k xs))) by apply H.
  induction xs as [|x xs IH]; intros c; simpl.
  - now rewrite app_nil_r.
  - unfold fixed_add at 2. simpl. destruct (Z.of_nat (length x) =? k); simpl; rewrite IH; auto.
    now rewrite app_assoc.
Qed.

Lemma fixed_add_reports {A} k (xs : list (list A)) x :
  fst (fixed_add (fold_left (fun f x => snd (fixed_add f x)) xs (mk_fixed k [])) x) = true <-> Z.of_nat (length x) = k.
Proof.
  fold (fixed_of k xs). rewrite fixed_content. unfold fixed_add. cbn [f_size]. rewrite <- Z.eqb_eq. destruct (Z.of_nat (length x) =? k); cbn; intuition discriminate.
Qed.

Lemma concat_fixed {A} k (xs : list (list A)) : Forall (fun x => length x = k) xs -> length (concat xs) = (k * length xs)%nat.
Proof. induction 1; simpl; [lia|]. rewrite app_length. lia. Qed.

Lemma fixed_get_ok {A} k (xs : list (list A)) i : 0 < k ->
  Z.of_nat (length (concat (accepted k xs))) < 2 ^ 64 ->
  (i < length (accepted k xs))%nat ->
  fixed_get (fixed_of k xs) (Z.of_nat i) = Ret (nth i (accepted k xs) []) /\
  fixed_count (fixed_of k xs) = Ret (Z.of_nat (length (accepted k xs))).
Proof.
  intros K H Hi. rewrite fixed_content. unfold fixed_get, fixed_count. cbn [f_content f_size].
  set (ys := accepted k xs) in *.
  assert (F : Forall (fun x => length x = Z.to_nat k) ys).
  { unfold ys, accepted. apply Forall_forall. intros x Hx. apply filter_In in Hx. destruct Hx as [_ Hx].
    apply Z.eqb_eq in Hx. lia. }
  pose proof (concat_fixed _ _ F) as C. split.
  - destruct (nth_error ys i) as [x|] eqn:E; [|apply nth_error_None in E; lia].
    destruct (firstn_skipn_concat ys i x E) as (E1 & E2 & E3).
    assert (Lx : length x = Z.to_nat k) by (eapply (proj1 (Forall_forall _ _) F), nth_error_In; eauto).
    assert (P : length (concat (firstn i ys)) = (Z.to_nat k * i)%nat).
    { rewrite (concat_fixed (Z.to_nat k)); [rewrite firstn_length, Nat.min_l by lia; reflexivity|].
      apply Forall_forall. intros y Hy. eapply (proj1 (Forall_forall _ _) F). rewrite <- (firstn_skipn i ys). apply in_or_app. now left. }
    assert (W : in_u 64 (Z.of_nat i * k)) by (unfold in_u; split; [nia|]; eapply Z.le_lt_trans; [|exact H]; rewrite C; nia).
    assert (W2 : wrapu 64 (Z.of_nat i * k) = Z.of_nat (length (concat (firstn i ys)))).
    { rewrite P, wrapu_id by exact W. nia. }
    rewrite W2. replace k with (Z.of_nat (length x)) at 1 by lia. rewrite subspan_ret by lia.
    unfold window. rewrite !Nat2Z.id, E1. f_equal. symmetry. apply nth_error_nth. assumption.
  - rewrite (proj2 (Z.eqb_neq _ _)) by lia. f_equal. rewrite C.
    replace (Z.of_nat (Z.to_nat k * length ys)) with (Z.of_nat (length ys) * k) by lia.
    apply Z.div_mul. lia.
Qed.

(** ** Statements used by the properties *)
Lemma make_vec_ok data n cap ro : 0 <= n < 2 ^ 30 -> Size (make_vec data n cap ro) = n.
Proof. intros. unfold Size, make_vec. cbn [size_]. apply wrapu_id. exact H. Qed.

Lemma make_vec_wraps data n cap ro : n mod 2 ^ 30 <> n -> Size (make_vec data n cap ro) <> n.
Proof. intros. exact H. Qed.

Lemma slice_elems {A} (mem : list A) v pos len : 0 <= data_ v ->
  data_ v + size_ v <= Z.of_nat (length mem) ->
  0 <= pos -> 0 <= len -> 0 <= size_ v < 2 ^ 30 -> size_ v <= capacity_ v < 2 ^ 30 -> pos + len < 2 ^ 32 ->
  (pos + len <= size_ v ->
     exists w, Slice false v pos len = Ret w /\ Size w = len /\ Size w <= capacity_ w /\
       forall i d, 0 <= i < len -> elem_get mem w i = Ret (nth (Z.to_nat (data_ v + (pos + i))) mem d)) /\
  (size_ v < pos + len -> Slice false v pos len = Err).
Proof.
  intros D F Hp Hl Hs Hc H. rewrite slice_ok by assumption. split.
  - intros L. rewrite (proj2 (Z.leb_le _ _)) by assumption. eexists; split; [reflexivity|].
    unfold Size. cbn [size_ capacity_ data_]. split; [reflexivity|]. split; [lia|]. intros i d Hi.
    unfold elem_get. cbn [data_]. rewrite (load_ret _ _ d) by lia. do 3 f_equal. lia.
  - intros L. rewrite (proj2 (Z.leb_gt _ _)) by assumption. reflexivity.
Qed.

Lemma slice_bits mem v pos len : bits_fit mem v ->
  0 <= pos -> 0 <= len -> 0 <= size_ v < 2 ^ 30 -> size_ v <= capacity_ v < 2 ^ 30 -> pos + len < 2 ^ 32 ->
  (pos + len <= size_ v -> pos mod 8 = 0 ->
     exists w, Slice true v pos len = Ret w /\ Size w = len /\ Size w <= capacity_ w /\
       forall i, 0 <= i < len -> bit_get mem w i = bit_get mem v (pos + i)) /\
  (size_ v < pos + len \/ pos mod 8 <> 0 -> Slice true v pos len = Err).
Proof.
  intros F Hp Hl Hs Hc H. rewrite slice_bit_ok by assumption. split.
  - intros L M. rewrite (proj2 (Z.leb_le _ _)), (proj2 (Z.eqb_eq _ _)) by assumption. cbn [andb].
    eexists; split; [reflexivity|]. unfold Size. cbn [size_ capacity_ data_]. split; [reflexivity|]. split; [lia|].
    intros i Hi. unfold bit_get. cbn [data_].
    assert (E : pos = 8 * (pos / 8)) by (rewrite (Z.div_mod pos 8) at 1 by lia; lia).
    replace (pos + i) with (8 * (pos / 8) + i) by lia. rewrite global_div, global_mod. now rewrite Z.add_assoc.
  - intros [L|L].
    + rewrite (proj2 (Z.leb_gt _ _)) by assumption. reflexivity.
    + rewrite (proj2 (Z.eqb_neq _ _)) by assumption. now rewrite andb_false_r.
Qed.

Lemma slice_wraps {A} (mem : list A) v : 0 <= size_ v < 2 ^ 30 -> 0 <= data_ v ->
  Z.of_nat (length mem) < 2 ^ 32 ->
  exists pos w, size_ v < pos < 2 ^ 32 /\ Slice false v pos 1 = Ret w /\ Size w = 1 /\ elem_get mem w 0 = UB.
Proof.
  intros Hs Hd Hm. exists (2 ^ 32 - 1). eexists. split; [pows; lia|]. split.
  - unfold Slice, Size. change (wrapu 32 (2 ^ 32 - 1 + 1)) with 0.
    rewrite (proj2 (Z.ltb_ge _ _)) by lia. reflexivity.
  - split; [reflexivity|]. unfold elem_get. cbn [data_]. unfold load. rewrite (proj2 (Z.ltb_ge _ _)) by lia.
    destruct (nth_error mem _) eqn:E; [|reflexivity].
    assert (Z.to_nat (data_ v + (2 ^ 32 - 1) + 0) < length mem)%nat by (apply nth_error_Some; congruence). lia.
Qed.

Lemma resize_wraps b v : 0 <= size_ v ->
  exists w, Resize b v (2 ^ 32) = Ret w /\ Size w = 0.
Proof.
  intros H. unfold Resize. change (wrapu 32 (2 ^ 32)) with 0. unfold Slice, Size.
  change (wrapu 32 (0 + 0)) with 0. rewrite (proj2 (Z.ltb_ge _ _)) by lia.
  destruct b; eexists; split; reflexivity.
Qed.

Lemma size_by_bytes v : 0 <= size_ v -> 
  8 * (SizeByBytes true 1 v - 1) < size_ v <= 8 * SizeByBytes true 1 v \/ (size_ v = 0 /\ SizeByBytes true 1 v = 0).
Proof.
  intros H. unfold SizeByBytes, Size. pose proof (Z.div_mod (size_ v) 8 ltac:(lia)).
  pose proof (Z.mod_pos_bound (size_ v) 8 ltac:(lia)).
  destruct (Z.eqb_spec (size_ v mod 8) 0); cbn [negb]; lia.
Qed.
