From Coq Require Import List ZArith Bool Lia.
Import ListNotations.
From Verif Require Import Base Vector_Spec Vector_Model Vector_Proofs ColMem_Model ColMem_Spec.
Local Open Scope Z_scope.

(** ** One element *)
Definition read (k : kind) (mem : list Z) (i : Z) : outcome cell :=
  match k with
  | KBit => do! x <- bit_get mem (mk_vec 0 0 0 false) i; Ret (CBit x)
  | KBytes w =>
      let off := Z.of_nat w * i in
      if (off <? 0) || (Z.of_nat (length mem) <? off + Z.of_nat w) then UB
      else Ret (CBytes (firstn w (skipn (Z.to_nat off) mem)))
  end.
Lemma get_read k h v b mem i : v_data v = Some b -> alive h b = Ret mem -> get k h v i = read k mem i.
Proof. intros D A. unfold get, read. rewrite D, A. cbn [obind]. destruct k; reflexivity. Qed.

Lemma window_step {A} w o (a : list A) : firstn (S w) (skipn o a) = match nth_error a o with Some x => x :: firstn w (skipn (S o) a) | None => [] end.
Proof.
  revert a. induction o as [|o IH]; intros [|x a]; try reflexivity. change (skipn (S o) (x :: a)) with (skipn o a). rewrite IH. reflexivity.
Qed.
Lemma window_ext {A} w : forall o (a b : list A), (forall n, (o <= n < o + w)%nat -> nth_error a n = nth_error b n) -> firstn w (skipn o a) = firstn w (skipn o b).
Proof.
  induction w as [|w IH]; intros o a b H; [reflexivity|]. rewrite !window_step, (H o) by lia.
  destruct (nth_error b o); [|reflexivity]. f_equal. apply IH. intros n N. apply H. lia.
Qed.
Lemma nth_blit {A} (mem l : list A) off n : (off + length l <= length mem)%nat ->
  nth_error (firstn off mem ++ l ++ skipn (off + length l) mem) n =
  if (off <=? n)%nat && (n <? off + length l)%nat then nth_error l (n - off) else nth_error mem n.
Proof.
  intros L. assert (F : length (firstn off mem) = off) by (rewrite firstn_length; lia).
  destruct (Nat.leb_spec off n); destruct (Nat.ltb_spec n (off + length l)); cbn [andb].
  - rewrite nth_error_app2 by lia. rewrite F, nth_error_app1 by lia. reflexivity.
  - rewrite nth_error_app2 by lia. rewrite F, nth_error_app2 by lia. rewrite <- (firstn_skipn (off + length l) mem) at 2.
    rewrite (nth_error_app2 (firstn _ _)) by (rewrite firstn_length; lia). f_equal. rewrite firstn_length. lia.
  - rewrite nth_error_app1 by lia. rewrite <- (firstn_skipn off mem) at 2. now rewrite nth_error_app1 by lia.
  - rewrite nth_error_app1 by lia. rewrite <- (firstn_skipn off mem) at 2. now rewrite nth_error_app1 by lia.
Qed.
Lemma blit_length {A} (mem l : list A) off : (off + length l <= length mem)%nat -> length (firstn off mem ++ l ++ skipn (off + length l) mem) = length mem.
Proof. intros. rewrite !app_length, firstn_length, skipn_length. lia. Qed.

Lemma read_bit mem i : byte_buffer mem -> 0 <= i < 8 * Z.of_nat (length mem) -> read KBit mem i = Ret (CBit (bit_of mem i)).
Proof.
  intros B H. unfold read. change (bit_get mem (mk_vec 0 0 0 false) i) with (bit_get mem (mk_vec 0 (8 * Z.of_nat (length mem)) 0 false) i).
  rewrite bit_get_ok; [reflexivity|split; [exact B|cbn; lia]|exact H].
Qed.
Lemma read_bit_out mem i : 8 * Z.of_nat (length mem) <= i -> read KBit mem i = UB.
Proof.
  intros H. unfold read, bit_get, load. cbn [data_]. assert (Z.of_nat (length mem) <= i / 8) by (apply Z.div_le_lower_bound; lia).
  rewrite (proj2 (Z.ltb_ge _ _)) by lia. rewrite (proj2 (nth_error_None _ _)) by lia. reflexivity.
Qed.

Lemma parts {A} (P : A -> Prop) n l : Forall P l -> Forall P (firstn n l) /\ Forall P (skipn n l).
Proof. intros H. rewrite <- (firstn_skipn n l) in H. now apply Forall_app in H. Qed.
Lemma put_ok k mem i x : byte_buffer mem -> typed k x -> 0 <= i -> bits_for k (i + 1) <= 8 * Z.of_nat (length mem) ->
  exists mem', put k mem i x = Ret mem' /\ length mem' = length mem /\ byte_buffer mem' /\ read k mem' i = Ret x /\
    forall j, 0 <= j -> j <> i -> read k mem' j = read k mem j.
Proof.
  intros B T I R. destruct k as [|w], x as [v|l]; try (destruct T; fail); cbn [bits_for] in R.
  - assert (D : 0 <= i / 8 < Z.of_nat (length mem)) by (split; [apply Z.div_pos; lia|apply Z.div_lt_upper_bound; lia]).
    cbn [put]. unfold bits_set. rewrite (load_ret _ _ 0) by lia. cbn [obind]. rewrite store_ret by lia. eexists. split; [reflexivity|].
    set (y := new_byte _ _ _). assert (Y : 0 <= y < 256) by apply new_byte_range. pose proof (Z.mod_pos_bound i 8 ltac:(lia)) as Mi.
    assert (B' : byte_buffer (upd mem (Z.to_nat (i / 8)) y)) by now apply upd_bytes.
    split; [apply upd_length|]. split; [exact B'|]. split.
    + rewrite read_bit by (auto; rewrite upd_length; lia). rewrite bit_of_upd, Z.eqb_refl by lia. unfold y. rewrite new_byte_spec, Z.eqb_refl by lia. reflexivity.
    + intros j J N. pose proof (Z.mod_pos_bound j 8 ltac:(lia)) as Mj. destruct (Z.lt_ge_cases j (8 * Z.of_nat (length mem))) as [L|L].
      * rewrite !read_bit by (auto; rewrite ?upd_length; lia). rewrite bit_of_upd by lia. do 2 f_equal.
        destruct (Z.eqb_spec (j / 8) (i / 8)) as [E|E]; [|reflexivity]. unfold y. rewrite new_byte_spec by lia.
        rewrite (proj2 (Z.eqb_neq _ _)) by (intros Q; apply N; now apply div_mod_eq). unfold bit_of. now rewrite E.
      * rewrite !read_bit_out by (rewrite ?upd_length; lia). reflexivity.
  - destruct T as (W & Bl & _). cbn [put]. unfold blit. subst w.
    assert (O : 0 <= Z.of_nat (length l) * i) by (apply Z.mul_nonneg_nonneg; lia).
    assert (R' : Z.of_nat (length l) * i + Z.of_nat (length l) <= Z.of_nat (length mem)) by lia.
    rewrite (proj2 (Z.ltb_ge _ _)), (proj2 (Z.ltb_ge _ _)) by lia. cbn [orb]. eexists. split; [reflexivity|].
    set (off := Z.to_nat _). assert (Off : (off + length l <= length mem)%nat) by lia.
    split; [now apply blit_length|]. split.
    { unfold byte_buffer in *. rewrite !Forall_app. repeat split; auto; [eapply parts|eapply parts]; eassumption. }
    split.
    + unfold read. rewrite blit_length by assumption. rewrite (proj2 (Z.ltb_ge _ _)), (proj2 (Z.ltb_ge _ _)) by lia. cbn [orb]. do 2 f_equal.
      fold off. assert (FL : length (firstn off mem) = off) by (rewrite firstn_length; lia).
      rewrite skipn_app, FL, Nat.sub_diag. rewrite (skipn_all2 (firstn off mem)) by lia. cbn [app skipn].
      rewrite firstn_app, Nat.sub_diag, firstn_all. cbn [firstn]. apply app_nil_r.
    + intros j J N. unfold read. rewrite blit_length by assumption. destruct ((_ <? 0) || _) eqn:E; [reflexivity|]. apply orb_false_iff in E. destruct E as [E1 E2].
      apply Z.ltb_ge in E1, E2. do 2 f_equal. apply window_ext. intros n Hn. rewrite nth_blit by assumption.
      destruct (Nat.leb_spec off n); destruct (Nat.ltb_spec n (off + length l)); cbn [andb]; try reflexivity. exfalso.
      assert (j <= i - 1 \/ i + 1 <= j) as [Q|Q] by lia.
      * assert (Z.of_nat (length l) * j <= Z.of_nat (length l) * (i - 1)) by (apply Z.mul_le_mono_nonneg_l; lia). lia.
      * assert (Z.of_nat (length l) * (i + 1) <= Z.of_nat (length l) * j) by (apply Z.mul_le_mono_nonneg_l; lia). lia.
Qed.

Lemma bits_for_mono k a b : a <= b -> bits_for k a <= bits_for k b.
Proof. intros. destruct k; cbn [bits_for]; [lia|]. assert (Z.of_nat w * a <= Z.of_nat w * b) by (apply Z.mul_le_mono_nonneg_l; lia). lia. Qed.

(** ** All elements *)
Lemma fill_ok k : forall l mem i, byte_buffer mem -> Forall (typed k) l -> 0 <= i -> bits_for k (i + Z.of_nat (length l)) <= 8 * Z.of_nat (length mem) ->
  exists mem', fill k mem i l = Ret mem' /\ length mem' = length mem /\ byte_buffer mem' /\
    (forall n x, nth_error l n = Some x -> read k mem' (i + Z.of_nat n) = Ret x) /\
    forall j, 0 <= j -> (j < i \/ i + Z.of_nat (length l) <= j) -> read k mem' j = read k mem j.
Proof.
  induction l as [|x l IH]; intros mem i B T I R.
  - exists mem. split; [reflexivity|]. split; [reflexivity|]. split; [assumption|]. split; [|auto]. intros [|n] x H; discriminate.
  - inversion_clear T as [|? ? T1 T2]. cbn [length] in R. destruct (put_ok k mem i x B T1 I) as (m1 & P & L & B1 & Rx & Ro).
    { eapply Z.le_trans; [apply bits_for_mono|exact R]. lia. }
    destruct (IH m1 (i + 1) B1 T2) as (m2 & F & L2 & B2 & Rl & Rr); [lia|now rewrite L; replace (i + 1 + Z.of_nat (length l)) with (i + Z.of_nat (S (length l))) by lia|].
    exists m2. cbn [fill]. rewrite P. cbn [obind]. split; [exact F|]. split; [congruence|]. split; [assumption|]. split.
    + intros [|n] y H; cbn [nth_error] in H.
      * injection H as <-. rewrite Z.add_0_r, Rr by lia. exact Rx.
      * replace (i + Z.of_nat (S n)) with (i + 1 + Z.of_nat n) by lia. now apply Rl.
    + intros j J H. cbn [length] in H. rewrite Rr by lia. apply Ro; lia.
Qed.

(** ** Bytes *)
Lemma bytes_n_bit n : 0 <= n < 2 ^ 30 -> bytes_n KBit n = (n + 7) / 8.
Proof.
  intros N. unfold bytes_n, wrapu. pose proof (Z.div_mod n 8 ltac:(lia)) as E. pose proof (Z.mod_pos_bound n 8 ltac:(lia)) as M.
  assert (0 <= n / 8 < 2 ^ 30) by lia. rewrite (Z.mod_small (n / 8)) by lia.
  destruct (Z.ltb_spec 0 (n mod 8)); [rewrite Z.mod_small by lia|]; (apply Z.div_unique with (r := n + 7 - 8 * (if 0 <? n mod 8 then n / 8 + 1 else n / 8)); destruct (Z.ltb_spec 0 (n mod 8)); lia).
Qed.
Lemma bytes_room k n : 0 <= n < 2 ^ 30 -> 0 <= bytes_n k n /\ bits_for k n <= 8 * bytes_n k n.
Proof.
  intros N. destruct k; [rewrite bytes_n_bit by assumption; cbn [bits_for]|cbn [bytes_n bits_for]; nia].
  pose proof (Z.div_mod (n + 7) 8 ltac:(lia)). pose proof (Z.mod_pos_bound (n + 7) 8 ltac:(lia)). lia.
Qed.
Lemma bytes_mono k m n : 0 <= m <= n -> n < 2 ^ 30 -> bytes_n k m <= bytes_n k n.
Proof.
  intros M N. destruct k; [rewrite !bytes_n_bit by lia; apply Z.div_le_mono; lia|cbn [bytes_n]; nia].
Qed.
Lemma size_bytes k v len : 0 <= v_size v < 2 ^ 30 -> bits_for k (v_size v) <= 8 * len -> 0 <= SizeByBytes k v <= len.
Proof.
  intros S R. destruct k; cbn [SizeByBytes bits_for] in *; [|nia].
  pose proof (Z.div_mod (v_size v) 8 ltac:(lia)). pose proof (Z.mod_pos_bound (v_size v) 8 ltac:(lia)). destruct (Z.eqb_spec (v_size v mod 8) 0); lia.
Qed.

(** ** Blocks *)
Definition inv (w : heap * column) : Prop :=
  let (h, c) := w in
  v_data (c_vec c) = c_memory c /\
  (forall b x, nth_error h b = Some x -> byte_buffer (b_bytes x)) /\
  (forall b x, nth_error h b = Some x -> b_new x = false -> b_freed x = false) /\
  (forall b x, nth_error h b = Some x -> b_new x = true -> b_freed x = false -> c_memory c = Some b /\ c_own c = true) /\
  match c_memory c with
  | None => c_size c = 0
  | Some b => exists mem, nth_error h b = Some (mk_block mem (c_own c) false) /\ 0 <= c_size c <= Z.of_nat (length mem)
  end.

Lemma inv_new : inv ([], new_column).
Proof. cbn. split; [reflexivity|]. split; [|split; [|split; [|reflexivity]]]; intros [|b] x H; discriminate. Qed.
Lemma nth_bound {A} (l : list A) b x : nth_error l b = Some x -> (b < length l)%nat.
Proof. intros H. apply nth_error_Some. congruence. Qed.

Lemma clear_ok h c : inv (h, c) -> exists h' c', Clear h c = Ret (h', c') /\ inv (h', c') /\ c_memory c' = None /\ length h' = length h /\
  (forall b x, nth_error h' b = Some x -> b_freed x = b_new x) /\
  (forall b x, nth_error h b = Some x -> exists y, nth_error h' b = Some y /\ b_new y = b_new x /\ b_bytes y = b_bytes x /\ (b_new x = false -> y = x)) /\
  forall b, c_memory c <> Some b -> nth_error h' b = nth_error h b.
Proof.
  intros (V & B & U & N & M). unfold Clear. destruct (c_own c) eqn:O.
  - destruct (c_memory c) as [b|] eqn:E; cbn [delete].
    + destruct M as (mem & Hb & S). rewrite Hb. cbn [b_new b_freed negb andb obind b_bytes]. pose proof (nth_bound _ _ _ Hb) as Lb.
      assert (X : forall b' x, nth_error (upd h b (mk_block mem true true)) b' = Some x -> (b' = b /\ x = mk_block mem true true) \/ (b' <> b /\ nth_error h b' = Some x)).
      { intros b' x H. rewrite nth_error_upd in H by assumption. destruct (Nat.eqb_spec b' b); [left; split; [assumption|congruence]|right; split; assumption]. }
      assert (F : forall b' x, nth_error (upd h b (mk_block mem true true)) b' = Some x -> b_freed x = b_new x).
      { intros b' x H. destruct (X _ _ H) as [[-> ->]|[D H']]; [reflexivity|]. destruct (b_new x) eqn:Q; [|now apply (U b')].
        destruct (b_freed x) eqn:Q2; [reflexivity|]. destruct (N _ _ H' Q Q2) as [R _]. congruence. }
      eexists _, _. split; [reflexivity|]. split.
      { cbn. split; [reflexivity|]. split; [|split; [|split; [|reflexivity]]].
        - intros b' x H. destruct (X _ _ H) as [[-> ->]|[D H']]; [exact (B _ _ Hb)|exact (B _ _ H')].
        - intros b' x H Q. rewrite (F _ _ H). exact Q.
        - intros b' x H Q Q2. rewrite (F _ _ H) in Q2. congruence. }
      split; [reflexivity|]. split; [apply upd_length|]. split; [exact F|]. split.
      * intros b' x H. rewrite nth_error_upd by assumption. destruct (Nat.eqb_spec b' b) as [->|D]; [|exists x; auto].
        rewrite Hb in H. injection H as <-. eexists. repeat split. discriminate.
      * intros b' D. rewrite nth_error_upd by assumption. rewrite (proj2 (Nat.eqb_neq _ _)) by congruence. reflexivity.
    + cbn [obind]. assert (F : forall b' x, nth_error h b' = Some x -> b_freed x = b_new x).
      { intros b' x H. destruct (b_new x) eqn:Q; [|now apply (U b')]. destruct (b_freed x) eqn:Q2; [reflexivity|]. destruct (N _ _ H Q Q2). congruence. }
      eexists _, _. split; [reflexivity|]. split; [cbn; split; [reflexivity|]; split; [exact B|]; split; [exact U|]; split; [|reflexivity]; intros b' x H Q Q2; rewrite (F _ _ H) in Q2; congruence|].
      split; [reflexivity|]. split; [reflexivity|]. split; [exact F|]. split; [intros b' x H; exists x; auto|reflexivity].
  - cbn [obind]. assert (F : forall b' x, nth_error h b' = Some x -> b_freed x = b_new x).
    { intros b' x H. destruct (b_new x) eqn:Q; [|now apply (U b')]. destruct (b_freed x) eqn:Q2; [reflexivity|]. destruct (N _ _ H Q Q2). congruence. }
    eexists _, _. split; [reflexivity|]. split; [cbn; split; [reflexivity|]; split; [exact B|]; split; [exact U|]; split; [|reflexivity]; intros b' x H Q Q2; rewrite (F _ _ H) in Q2; congruence|].
    split; [reflexivity|]. split; [reflexivity|]. split; [exact F|]. split; [intros b' x H; exists x; auto|reflexivity].
Qed.

Lemma alive_of h b mem own : nth_error h b = Some (mk_block mem own false) -> alive h b = Ret mem.
Proof. intros H. unfold alive. now rewrite H. Qed.

Section Columns.
Variable garbage : nat -> nat -> Z.
Variable k : kind.
Notation LoadColumn := (LoadColumn garbage k). Notation step := (step garbage k). Notation run := (run garbage k).

Lemma reserve_ok n h c : inv (h, c) -> 0 <= n < 2 ^ 30 -> exists h' c', ReserveMemory garbage k n h c = Ret (h', c') /\ inv (h', c') /\ bytes_n k n <= c_size c' /\
  (bytes_n k n <= c_size c -> h' = h /\ c' = c) /\
  (c_size c < bytes_n k n -> c_size c' = bytes_n k n /\ c_own c' = true /\ c_memory c' = Some (length h) /\ exists h1 c1 x, Clear h c = Ret (h1, c1) /\ h' = h1 ++ [x] /\ length h1 = length h).
Proof.
  intros I N. unfold ReserveMemory. destruct (bytes_room k n N) as [P _]. destruct (Z.ltb_spec (c_size c) (bytes_n k n)) as [L|L].
  - destruct (clear_ok h c I) as (h1 & c1 & E & I1 & M1 & L1 & F1 & _). rewrite E. cbn [obind]. eexists _, _. split; [reflexivity|].
    destruct I1 as (V & B & U & Q & _). split; [|cbn; split; [lia|]; split; [lia|]; intros _; split; [reflexivity|]; split; [reflexivity|]; split; [now rewrite L1|]; do 3 eexists; eauto].
    assert (X : forall b x y, nth_error (h1 ++ [y]) b = Some x -> nth_error h1 b = Some x \/ (b = length h1 /\ x = y)).
    { intros b x y H. destruct (Nat.lt_ge_cases b (length h1)) as [W|W]; [rewrite nth_error_app1 in H by assumption; now left|]. rewrite nth_error_app2 in H by assumption.
      destruct (b - length h1)%nat as [|m] eqn:D; [|destruct m; discriminate]. right. split; [lia|cbn in H; congruence]. }
    cbn. split; [reflexivity|]. split; [|split; [|split]].
    + intros b x H. destruct (X _ _ _ H) as [H'|[_ ->]]; [now apply (B b)|]. cbn. apply Forall_forall. intros z Hz. apply in_map_iff in Hz. destruct Hz as (i & <- & _). change 256 with (2 ^ 8). apply wrapu_range. lia.
    + intros b x H Z. destruct (X _ _ _ H) as [H'|[_ ->]]; [now apply (U b)|reflexivity].
    + intros b x H Z Z2. destruct (X _ _ _ H) as [H'|[-> ->]]; [rewrite (F1 _ _ H') in Z2; congruence|auto].
    + eexists. rewrite nth_error_app2, Nat.sub_diag by lia. cbn. split; [reflexivity|]. unfold uninitialised. rewrite map_length, seq_length. lia.
  - exists h, c. split; [reflexivity|]. split; [exact I|]. split; [exact L|]. split; [auto|lia].
Qed.

Definition written (l : list cell) (h : heap) (c : column) : outcome heap :=
  match c_memory c with
  | Some b =>
      match l with
      | [] => Ret h
      | _ => do! mem <- alive h b; do! mem' <- fill k mem 0 l;
             Ret (upd h b (mk_block mem' (match nth_error h b with Some x => b_new x | None => false end) false))
      end
  | None => match l with [] => Ret h | _ => UB end
  end.
Lemma load_is l h c : LoadColumn l h c =
  do! (h1, c1) <- ReserveMemory garbage k (Z.of_nat (length l)) h c; do! h2 <- written l h1 c1; Ret (h2, SetColumnSize (Z.of_nat (length l)) (c_memory c1) c1).
Proof. reflexivity. Qed.

Lemma written_ok l h c : inv (h, c) -> rows k l -> bytes_n k (Z.of_nat (length l)) <= c_size c ->
  let c' := SetColumnSize (Z.of_nat (length l)) (c_memory c) c in
  exists h', written l h c = Ret h' /\ inv (h', c') /\ holds k h' (c_vec c') l /\ length h' = length h /\
    (forall b, c_memory c <> Some b -> nth_error h' b = nth_error h b) /\
    forall b mem, c_memory c = Some b -> alive h b = Ret mem -> exists mem', alive h' b = Ret mem' /\ length mem' = length mem /\
      (forall n x, nth_error l n = Some x -> read k mem' (Z.of_nat n) = Ret x) /\ forall j, Z.of_nat (length l) <= j -> read k mem' j = read k mem j.
Proof.
  intros I [T S] R c'. destruct I as (V & B & U & N & M). destruct (bytes_room k (Z.of_nat (length l)) ltac:(lia)) as [P0 P1].
  assert (VS : v_data (c_vec c') = c_memory c /\ v_size (c_vec c') = Z.of_nat (length l) /\ c_memory c' = c_memory c /\ c_own c' = c_own c /\ c_size c' = c_size c).
  { unfold c', SetColumnSize. cbn. rewrite V. repeat split. destruct (c_memory c); rewrite ?Nat.eqb_refl; unfold wrapu; apply Z.mod_small; lia. }
  destruct VS as (V1 & V2 & V3 & V4 & V5). unfold written.
  destruct l as [|x0 l0] eqn:El.
  - exists h. split; [destruct (c_memory c); reflexivity|]. split; [clearbody c'; cbn; rewrite V1, V3, V4, V5; split; [reflexivity|]; split; [exact B|]; split; [exact U|]; split; [exact N|exact M]|].
    split; [split; [exact V2|intros [|i] x H; discriminate]|]. split; [reflexivity|]. split; [auto|]. intros b mem _ A. exists mem. split; [exact A|]. split; [reflexivity|]. split; [intros [|n] x H; discriminate|auto].
  - rewrite <- El in *. clearbody c'. destruct (c_memory c) as [b|] eqn:E.
    + destruct M as (mem & Hb & Z1 & Z2). pose proof (nth_bound _ _ _ Hb) as Lb. rewrite (alive_of _ _ _ _ Hb). cbn [obind].
      destruct (fill_ok k l mem 0 (B _ _ Hb) T) as (mem' & F & L & B' & G1 & G2); [lia|rewrite Z.add_0_l; cbn [b_bytes] in *; lia|].
      rewrite F, Hb. cbn [obind b_new].
      eexists. split; [reflexivity|].
      assert (X : forall b' x, nth_error (upd h b (mk_block mem' (c_own c) false)) b' = Some x -> (b' = b /\ x = mk_block mem' (c_own c) false) \/ (b' <> b /\ nth_error h b' = Some x)).
      { intros b' x H. rewrite nth_error_upd in H by assumption. destruct (Nat.eqb_spec b' b); [left; split; [assumption|congruence]|right; split; assumption]. }
      assert (Hb' : nth_error (upd h b (mk_block mem' (c_own c) false)) b = Some (mk_block mem' (c_own c) false)) by (rewrite nth_error_upd by assumption; now rewrite Nat.eqb_refl).
      split.
      { cbn. rewrite V1, V3, V4, V5. split; [reflexivity|]. split; [|split; [|split]].
        - intros b' x H. destruct (X _ _ H) as [[-> ->]|[_ H']]; [exact B'|exact (B _ _ H')].
        - intros b' x H Q. destruct (X _ _ H) as [[-> ->]|[_ H']]; [reflexivity|exact (U _ _ H' Q)].
        - intros b' x H Q Q2. destruct (X _ _ H) as [[-> ->]|[_ H']]; [cbn in Q; auto|exact (N _ _ H' Q Q2)].
        - exists mem'. split; [exact Hb'|lia]. }
      split; [split; [exact V2|]; intros i x H; rewrite (get_read k _ _ b mem') by (auto; eapply alive_of; eauto); now apply G1|].
      split; [apply upd_length|]. split.
      * intros b' D. rewrite nth_error_upd by assumption. rewrite (proj2 (Nat.eqb_neq _ _)) by congruence. reflexivity.
      * intros b' m Q A. injection Q as <-. rewrite (alive_of _ _ _ _ Hb) in A. injection A as <-. exists mem'. split; [eapply alive_of; eauto|]. split; [exact L|]. split; [intros n x H; now apply G1|]. intros j J. apply G2; lia.
    + exfalso. rewrite M in R. assert (0 < bytes_n k (Z.of_nat (length l))); [|lia]. rewrite El in T |- *. inversion_clear T as [|? ? T1 T2]. destruct k as [|w], x0; try (destruct T1; fail).
      * rewrite El in S. rewrite bytes_n_bit by lia. cbn [length]. apply Z.div_str_pos. lia.
      * destruct T1 as (_ & _ & W). cbn [bytes_n length]. nia.
Qed.

Lemma bytes_room_eq n : Z.of_nat n < 2 ^ 30 -> bytes_n k (Z.of_nat n) = room k n.
Proof.
  intros N. unfold room. destruct k as [|w]; [now rewrite bytes_n_bit by lia|]. cbn [bytes_n bits_for]. apply Z.div_unique with (r := 7); lia.
Qed.

Lemma load_ok l h c : inv (h, c) -> rows k l -> exists h' c', LoadColumn l h c = Ret (h', c') /\ inv (h', c') /\ holds k h' (c_vec c') l /\
  bytes_n k (Z.of_nat (length l)) <= c_size c' /\
  (forall b x, nth_error h b = Some x -> b_new x = false -> c_memory c <> Some b -> nth_error h' b = Some x) /\
  (bytes_n k (Z.of_nat (length l)) <= c_size c -> c_memory c' = c_memory c /\ c_own c' = c_own c /\ c_size c' = c_size c /\
     forall b mem, c_memory c = Some b -> alive h b = Ret mem -> exists mem', alive h' b = Ret mem' /\
      (forall n x, nth_error l n = Some x -> read k mem' (Z.of_nat n) = Ret x) /\ forall j, Z.of_nat (length l) <= j -> read k mem' j = read k mem j) /\
  (c_size c < bytes_n k (Z.of_nat (length l)) -> c_size c' = bytes_n k (Z.of_nat (length l)) /\ c_own c' = true /\
     forall b, c_memory c = Some b -> c_own c = true -> alive h' b = UB).
Proof.
  intros I R. assert (N : 0 <= Z.of_nat (length l) < 2 ^ 30) by (destruct R; lia). destruct (reserve_ok _ h c I N) as (h1 & c1 & E & I1 & S1 & Keep & Grow).
  destruct (written_ok l h1 c1 I1 R S1) as (h2 & W & I2 & H2 & L2 & O2 & M2). rewrite load_is, E. cbn [obind]. rewrite W. cbn [obind]. eexists _, _. split; [reflexivity|].
  split; [exact I2|]. split; [exact H2|]. split; [exact S1|]. split; [|split].
  - intros b x Hb U D. destruct (Z.le_gt_cases (bytes_n k (Z.of_nat (length l))) (c_size c)) as [Q|Q].
    + destruct (Keep Q) as [-> ->]. now rewrite O2.
    + destruct (Grow Q) as (_ & _ & M & h0 & c0 & x0 & C & -> & L0). pose proof (nth_bound _ _ _ Hb) as Lb. rewrite O2 by (rewrite M; intros X; injection X; lia).
      rewrite nth_error_app1 by lia. destruct (clear_ok h c I) as (h0' & c0' & C' & _ & _ & _ & _ & _ & Same). rewrite C in C'. injection C' as <- <-. now rewrite Same.
  - intros Q. destruct (Keep Q) as [-> ->]. split; [reflexivity|]. split; [reflexivity|]. split; [reflexivity|]. intros b mem Hm A. destruct (M2 b mem Hm A) as (mem' & A' & _ & X & Y). exists mem'. auto.
  - intros Q. destruct (Grow Q) as (S & Ow & M & h0 & c0 & x0 & C & -> & L0). split; [exact S|]. split; [exact Ow|]. intros b Hm Hown.
    destruct (clear_ok h c I) as (h0' & c0' & C' & _ & _ & _ & Fr & Fa & _). rewrite C in C'. injection C' as <- <-.
    destruct I as (_ & _ & _ & _ & Mm). rewrite Hm in Mm. destruct Mm as (mem & Hb & _). pose proof (nth_bound _ _ _ Hb) as Lb.
    destruct (Fa _ _ Hb) as (y & Hy & Ny & _). cbn [b_new] in Ny. unfold alive. rewrite O2 by (rewrite M; intros X; injection X; lia). rewrite nth_error_app1, Hy, (Fr _ _ Hy), Ny, Hown by lia. reflexivity.
Qed.

Definition fine (o : op) (w : heap * column) : Prop :=
  match o with Load x => rows k x | Sets v => in_user_memory k (fst w) v | UserMemory mem => Forall is_byte mem | _ => True end.
Lemma sets_ok v h c : inv (h, c) -> in_user_memory k h v -> exists h', step (Sets v) (h, c) = Ret (h', mk_column v (v_data v) (SizeByBytes k v) false) /\
  inv (h', mk_column v (v_data v) (SizeByBytes k v) false) /\ forall b x, nth_error h b = Some x -> b_new x = false -> nth_error h' b = Some x.
Proof.
  intros I (Sz & b & mem & D & Hb & R). cbn [ColMem_Model.step]. unfold SetData. destruct (clear_ok h c I) as (h1 & c1 & C & I1 & M1 & L1 & F1 & A1 & _). rewrite C. cbn [obind].
  assert (K : forall b x, nth_error h b = Some x -> b_new x = false -> nth_error h1 b = Some x) by (intros b' x Hx N; destruct (A1 _ _ Hx) as (y & Hy & _ & _ & Q); now rewrite <- (Q N)).
  exists h1. split; [reflexivity|]. split; [|exact K]. destruct I1 as (_ & B & U & _ & _). cbn. rewrite D. split; [reflexivity|]. split; [exact B|]. split; [exact U|]. split.
  - intros b' x Hx N F. rewrite (F1 _ _ Hx) in F. congruence.
  - exists mem. split; [now apply K|]. now apply size_bytes.
Qed.
Lemma step_ok o w : inv w -> fine o w -> exists w', step o w = Ret w' /\ inv w'.
Proof.
  destruct w as [h c]. intros I F. destruct o as [l| | |v|mem].
  - destruct (load_ok l h c I F) as (h' & c' & E & I' & _). exists (h', c'). auto.
  - eexists. split; [reflexivity|]. exact I.
  - destruct (clear_ok h c I) as (h' & c' & E & I' & _). exists (h', c'). auto.
  - destruct (sets_ok v h c I F) as (h' & E & I' & _). eauto.
  - eexists. split; [reflexivity|]. destruct I as (V & B & U & N & M).
    assert (X : forall b x, nth_error (h ++ [mk_block mem false false]) b = Some x -> nth_error h b = Some x \/ x = mk_block mem false false).
    { intros b x H. destruct (Nat.lt_ge_cases b (length h)) as [W|W]; [rewrite nth_error_app1 in H by assumption; now left|]. rewrite nth_error_app2 in H by assumption.
      destruct (b - length h)%nat as [|m]; [|destruct m; discriminate]. right. cbn in H. congruence. }
    cbn. split; [exact V|]. split; [|split; [|split]].
    + intros b x H. destruct (X _ _ H) as [H'| ->]; [exact (B _ _ H')|exact F].
    + intros b x H Q. destruct (X _ _ H) as [H'| ->]; [exact (U _ _ H' Q)|reflexivity].
    + intros b x H Q Q2. destruct (X _ _ H) as [H'| ->]; [exact (N _ _ H' Q Q2)|discriminate].
    + destruct (c_memory c) as [b|]; [|exact M]. destruct M as (m & Hb & S). exists m. split; [|exact S]. now rewrite nth_error_app1 by (eapply nth_bound; eauto).
Qed.
Lemma run_ok l : forall w, inv w -> careful garbage k l w -> exists w', run l w = Ret w' /\ inv w'.
Proof.
  induction l as [|o l IH]; intros w I C; [exists w; auto|]. destruct C as [F C]. destruct (step_ok o w I F) as (w' & E & I'). cbn [ColMem_Model.run]. rewrite E. cbn [obind]. apply IH; auto.
Qed.
Lemma run_app l1 : forall l2 w, run (l1 ++ l2) w = do! w' <- run l1 w; run l2 w'.
Proof. induction l1 as [|o l1 IH]; intros l2 w; [reflexivity|]. cbn [ColMem_Model.run app]. destruct (step o w); cbn [obind]; auto. Qed.

Notation new := ([], new_column).
Lemma run_inv l h c : careful garbage k l new -> run l new = Ret (h, c) -> inv (h, c).
Proof. intros C R. destruct (run_ok l _ inv_new C) as (w & R' & I). rewrite R in R'. now injection R' as <-. Qed.

Theorem history_defined l : careful garbage k l new -> exists h c, run l new = Ret (h, c).
Proof. intros C. destruct (run_ok l _ inv_new C) as ([h c] & R & _). eauto. Qed.
Theorem loaded l x h c : careful garbage k l new -> run l new = Ret (h, c) -> rows k x -> exists h' c', step (Load x) (h, c) = Ret (h', c') /\ holds k h' (c_vec c') x.
Proof. intros C R X. destruct (load_ok x h c (run_inv _ _ _ C R) X) as (h' & c' & E & _ & H & _). eauto. Qed.
Theorem load_elsewhere l x h c h' c' b y : careful garbage k l new -> run l new = Ret (h, c) -> rows k x -> step (Load x) (h, c) = Ret (h', c') ->
  nth_error h b = Some y -> b_new y = false -> v_data (c_vec c) <> Some b -> nth_error h' b = Some y.
Proof.
  intros C R X S Hb N D. pose proof (run_inv _ _ _ C R) as I. destruct (load_ok x h c I X) as (h1 & c1 & E & _ & _ & _ & K & _). cbn [ColMem_Model.step] in S. rewrite E in S. injection S as <- <-.
  apply K; auto. destruct I as (V & _). congruence.
Qed.
Theorem freed_once l h c : careful garbage k l new -> run l new = Ret (h, c) ->
  exists h', destroy (h, c) = Ret h' /\ length h' = length h /\ forall b x, nth_error h b = Some x -> exists y, nth_error h' b = Some y /\ b_new y = b_new x /\ b_freed y = b_new x /\ (b_new x = false -> y = x).
Proof.
  intros C R. destruct (clear_ok h c (run_inv _ _ _ C R)) as (h1 & c1 & E & _ & _ & L & F & A & _). unfold destroy. cbn [fst snd]. rewrite E. cbn [obind]. exists h1. split; [reflexivity|]. split; [exact L|].
  intros b x H. destruct (A _ _ H) as (y & Hy & N & _ & Q). exists y. rewrite (F _ _ Hy). auto.
Qed.
Theorem set_reads l v x h c : careful garbage k l new -> run l new = Ret (h, c) -> in_user_memory k h v -> holds k h v x ->
  exists h' c', step (Sets v) (h, c) = Ret (h', c') /\ c_vec c' = v /\ holds k h' v x.
Proof.
  intros C R U H. destruct (sets_ok v h c (run_inv _ _ _ C R) U) as (h' & E & _ & K). eexists _, _. split; [exact E|]. split; [reflexivity|]. destruct H as [S G]. split; [exact S|]. intros i y Hy. rewrite <- (G i y Hy).
  destruct U as (_ & b & mem & D & Hb & _). rewrite !(get_read k _ v b mem); auto; eapply alive_of; [exact Hb|]. exact (K _ _ Hb eq_refl).
Qed.
Theorem view_changes l x x' h0 c0 h c : careful garbage k l new -> run l new = Ret (h0, c0) -> rows k x -> step (Load x) (h0, c0) = Ret (h, c) ->
  rows k x' -> (length x' <= length x)%nat -> exists h' c', step (Load x') (h, c) = Ret (h', c') /\ holds k h' (c_vec c) (x' ++ skipn (length x') x).
Proof.
  intros C R X S X' L. destruct (load_ok x h0 c0 (run_inv _ _ _ C R) X) as (h1 & c1 & E & I & [Hs Hg] & B & _). cbn [ColMem_Model.step] in S. rewrite E in S. injection S as -> ->.
  destruct (load_ok x' h c I X') as (h' & c' & E' & _ & _ & _ & _ & Keep & _). exists h', c'. split; [exact E'|].
  assert (Q : bytes_n k (Z.of_nat (length x')) <= c_size c) by (eapply Z.le_trans; [apply bytes_mono; [|destruct X; eassumption]; lia|exact B]).
  destruct (Keep Q) as (_ & _ & _ & G). split; [rewrite app_length, skipn_length, Hs; lia|]. intros i y Hy. destruct I as (V & _ & _ & _ & M).
  destruct (c_memory c) as [b|] eqn:Em.
  - destruct M as (mem & Hb & _). pose proof (alive_of _ _ _ _ Hb) as A. destruct (G b mem eq_refl A) as (mem' & A' & G1 & G2). rewrite (get_read k h' _ b mem') by assumption.
    destruct (Nat.lt_ge_cases i (length x')) as [Li|Li]; [rewrite nth_error_app1 in Hy by assumption; now apply G1|]. rewrite nth_error_app2 in Hy by assumption. rewrite G2 by lia.
    rewrite <- (get_read k h (c_vec c) b mem) by assumption. apply Hg. rewrite <- Hy. rewrite <- (firstn_skipn (length x') x) at 1. rewrite nth_error_app2 by (rewrite firstn_length; lia). f_equal. rewrite firstn_length. lia.
  - exfalso. destruct x as [|y0 x]; [destruct x'; [destruct i; discriminate|cbn in L; lia]|]. specialize (Hg 0%nat y0 eq_refl). unfold get in Hg. rewrite V in Hg. discriminate.
Qed.

(** ** Without Set *)
Definition owns (most : Z) (w : heap * column) : Prop := inv w /\ c_size (snd w) < most /\ (c_memory (snd w) <> None -> c_own (snd w) = true).
Lemma small_step most o w w' : 0 < most -> owns most w -> small k most o -> step o w = Ret w' -> owns most w'.
Proof.
  destruct w as [h c]. intros P (I & S & O) F E. cbn [snd] in S, O. assert (Fi : fine o (h, c)) by (destruct o; cbn in *; tauto). destruct (step_ok o _ I Fi) as (w1 & E1 & I1). rewrite E in E1. injection E1 as <-. split; [exact I1|].
  destruct o as [l| | |v|mem]; cbn [ColMem_Model.step] in E.
  - destruct F as [Rl Rm]. destruct (load_ok l h c I Rl) as (h' & c' & E' & _ & _ & _ & _ & K & G). rewrite E in E'. injection E' as ->. cbn [snd].
    destruct (Z.le_gt_cases (bytes_n k (Z.of_nat (length l))) (c_size c)) as [Q|Q].
    + destruct (K Q) as (-> & -> & -> & _). auto.
    + destruct (G Q) as (-> & -> & _). rewrite bytes_room_eq by (destruct Rl; lia). auto.
  - injection E as <-. cbn. auto.
  - unfold Clear in E. destruct (if c_own c then _ else _); try discriminate. cbn [obind] in E. injection E as <-. cbn. split; [lia|congruence].
  - destruct F.
  - injection E as <-. cbn. auto.
Qed.
Lemma small_run most l : forall w w', 0 < most -> owns most w -> Forall (small k most) l -> run l w = Ret w' -> owns most w'.
Proof.
  induction l as [|o l IH]; intros w w' P W F R; [now injection R as <-|]. cbn [ColMem_Model.run] in R. destruct (step o w) as [w1| | |] eqn:E; try discriminate. cbn [obind] in R. inversion_clear F.
  apply (IH w1); auto. apply (small_step most o w); auto.
Qed.
Lemma owns_new most : 0 < most -> owns most new.
Proof. intros. split; [exact inv_new|]. cbn. split; [assumption|congruence]. Qed.
Lemma small_defined most l : forall w, 0 < most -> owns most w -> Forall (small k most) l -> exists w', run l w = Ret w'.
Proof.
  induction l as [|o l IH]; intros w P W F; [exists w; reflexivity|]. inversion_clear F as [|? ? F1 F2]. assert (Fi : fine o w) by (destruct o; cbn in *; tauto). destruct (step_ok o w (proj1 W) Fi) as (w1 & E & _).
  cbn [ColMem_Model.run]. rewrite E. cbn [obind]. apply IH; auto. apply (small_step most o w); auto.
Qed.
Lemma last_load most l x h c : 0 < most -> Forall (small k most) l -> rows k x -> room k (length x) < most -> x <> [] -> run (l ++ [Load x]) new = Ret (h, c) ->
  owns most (h, c) /\ holds k h (c_vec c) x /\ exists b, c_memory c = Some b /\ v_data (c_vec c) = Some b /\ c_own c = true.
Proof.
  intros P F X R N E. assert (W : owns most (h, c)) by (eapply small_run; [exact P|apply owns_new, P| |exact E]; apply Forall_app; split; [exact F|repeat constructor; auto; apply X]).
  split; [exact W|]. rewrite run_app in E. destruct (run l new) as [w0| | |] eqn:E0; try discriminate. cbn [obind ColMem_Model.run] in E. destruct w0 as [h0 c0].
  pose proof (small_run most l _ _ P (owns_new _ P) F E0) as (I0 & _). destruct (load_ok x h0 c0 I0 X) as (h1 & c1 & E1 & I1 & H1 & _). cbn [ColMem_Model.step] in E. rewrite E1 in E. cbn [obind] in E. injection E as -> ->. split; [exact H1|].
  destruct W as (_ & _ & O). cbn [snd] in O. destruct I1 as (V & _). destruct (c_memory c) as [b|] eqn:M; [exists b; repeat split; auto; apply O; congruence|].
  exfalso. destruct x as [|y x]; [congruence|]. destruct H1 as [_ G]. specialize (G 0%nat y eq_refl). unfold get in G. rewrite V in G. discriminate.
Qed.
Lemma room_nonneg n : 0 <= room k n.
Proof. unfold room. apply Z.div_pos; [|lia]. destruct k; cbn [bits_for]; nia. Qed.
Theorem view_dangles l x x' : Forall (small k (room k (length x'))) l -> rows k x -> rows k x' -> x <> [] -> room k (length x) < room k (length x') ->
  exists h c h' c', run (l ++ [Load x]) new = Ret (h, c) /\ holds k h (c_vec c) x /\ step (Load x') (h, c) = Ret (h', c') /\ forall i, get k h' (c_vec c) i = UB.
Proof.
  intros F X X' N R. assert (P : 0 < room k (length x')) by (pose proof (room_nonneg (length x)); lia).
  destruct (small_defined _ (l ++ [Load x]) new P (owns_new _ P)) as ([h c] & E). { apply Forall_app; split; [exact F|]. repeat constructor; auto; apply X. }
  destruct (last_load _ l x h c P F X R N E) as ((I & S & _) & H & b & M & V & O). cbn [snd] in S.
  destruct (load_ok x' h c I X') as (h' & c' & E' & _ & _ & _ & _ & _ & G). exists h, c, h', c'. split; [exact E|]. split; [exact H|]. split; [exact E'|].
  destruct G as (_ & _ & D); [rewrite bytes_room_eq by (destruct X'; lia); exact S|]. intros i. unfold get. rewrite V, (D b M O). reflexivity.
Qed.
Theorem set_back l x most : Forall (small k most) l -> rows k x -> x <> [] -> room k (length x) < most ->
  exists h c h' c', run (l ++ [Load x]) new = Ret (h, c) /\ holds k h (c_vec c) x /\ step (Sets (c_vec c)) (h, c) = Ret (h', c') /\ (forall i, get k h' (c_vec c') i = UB) /\
    forall x', rows k x' -> x' <> [] -> (length x' <= length x)%nat -> step (Load x') (h', c') = UB.
Proof.
  intros F X N R. assert (P : 0 < most) by (pose proof (room_nonneg (length x)); lia).
  destruct (small_defined _ (l ++ [Load x]) new P (owns_new _ P)) as ([h c] & E). { apply Forall_app; split; [exact F|]. repeat constructor; auto; apply X. }
  destruct (last_load _ l x h c P F X R N E) as ((I & _) & H & b & M & V & O). destruct (clear_ok h c I) as (h1 & c1 & C & _ & _ & _ & Fr & A & _).
  assert (D : alive h1 b = UB). { destruct I as (_ & _ & _ & _ & Mm). rewrite M in Mm. destruct Mm as (mem & Hb & _). destruct (A _ _ Hb) as (y & Hy & Ny & _). unfold alive. rewrite Hy, (Fr _ _ Hy), Ny. cbn. now rewrite O. }
  exists h, c, h1. eexists. split; [exact E|]. split; [exact H|]. cbn [ColMem_Model.step]. unfold SetData. rewrite C. cbn [obind]. split; [reflexivity|]. cbn [c_vec]. split; [intros i; unfold get; now rewrite V, D|].
  intros x' X' N' L. rewrite load_is. unfold ReserveMemory. cbn [c_size].
  assert (Q : bytes_n k (Z.of_nat (length x')) <= SizeByBytes k (c_vec c)).
  { destruct H as [Hs _]. destruct X as [_ Xl]. eapply Z.le_trans; [apply (bytes_mono k _ (Z.of_nat (length x))); lia|]. clear -Hs Xl. destruct k as [|w]; cbn [SizeByBytes]; rewrite Hs; [|cbn [bytes_n]; lia].
    rewrite bytes_n_bit by lia. set (n := Z.of_nat (length x)). pose proof (Z.div_mod n 8 ltac:(lia)). pose proof (Z.mod_pos_bound n 8 ltac:(lia)). destruct (Z.eqb_spec (n mod 8) 0); [|]; apply Z.lt_succ_r, Z.div_lt_upper_bound; lia. }
  rewrite (proj2 (Z.ltb_ge _ _)) by exact Q. cbn [obind]. unfold written. cbn [c_memory]. rewrite V. destruct x' as [|y x']; [congruence|]. rewrite D. reflexivity.
Qed.
Theorem readonly_written l v x h c : careful garbage k l new -> run l new = Ret (h, c) -> in_user_memory k h v -> rows k x -> Z.of_nat (length x) <= v_size v ->
  exists h1 c1 h2 c2, step (Sets v) (h, c) = Ret (h1, c1) /\ c_vec c1 = v /\ step (Load x) (h1, c1) = Ret (h2, c2) /\
    v_data (c_vec c2) = v_data v /\ v_writable (c_vec c2) = true /\ holds k h2 (c_vec c2) x.
Proof.
  intros C R U X L. pose proof U as (Sz & _). destruct (sets_ok v h c (run_inv _ _ _ C R) U) as (h1 & E & I & _).
  set (c1 := mk_column v (v_data v) (SizeByBytes k v) false) in *.
  destruct (load_ok x h1 c1 I X) as (h2 & c2 & E2 & I2 & H & _ & _ & Keep & _). exists h1, c1, h2, c2.
  assert (Q : bytes_n k (Z.of_nat (length x)) <= c_size c1).
  { eapply Z.le_trans; [apply (bytes_mono k _ (v_size v)); lia|]. cbn [c1 c_size]. destruct k as [|w]; [rewrite bytes_n_bit by lia|]; cbn [bytes_n SizeByBytes]; [|lia].
    pose proof (Z.div_mod (v_size v) 8 ltac:(lia)). pose proof (Z.mod_pos_bound (v_size v) 8 ltac:(lia)).
    destruct (Z.eqb_spec (v_size v mod 8) 0); apply Z.lt_succ_r, Z.div_lt_upper_bound; lia. }
  destruct (Keep Q) as (M & _). split; [exact E|]. split; [reflexivity|]. split; [exact E2|]. destruct I2 as (V & _). rewrite V, M. split; [reflexivity|]. split; [|exact H].
  rewrite load_is in E2. destruct (ReserveMemory _ _ _ _ _) as [[h3 c3]| | |]; try discriminate E2. cbn [obind] in E2.
  destruct (written x h3 c3); try discriminate E2. cbn [obind] in E2. injection E2 as _ <-. reflexivity.
Qed.
Theorem empty_column l h c : run l new = Ret (h, c) -> l = [] \/ (exists l' o, l = l' ++ [o] /\ (o = Clears \/ o = Unloads)) -> holds k h (c_vec c) [].
Proof.
  intros R H. assert (v_size (c_vec c) = 0) as S; [|split; [exact S|intros [|i] x N; discriminate N]].
  destruct H as [->|(l' & o & -> & O)]; [cbn in R; injection R as <- <-; reflexivity|].
  rewrite run_app in R. destruct (run l' new) as [[h1 c1]| | |]; try discriminate R. cbn [obind ColMem_Model.run] in R.
  destruct O as [-> | ->]; cbn [ColMem_Model.step] in R.
  - unfold Clear in R. destruct (if c_own c1 then delete h1 (c_memory c1) else Ret h1) as [h2| | |]; try discriminate R. cbn [obind] in R.
    injection R as <- <-. reflexivity.
  - cbn [obind] in R. injection R as <- <-. reflexivity.
Qed.
End Columns.
