(** Columns. *)
From Coq Require Import List Bool Arith ZArith Lia Sorted Permutation.
Import ListNotations.
From Verif Require Import Base Simd_Spec Vector_Spec Vector_Model Vector_Proofs Simd_Model Simd_Proofs
  Table_Model Table_Spec Table_Proofs TableRows_Proofs.
Local Open Scope Z_scope.

Section T.
Context {V : Type}.
Notation table := (@table V).

(** A column that is not loaded, or has the values of the objects. *)
Definition col_ok (h : heap) (t : table) (f : col_field) (c : @column V) : Prop :=
  (memory c = None -> memory_size c = 0) /\
  (vec_size c = 0%nat \/
   vec_size c = Count t /\ exists m, memory c = Some m /\ (Count t <= length m)%nat /\ firstn (Count t) m = column_values h t f).
Definition table_ok (h : heap) (t : table) : Prop :=
  proper (t_schema t) /\ of_schema t /\ aligned t /\ Forall2 (col_ok h t) (sc_columns (t_schema t)) (t_columns t).

Lemma new_col_ok h t f : col_ok h t f new_column.
Proof. split; auto. Qed.
Lemma new_cols_ok h (t : table) l : Forall2 (col_ok h t) l (map (fun _ => new_column) l).
Proof. induction l; constructor; auto using new_col_ok. Qed.
Lemma unload_cols_ok h (t t' : table) l cs : Forall2 (col_ok h t) l cs -> Forall2 (col_ok h t') l (map Unload cs).
Proof.
  induction 1 as [|f c l cs (H & _) _ IH]; constructor; auto. split; [exact H|now left].
Qed.
Lemma col_ok_same h (t t' : table) f c : same_rows t t' -> col_ok h t f c -> col_ok h t' f c.
Proof.
  intros (S & R) (H & D). unfold col_ok, column_values, records, Count in *. rewrite S, R in *. auto.
Qed.
Lemma cols_ok_same h (t t' : table) l cs : same_rows t t' -> Forall2 (col_ok h t) l cs -> Forall2 (col_ok h t') l cs.
Proof. intros S. induction 1; constructor; eauto using col_ok_same. Qed.
Lemma same_rows_refl (t : table) : same_rows t t. Proof. split; reflexivity. Qed.
Lemma same_rows_trans (a b c : table) : same_rows a b -> same_rows b c -> same_rows a c.
Proof. intros (A & B) (C & D). split; congruence. Qed.
Lemma same_of (t t' : table) : same_rows t t' -> length (t_columns t') = length (t_columns t) -> of_schema t -> of_schema t'.
Proof. intros (S & R) L (A & B). unfold of_schema. rewrite S, R, L. auto. Qed.
Lemma same_facts (t t' : table) : same_rows t t' ->
  Count t' = Count t /\ records t' = records t /\ (aligned t -> aligned t').
Proof. intros (S & R). unfold Count, records, aligned. now rewrite R. Qed.
Lemma same_values h (t t' : table) f : same_rows t t' -> column_values h t' f = column_values h t f.
Proof. intros (S & R). unfold column_values, records. now rewrite S, R. Qed.

Lemma values_length h (t : table) f : length (column_values h t f) = Count t.
Proof. unfold column_values. now rewrite map_length, count_records. Qed.
Lemma bytes_zero f n : 0 < cf_width f -> bytes_for f n <= 0 -> n = 0%nat.
Proof.
  intros W H. unfold bytes_for in H. destruct (cf_bit f).
  - destruct n; auto. assert (1 <= (Z.of_nat (S n) + 7) / 8) by (apply Z.div_le_lower_bound; lia). lia.
  - destruct n; auto. assert (0 < cf_width f * Z.of_nat (S n)) by (apply Z.mul_pos_pos; lia). lia.
Qed.
Lemma bytes_nonneg f n : 0 < cf_width f -> 0 <= bytes_for f n.
Proof. intros W. unfold bytes_for. destruct (cf_bit f); [apply Z.div_pos; lia|apply Z.mul_nonneg_nonneg; lia]. Qed.

Lemma Forall2_nth {A B} (P : A -> B -> Prop) l l' : Forall2 P l l' -> forall k a b, nth_error l k = Some a -> nth_error l' k = Some b -> P a b.
Proof.
  induction 1; intros [|k] a b E1 E2; try discriminate; cbn in *; [injection E1 as <-; injection E2 as <-; auto|eauto].
Qed.
Lemma Forall2_upd {A B} (P : A -> B -> Prop) l l' : Forall2 P l l' -> forall k a b, nth_error l k = Some a -> P a b -> Forall2 P l (upd l' k b).
Proof.
  induction 1; intros [|k] a b E1 Hp; try discriminate; cbn in *; [injection E1 as <-; constructor; auto|constructor; eauto].
Qed.
Lemma Forall2_len {A B} (P : A -> B -> Prop) l l' : Forall2 P l l' -> length l = length l'.
Proof. induction 1; cbn; auto. Qed.
Lemma upd_len {A} (l : list A) k x : length (upd l k x) = length l.
Proof. revert k. induction l; intros [|k]; cbn; auto. Qed.

Lemma Forall2_impl {A B} (P Q : A -> B -> Prop) l l' : (forall a b, P a b -> Q a b) -> Forall2 P l l' -> Forall2 Q l l'.
Proof. intros H. induction 1; constructor; auto. Qed.
Lemma Load_ok h k f (t : table) : table_ok h t -> nth_error (sc_columns (t_schema t)) k = Some f ->
  exists t' c, LoadColumnBase h k t = Ret (t', c) /\ same_rows t t' /\ table_ok h t' /\
    elements c = Ret (column_values h t f) /\ col_ok h t f c /\ vec_size c = Count t /\
    (forall m, memory c = Some m -> (Count t <= length m)%nat /\ firstn (Count t) m = column_values h t f) /\
    (memory c = None -> Count t = 0%nat).
Proof.
  intros (P & O & A & C) F. unfold LoadColumnBase.
  destruct (nth_error (t_columns t) k) as [c|] eqn:E.
  2:{ exfalso. apply nth_error_None in E. rewrite <- (Forall2_len _ _ _ C) in E. apply nth_error_None in E. congruence. }
  rewrite F. pose proof (Forall2_nth _ _ _ C k f c F E) as (M0 & D).
  destruct (Nat.eqb_spec (vec_size c) 0) as [Z|NZ].
  - destruct P as (ND & P). destruct (P f (nth_error_In _ _ F)) as (IN & W).
    destruct (find_column (t_rows t) (cf_schema f)) as (objs & FO & LO & RO); [exact A|destruct O as (O & _); now rewrite O|].
    rewrite FO. set (n := Count t). assert (LO' : length objs = n) by exact LO.
    set (vals := map (fun p => h p (cf_field f)) objs).
    assert (VV : vals = column_values h t f).
    { unfold vals, column_values. rewrite <- RO. rewrite map_map. destruct O as (O & _). rewrite O. reflexivity. }
    assert (LV : length vals = n) by (unfold vals; now rewrite map_length).
    set (c1 := ReserveMemory f n c).
    assert (L : exists c', LoadColumn h n f objs c = Ret c' /\ (memory c' = None -> memory_size c' = 0) /\ vec_size c' = n /\
      (forall m, memory c' = Some m -> (n <= length m)%nat /\ firstn n m = vals) /\ (memory c' = None -> n = 0%nat)).
    { unfold LoadColumn. cbv zeta. fold c1. fold vals.
      assert (R1 : bytes_for f n <= memory_size c1 /\ (memory c1 = None -> memory_size c1 = 0)).
      { unfold c1, ReserveMemory. destruct (Z.ltb_spec (memory_size c) (bytes_for f n)); cbn; [split; [lia|discriminate]|auto]. }
      destruct R1 as (R1 & R2). rewrite LO'. rewrite (proj2 (Z.ltb_ge _ _)) by lia.
      destruct (memory c1) as [old|] eqn:EM.
      - eexists. split; [reflexivity|]. cbn. split; [discriminate|]. split; auto. split; [|discriminate].
        intros m Em. injection Em as <-. rewrite app_length, LV. split; [lia|]. rewrite <- LV, firstn_app, Nat.sub_diag, firstn_all.
        cbn. apply app_nil_r.
      - specialize (R2 eq_refl). assert (n0 : n = 0%nat) by (apply (bytes_zero f); lia).
        destruct objs; [|cbn in LO'; lia]. eexists. split; [reflexivity|]. cbn. split; auto. split; auto. split; [discriminate|auto]. }
    destruct L as (c' & -> & M1 & Vc & Mc & N0). cbn [obind]. exists (set_column k c' t), c'. split; [reflexivity|].
    assert (SR : same_rows t (set_column k c' t)) by (split; reflexivity).
    assert (CO : col_ok h t f c').
    { split; auto. destruct (memory c') as [m|] eqn:EM.
      - right. split; auto. exists m. split; auto. destruct (Mc m eq_refl) as (Lm & Fm). split; auto. now rewrite <- VV.
      - left. rewrite Vc. auto. }
    split; [exact SR|]. split; [|split; [|split; [exact CO|split; [exact Vc|split]]]].
    + split; [split; auto|]. split; [|split].
      * apply (same_of t); auto. apply upd_len.
      * apply (same_facts t (set_column k c' t) SR). exact A.
      * apply (cols_ok_same h t); auto. apply (Forall2_upd _ _ _ C k f); auto.
    + unfold elements. rewrite Vc. destruct (memory c') as [m|] eqn:EM.
      * destruct (Mc m eq_refl) as (Lm & Fm). rewrite (proj2 (Nat.leb_le _ _) Lm). now rewrite Fm, VV.
      * rewrite (N0 eq_refl), Nat.eqb_refl. f_equal. rewrite (N0 eq_refl) in LV. rewrite <- VV. now destruct vals.
    + intros m Em. destruct (Mc m Em). split; auto. now rewrite <- VV.
    + exact N0.
  - destruct D as [D|(D & m & EM & Lm & Fm)]; [contradiction|]. exists t, c. split; [reflexivity|].
    split; [apply same_rows_refl|]. split; [repeat (split; auto)|].
    split; [|split; [split; [auto|right; split; eauto]|split; [auto|split]]].
    + unfold elements. rewrite EM, D, (proj2 (Nat.leb_le _ _) Lm). now rewrite Fm.
    + intros m' E'. rewrite EM in E'. injection E' as <-. auto.
    + rewrite EM. discriminate.
Qed.

Lemma Get_ok h k f (t : table) c : table_ok h t -> nth_error (sc_columns (t_schema t)) k = Some f ->
  nth_error (t_columns t) k = Some c -> (memory c = None \/ vec_size c <> 0%nat) ->
  exists t' c', Get h k t = Ret (t', c') /\ same_rows t t' /\ table_ok h t' /\ elements c' = Ret (column_values h t f).
Proof.
  intros T F E D. unfold Get. rewrite E. destruct (memory c) as [m|] eqn:EM.
  - destruct D as [D|D]; [discriminate|]. exists t, c. split; [reflexivity|]. split; [apply same_rows_refl|]. split; auto.
    destruct T as (P & O & A & C). destruct (Forall2_nth _ _ _ C k f c F E) as (_ & [Z|(Z & m' & E' & Lm & Fm)]); [contradiction|].
    unfold elements. rewrite E', Z, (proj2 (Nat.leb_le _ _) Lm). now rewrite Fm.
  - destruct (Load_ok h k f t T F) as (t' & c' & L & S & T' & El & _). exists t', c'. rewrite L. auto.
Qed.
(** After Unload the memory is still there, and Get answers the empty vector. *)
Lemma Get_unloaded h k (t : table) c m : nth_error (t_columns t) k = Some c -> memory c = Some m -> vec_size c = 0%nat ->
  Get h k t = Ret (t, c) /\ elements c = Ret [].
Proof. intros E M Z. unfold Get, elements. rewrite E, M, Z. auto. Qed.

(** Tables with rows of their own and new columns *)
Lemma made_ok h (t : table) l : proper (t_schema t) -> of_schema t -> aligned t -> l = sc_columns (t_schema t) ->
  t_columns t = map (fun _ => new_column) l -> table_ok h t.
Proof. intros P O A -> C. split; [exact P|]. split; [exact O|]. split; [exact A|]. rewrite C. apply new_cols_ok. Qed.

Lemma load_keys_ok h fs ks : forall t : table, table_ok h t -> fields_of t ks fs ->
  exists t' cs, load_keys h ks t = Ret (t', cs) /\ same_rows t t' /\ table_ok h t' /\
    Forall2 (fun f fc => fst fc = f /\ forall m, memory (snd fc) = Some m -> (Count t <= length m)%nat /\ firstn (Count t) m = column_values h t f) fs cs /\
    Forall (fun fc => memory (snd fc) = None -> Count t = 0%nat) cs.
Proof.
  intros t T F. unfold fields_of in F. remember (sc_columns (t_schema t)) as cols eqn:EC.
  revert t T EC. induction F as [|k f ks fs F1 F IH]; intros t T EC.
  - exists t, []. split; [reflexivity|]. split; [apply same_rows_refl|]. auto.
  - cbn [load_keys]. rewrite <- EC, F1. rewrite EC in F1. destruct (Load_ok h k f t T F1) as (t1 & c & -> & S1 & T1 & _ & _ & _ & Hm & Hn).
    cbn [obind]. destruct (IH t1 T1) as (t2 & cs & -> & S2 & T2 & G2 & N2). { rewrite EC. now rewrite (proj1 S1). }
    cbn [obind]. exists t2, ((f, c) :: cs). split; [reflexivity|]. split; [now apply (same_rows_trans t t1)|]. split; auto.
    destruct (same_facts t t1 S1) as (C1 & _ & _). rewrite C1 in *. split.
    + constructor; [split; auto|]. eapply Forall2_impl; [|exact G2]. intros f' fc (Ef & Hf). split; auto. intros m Em.
      rewrite <- (same_values h t t1 f' S1). auto.
    + constructor; auto.
Qed.
End T.
