From Coq Require Import List ZArith Bool Lia.
Import ListNotations.
From Verif Require Import Base StringView_Spec StringView_Model.
Local Open Scope Z_scope.

Fixpoint padn (n : nat) (s : list Z) : list Z :=
  match n with
  | O => []
  | S n => match s with [] => 0 :: padn n [] | x :: s' => x :: padn n s' end
  end.

Lemma padn_length n s : length (padn n s) = n.
Proof. revert s. induction n; intros [|x s]; simpl; auto. Qed.

Lemma padn_firstn n s k : (n <= length s + k)%nat -> firstn n (s ++ repeat 0 k) = padn n s.
Proof.
  revert s k. induction n as [|n IH]; intros s k H; [reflexivity|].
  destruct s as [|x s].
  - destruct k as [|k]; [simpl in H; lia|]. simpl. f_equal. apply (IH [] k). simpl in *. lia.
  - simpl. f_equal. apply IH. simpl in H. lia.
Qed.

Lemma padn_bytes n s : bytes s -> bytes (padn n s).
Proof.
  revert s. induction n as [|n IH]; intros s H; [constructor|].
  destruct H; simpl; constructor; try lia; apply IH; [constructor|assumption].
Qed.

Lemma le_int_inj a b : bytes a -> bytes b -> length a = length b -> le_int a = le_int b -> a = b.
Proof.
  intros Ha. revert b. induction Ha as [|x a Hx Ha IH]; intros [|y b] Hb Hl He; try discriminate; auto.
  inversion Hb; subst. simpl in He. assert (x = y) by lia. subst. f_equal.
  apply IH; auto. lia.
Qed.

Lemma le_int_range a : bytes a -> 0 <= le_int a < 256 ^ Z.of_nat (length a).
Proof.
  induction 1 as [|x a Hx Ha IH]; [simpl; lia|].
  simpl length. rewrite Nat2Z.inj_succ, Z.pow_succ_r by lia. simpl le_int. lia.
Qed.

Lemma memcmp_zero a b : length a = length b -> memcmp_bytes a b = 0 <-> a = b.
Proof.
  revert b. induction a as [|x a IH]; intros [|y b] H; simpl in *; try lia; try discriminate.
  - tauto.
  - destruct (Z.eqb_spec x y) as [->|N].
    + rewrite IH by lia. split; [intros ->; auto|intros E; now inversion E].
    + split; [lia|intros E; inversion E; lia].
Qed.

Lemma memcmp_refl a : memcmp_bytes a a = 0.
Proof. apply memcmp_zero; auto. Qed.

Lemma lex_eq a b : lex a b = Eq <-> a = b.
Proof.
  revert b. induction a as [|x a IH]; intros [|y b]; simpl; split; intros H; try discriminate; auto.
  - destruct (Z.compare_spec x y); try discriminate. subst. f_equal. now apply IH.
  - inversion H; subst. rewrite Z.compare_refl. now apply IH.
Qed.

Lemma lex_antisym a b : lex b a = CompOpp (lex a b).
Proof.
  revert b. induction a as [|x a IH]; intros [|y b]; simpl; auto.
  rewrite (Z.compare_antisym x y). destruct (x ?= y); simpl; auto.
Qed.

Lemma lex_trans a b c : lex a b = Lt -> lex b c = Lt -> lex a c = Lt.
Proof.
  revert b c. induction a as [|x a IH]; intros [|y b] [|z c]; simpl; auto; try discriminate.
  destruct (Z.compare_spec x y), (Z.compare_spec y z), (Z.compare_spec x z); subst;
    intros; try discriminate; auto; try lia. eapply IH; eauto.
Qed.

(** Different padded prefixes decide. *)
Lemma pad_differ n s t : bytes s -> bytes t ->
  memcmp_bytes (padn n s) (padn n t) <> 0 ->
  sign_is (memcmp_bytes (padn n s) (padn n t)) (lex s t).
Proof.
  unfold sign_is. revert s t. induction n as [|n IH]; intros s t Hs Ht; simpl.
  - lia.
  - destruct Hs as [|x s Hx Hs], Ht as [|y t Hy Ht]; cbn [memcmp_bytes].
    + intros H. rewrite Z.eqb_refl in *. rewrite memcmp_refl in H. lia.
    + destruct (Z.eqb_spec 0 y) as [<-|N].
      * intros H. rewrite IH by (auto; constructor). simpl.
        destruct t; [|reflexivity]. rewrite memcmp_refl in H. lia.
      * intros _. simpl. apply Z.compare_lt_iff. lia.
    + destruct (Z.eqb_spec x 0) as [->|N].
      * intros H. rewrite IH by (auto; constructor). simpl.
        destruct s; [|reflexivity]. rewrite memcmp_refl in H. lia.
      * intros _. simpl. apply Z.compare_gt_iff. lia.
    + simpl. destruct (Z.eqb_spec x y) as [->|N].
      * intros H. rewrite IH by auto. now rewrite Z.compare_refl.
      * intros _. destruct (Z.compare_spec x y); try lia.
        -- apply Z.compare_lt_iff; lia.
        -- apply Z.compare_gt_iff; lia.
Qed.

Lemma pad_same_short n s t :
  padn n s = padn n t -> (Nat.min (length s) (length t) <= n)%nat ->
  lex s t = (Z.of_nat (length s) ?= Z.of_nat (length t)).
Proof.
  revert s t. induction n as [|n IH]; intros [|x s] [|y t] H L;
    try reflexivity; try (simpl in L; lia).
  simpl in H. inversion H; subst. cbn [lex length]. rewrite Z.compare_refl.
  rewrite (IH s t) by (auto; simpl in L; lia).
  rewrite !Nat2Z.inj_succ. unfold Z.succ.
  destruct (Z.compare_spec (Z.of_nat (length s)) (Z.of_nat (length t))); symmetry;
    [apply Z.compare_eq_iff|apply Z.compare_lt_iff|apply Z.compare_gt_iff]; lia.
Qed.

Lemma pad_long n s : (n <= length s)%nat -> padn n s = firstn n s.
Proof.
  revert s. induction n as [|n IH]; intros [|x s] H; simpl in *; auto; try lia.
  f_equal. apply IH. lia.
Qed.

Lemma lex_app p a b : lex (p ++ a) (p ++ b) = lex a b.
Proof. induction p; simpl; auto. now rewrite Z.compare_refl. Qed.

Lemma lex_memcmp a b m : m = Nat.min (length a) (length b) ->
  sign_is (if negb (memcmp_bytes (firstn m a) (firstn m b) =? 0)
           then memcmp_bytes (firstn m a) (firstn m b)
           else Z.of_nat (length a) - Z.of_nat (length b)) (lex a b).
Proof.
  unfold sign_is. intros ->. revert b. induction a as [|x a IH]; intros [|y b]; simpl length; simpl Nat.min;
    cbn [firstn memcmp_bytes lex]; try reflexivity.
  - destruct (Z.eqb_spec x y) as [->|N].
    + specialize (IH b). rewrite Z.compare_refl. rewrite <- IH.
      destruct (_ =? 0); simpl; [|reflexivity]. f_equal. lia.
    + destruct (Z.eqb_spec (x - y) 0); simpl; [lia|].
      destruct (Z.compare_spec x y); try lia.
      * apply Z.compare_lt_iff; lia.
      * apply Z.compare_gt_iff; lia.
Qed.

(** What the constructor builds. *)
Definition short (s : list Z) : Prop := Z.of_nat (length s) < 2 ^ 31.
Definition short32 (s : list Z) : Prop := Z.of_nat (length s) < 2 ^ 32.

Lemma short_short32 s : short s -> short32 s.
Proof. unfold short, short32. pows. lia. Qed.

Definition view (junk s : list Z) : sv :=
  let n := Z.of_nat (length s) in
  mk_sv n (padn 4 s)
    (if n <=? 12 then (if n =? 0 then Inlined junk else Inlined (skipn 4 (padn 12 s))) else Data s).

Lemma of_string_view junk s : short32 s -> of_string junk s = Ret (view junk s).
Proof.
  unfold short32, of_string, make, view. intros H.
  assert (E : wrapu 32 (wraps 32 (Z.of_nat (length s))) = Z.of_nat (length s)).
  { rewrite wrapu_wraps by lia. rewrite wrapu_id; [reflexivity|]. unfold in_u. lia. }
  rewrite E. unfold isInline, kInlineSize.
  destruct (Z.leb_spec (Z.of_nat (length s)) 12) as [L|L].
  - destruct (Z.eqb_spec (Z.of_nat (length s)) 0) as [Z0|Z0].
    + destruct s; [|simpl in Z0; lia]. reflexivity.
    + unfold read. rewrite (proj2 (Z.leb_le _ _)) by lia. cbn [obind].
      rewrite Nat2Z.id, firstn_all. unfold zeros.
      f_equal. f_equal.
      * rewrite padn_firstn by lia. reflexivity.
      * f_equal. f_equal. symmetry. rewrite <- (padn_firstn 12 s (Z.to_nat (12 - Z.of_nat (length s)))) by lia.
        apply firstn_all2. rewrite app_length, repeat_length. lia.
  - unfold read, kPrefixSize. rewrite (proj2 (Z.leb_le _ _)) by lia. simpl obind.
    change (Z.to_nat 4) with 4%nat. rewrite pad_long by lia. reflexivity.
Qed.

Lemma view_prefix junk s : prefix_ (view junk s) = padn 4 s.
Proof. reflexivity. Qed.

Lemma padn_app n s k : (length s <= n)%nat -> firstn (length s) (padn n s) = s /\ skipn k (padn n s) = padn (n - k) (skipn k s).
Proof.
  intros L. split.
  - revert s L. induction n as [|n IH]; intros [|x s] L; simpl in *; auto; try lia.
    f_equal. apply IH. lia.
  - revert s k L. induction n as [|n IH]; intros [|x s] [|k] L; simpl in *; auto; try lia.
    + rewrite IH by (simpl; lia). now rewrite skipn_nil.
    + rewrite IH by lia. reflexivity.
Qed.

Lemma padn_inj n s t : length s = length t -> (length s <= n)%nat -> padn n s = padn n t -> s = t.
Proof.
  intros L1 L2 E. rewrite <- (proj1 (padn_app n s 0 L2)), <- (proj1 (padn_app n t 0 ltac:(lia))), E, L1.
  reflexivity.
Qed.

Lemma padn_split n m s : padn (n + m) s = padn n s ++ skipn n (padn (n + m) s).
Proof.
  revert s. induction n as [|n IH]; intros [|x s]; cbn [Nat.add padn app skipn]; auto; f_equal; apply IH.
Qed.

Lemma skipn_bytes k s : bytes s -> bytes (skipn k s).
Proof.
  intros H. revert k. induction H; intros [|k]; simpl; try constructor; auto.
Qed.

Lemma read_skip (d : list Z) k n : n <= Z.of_nat (length d) - Z.of_nat k -> 0 <= n ->
  read (skipn k d) n = Ret (firstn (Z.to_nat n) (skipn k d)).
Proof. intros. unfold read. rewrite skipn_length, (proj2 (Z.leb_le _ _)) by lia. reflexivity. Qed.

Lemma sv_eq_spec j1 j2 s t : bytes s -> bytes t -> short32 s -> short32 t ->
  exists b, sv_eq (view j1 s) (view j2 t) = Ret b /\ (b = true <-> s = t).
Proof.
  intros Bs Bt Ss St. unfold sv_eq, short32 in *.
  assert (P : sizeAndPrefixAsInt64 (view j1 s) = sizeAndPrefixAsInt64 (view j2 t) <->
              length s = length t /\ padn 4 s = padn 4 t).
  { unfold sizeAndPrefixAsInt64. cbn [size_ prefix_ view].
    pows.
    pose proof (le_int_range _ (padn_bytes 4 s Bs)) as R1.
    pose proof (le_int_range _ (padn_bytes 4 t Bt)) as R2.
    split.
    - intros H. assert (L : length s = length t) by lia. split; auto.
      apply le_int_inj; auto using padn_bytes. { now rewrite !padn_length. } lia.
    - intros [-> ->]. reflexivity. }
  destruct (Z.eqb_spec (sizeAndPrefixAsInt64 (view j1 s)) (sizeAndPrefixAsInt64 (view j2 t))) as [E|E]; cbn [negb].
  2:{ eexists; split; [reflexivity|]. split; [discriminate|]. intros ->. exfalso. apply E, P. auto. }
  apply P in E. destruct E as [L E]. unfold isInline, kInlineSize, kPrefixSize. cbn [size_ view].
  destruct (Z.leb_spec (Z.of_nat (length s)) 12) as [I|I].
  - eexists; split; [reflexivity|]. rewrite orb_true_iff, Z.leb_le, Z.eqb_eq.
    split.
    + intros H. destruct (Z.le_gt_cases (Z.of_nat (length s)) 4) as [A|A].
      * apply (padn_inj 4); auto. lia.
      * destruct H as [H|H]; [lia|]. unfold inlinedAsInt64, view in H.
        rewrite <- L in H. cbn [value_] in H.
        rewrite (proj2 (Z.leb_le _ _)), (proj2 (Z.eqb_neq _ _)) in H by lia.
        apply le_int_inj in H; try apply skipn_bytes; auto using padn_bytes.
        2:{ now rewrite !skipn_length, !padn_length. }
        apply (padn_inj 12); auto; [lia|].
        change 12%nat with (4 + 8)%nat. rewrite (padn_split 4 8 s), (padn_split 4 8 t), E. f_equal. exact H.
    + intros ->. destruct (Z.eq_dec (Z.of_nat (length t)) 0) as [Z0|Z0]; [left; lia|right].
      unfold inlinedAsInt64, view. cbn [value_].
      rewrite (proj2 (Z.leb_le _ _)), (proj2 (Z.eqb_neq _ _)) by lia. reflexivity.
  - unfold view. cbn [value_].
    rewrite <- L, (proj2 (Z.leb_gt _ _)) by lia. cbv iota. unfold memcmp.
    rewrite !read_skip by (simpl; lia). cbn [obind].
    eexists; split; [reflexivity|]. rewrite Z.eqb_eq, memcmp_zero.
    2:{ rewrite !firstn_length, !skipn_length. lia. }
    rewrite !firstn_all2 by (rewrite skipn_length; lia).
    rewrite !pad_long in E by lia.
    split; [|intros ->; reflexivity].
    intros H. rewrite <- (firstn_skipn 4 s), <- (firstn_skipn 4 t), E, H. reflexivity.
Qed.

Lemma view_data_long junk s : 12 < Z.of_nat (length s) -> data (view junk s) = s.
Proof.
  intros H. unfold data, isInline, kInlineSize, view. cbn [size_ value_].
  now rewrite (proj2 (Z.leb_gt _ _)).
Qed.

Lemma view_data_short junk s : 0 < Z.of_nat (length s) <= 12 -> data (view junk s) = padn 12 s.
Proof.
  intros H. unfold data, isInline, kInlineSize, view. cbn [size_ value_ prefix_].
  rewrite (proj2 (Z.leb_le _ _)), (proj2 (Z.eqb_neq _ _)) by lia.
  symmetry. apply (padn_split 4 8).
Qed.

Lemma data_ok junk s : get_string_view (view junk s) = Ret s.
Proof.
  unfold get_string_view, read. simpl size_.
  destruct (Z.eq_dec (Z.of_nat (length s)) 0) as [Z0|Z0].
  { destruct s; [|simpl in Z0; lia]. simpl. reflexivity. }
  rewrite Nat2Z.id.
  destruct (Z.le_gt_cases (Z.of_nat (length s)) 12).
  - rewrite view_data_short by lia. rewrite padn_length, (proj2 (Z.leb_le _ _)) by lia.
    now rewrite (proj1 (padn_app 12 s 0 ltac:(lia))).
  - rewrite view_data_long by lia. rewrite Z.leb_refl. now rewrite firstn_all.
Qed.

Lemma data_suffix junk s n : 0 <= n -> n <= Z.of_nat (length s) - 4 ->
  read (skipn 4 (data (view junk s))) n = Ret (firstn (Z.to_nat n) (skipn 4 s)).
Proof.
  intros N L.
  destruct (Z.le_gt_cases (Z.of_nat (length s)) 12).
  - rewrite view_data_short by lia.
    rewrite read_skip by (rewrite ?padn_length; simpl; lia). f_equal.
    rewrite (proj2 (padn_app 12 s 4 ltac:(lia))).
    rewrite <- (padn_firstn (12 - 4) (skipn 4 s) 12) by (rewrite skipn_length; lia).
    rewrite firstn_firstn.
    replace (Nat.min (Z.to_nat n) (12 - 4)) with (Z.to_nat n) by lia.
    rewrite firstn_app.
    replace (Z.to_nat n - length (skipn 4 s))%nat with 0%nat by (rewrite skipn_length; lia).
    now rewrite firstn_O, app_nil_r.
  - rewrite view_data_long by lia. apply read_skip; simpl; lia.
Qed.

Lemma sv_compare_spec j1 j2 s t : bytes s -> bytes t -> short s -> short t ->
  exists r, sv_compare (view j1 s) (view j2 t) = Ret r /\ sign_is r (lex s t).
Proof.
  intros Bs Bt Ss St. unfold sv_compare, short in *.
  unfold prefixAsInt. rewrite !view_prefix. change (2 ^ 31) with 2147483648 in *.
  destruct (Z.eqb_spec (le_int (padn 4 s)) (le_int (padn 4 t))) as [E|E]; cbn [negb].
  2:{ unfold memcmp, read, kPrefixSize. rewrite !padn_length. cbn [obind Z.leb Z.compare Z.of_nat Pos.of_succ_nat Pos.succ Pos.compare Pos.compare_cont].
      rewrite !firstn_all2 by (rewrite padn_length; lia).
      eexists; split; [reflexivity|]. apply pad_differ; auto.
      rewrite memcmp_zero by now rewrite !padn_length. congruence. }
  apply le_int_inj in E; auto using padn_bytes; [|now rewrite !padn_length].
  cbn [size_ view]. unfold kPrefixSize, kInlineSize.
  set (n := Z.of_nat (length s)) in *. set (m := Z.of_nat (length t)) in *.
  assert (D : wraps 32 (wrapu 32 (n - m)) = n - m).
  { rewrite wraps_wrapu, wraps_id by (unfold in_s; pows; lia). reflexivity. }
  assert (Sz : wraps 32 (wrapu 64 (Z.min n m - 4)) = Z.min n m - 4).
  { rewrite wraps_wrapu, wraps_id by (unfold in_s; pows; lia). reflexivity. }
  rewrite D, Sz.
  destruct (Z.leb_spec (Z.min n m - 4) 0) as [I|I].
  - eexists; split; [reflexivity|]. unfold sign_is.
    rewrite (pad_same_short 4 s t E) by lia. symmetry.
    destruct (Z.compare_spec (Z.of_nat (length s)) (Z.of_nat (length t))); symmetry;
      [apply Z.compare_eq_iff|apply Z.compare_lt_iff|apply Z.compare_gt_iff]; lia.
  - rewrite !pad_long in E by lia.
    assert (LX : lex s t = lex (skipn 4 s) (skipn 4 t)).
    { rewrite <- (firstn_skipn 4 s) at 1. rewrite <- (firstn_skipn 4 t) at 1. rewrite E. apply lex_app. }
    pose proof (lex_memcmp (skipn 4 s) (skipn 4 t) (Z.to_nat (Z.min n m - 4))) as M.
    rewrite !skipn_length in M.
    specialize (M ltac:(lia)).
    replace (Z.of_nat (length s - 4) - Z.of_nat (length t - 4)) with (n - m) in M by lia.
    assert (R1 := data_suffix j1 s (Z.min n m - 4) ltac:(lia) ltac:(lia)).
    assert (R2 := data_suffix j2 t (Z.min n m - 4) ltac:(lia) ltac:(lia)).
    rewrite LX. eexists; split; [|exact M].
    destruct ((_ <=? 12) && _ && _) eqn:C.
    + rewrite !andb_true_iff in C. destruct C as [[_ C1] C2].
      unfold isInline, kInlineSize in C1, C2. apply Z.leb_le in C1. apply Z.leb_le in C2.
      rewrite view_data_short in R1, R2 by lia.
      unfold view. cbn [value_]. fold n m.
      rewrite (proj2 (Z.leb_le n 12)), (proj2 (Z.leb_le m 12)), (proj2 (Z.eqb_neq n 0)), (proj2 (Z.eqb_neq m 0)) by lia.
      cbv iota. unfold memcmp. rewrite R1, R2. cbn [obind]. reflexivity.
    + unfold memcmp. rewrite R1, R2. cbn [obind]. reflexivity.
Qed.

Definition op_holds (op : cmp_op) (c : comparison) : bool :=
  match op, c with
  | OpEqual, Eq => true | OpNotEqual, Lt => true | OpNotEqual, Gt => true
  | OpGreater, Gt => true | OpGreaterEqual, Gt => true | OpGreaterEqual, Eq => true
  | OpLess, Lt => true | OpLessEqual, Lt => true | OpLessEqual, Eq => true
  | _, _ => false
  end.

Lemma compare_string_view_spec op j1 j2 s t : bytes s -> bytes t -> short s -> short t ->
  compare_string_view op (view j1 s) (view j2 t) = Ret (op_holds op (lex s t)).
Proof.
  intros Bs Bt Ss St.
  destruct (sv_eq_spec j1 j2 s t Bs Bt (short_short32 _ Ss) (short_short32 _ St)) as (b & E & B).
  destruct (sv_compare_spec j1 j2 s t Bs Bt Ss St) as (r & C & R). unfold sign_is in R.
  pose proof (lex_eq s t) as LE.
  destruct op; unfold compare_string_view, sv_ne, sv_lt, sv_le, sv_gt, sv_ge; rewrite ?E, ?C; cbn [obind];
    f_equal.
  1,2: destruct b, (lex s t); cbn; auto; try (destruct (proj1 LE eq_refl); destruct B as [_ B];
     discriminate (B eq_refl)); exfalso; destruct B as [B _]; specialize (B eq_refl);
     apply LE in B; discriminate.
  all: rewrite <- R; destruct (Z.compare_spec r 0); cbn.
  all: try (apply Z.ltb_lt; lia); try (apply Z.ltb_ge; lia); try (apply Z.leb_le; lia); try (apply Z.leb_gt; lia).
Qed.

(** ** Predicates *)
Lemma memcmp_eqb a b : length a = length b -> (memcmp_bytes a b =? 0) = true <-> a = b.
Proof. intros. rewrite Z.eqb_eq. now apply memcmp_zero. Qed.

Lemma absl_starts_with_ok text p : absl_starts_with text p = true <-> is_prefix p text.
Proof.
  unfold is_prefix. destruct p as [|x p].
  { simpl. split; auto. intros _. now exists text. }
  unfold absl_starts_with. rewrite andb_true_iff, Nat.leb_le. split.
  - intros [L H]. apply memcmp_eqb in H; [|rewrite firstn_length; lia].
    exists (skipn (length (x :: p)) text). rewrite <- H at 1. now rewrite firstn_skipn.
  - intros [t ->]. split; [rewrite app_length; lia|].
    apply memcmp_eqb. { rewrite firstn_length, app_length. lia. }
    now rewrite firstn_app, firstn_all, Nat.sub_diag, firstn_O, app_nil_r.
Qed.

Lemma absl_ends_with_ok text p : absl_ends_with text p = true <-> is_suffix p text.
Proof.
  unfold is_suffix. destruct p as [|x p].
  { simpl. split; auto. intros _. exists text. now rewrite app_nil_r. }
  unfold absl_ends_with. rewrite andb_true_iff, Nat.leb_le. split.
  - intros [L H]. apply memcmp_eqb in H; [|rewrite skipn_length; lia].
    exists (firstn (length text - length (x :: p)) text). rewrite <- H at 2. now rewrite firstn_skipn.
  - intros [t ->]. split; [rewrite app_length; lia|].
    apply memcmp_eqb. { rewrite skipn_length, app_length. lia. }
    rewrite app_length, Nat.add_sub, skipn_app, skipn_all, Nat.sub_diag. reflexivity.
Qed.

Lemma absl_contains_ok text p : absl_contains text p = true <-> is_substring p text.
Proof.
  unfold is_substring. induction text as [|x text IH]; cbn [absl_contains]; rewrite orb_true_iff, absl_starts_with_ok.
  - split.
    + intros [[t H]|H]; [|discriminate]. exists [], t. assumption.
    + intros (a & b & H). left. destruct a; [|discriminate]. exists b. assumption.
  - rewrite IH. split.
    + intros [[t H]|(a & b & H)].
      * exists [], t. assumption.
      * exists (x :: a), b. simpl. now f_equal.
    + intros (a & b & H). destruct a as [|y a].
      * left. exists b. assumption.
      * right. simpl in H. inversion H; subst. exists a, b. reflexivity.
Qed.

Lemma tolower_lower c : absl_tolower c = lower c.
Proof.
  unfold absl_tolower, lower. destruct (Z.ltb_spec c 65), (Z.leb_spec 65 c), (Z.ltb_spec 90 c), (Z.leb_spec c 90);
    simpl; try lia.
Qed.

Lemma memcasecmp_zero a b : length a = length b -> memcasecmp a b = 0 <-> lowers a = lowers b.
Proof.
  revert b. induction a as [|x a IH]; intros [|y b] H; simpl in *; try lia; try discriminate.
  - tauto.
  - rewrite !tolower_lower. destruct (Z.eqb_spec (lower x) (lower y)) as [->|N].
    + rewrite IH by lia. split; [intros ->; auto|intros E; now inversion E].
    + split; [lia|intros E; inversion E; lia].
Qed.

Lemma map_app_inv {A B} (f : A -> B) l a b : map f l = a ++ b ->
  exists x y, l = x ++ y /\ map f x = a /\ map f y = b.
Proof.
  revert l. induction a as [|u a IH]; intros l H.
  - exists [], l. auto.
  - destruct l as [|v l]; [discriminate|]. simpl in H. inversion H; subst.
    destruct (IH l) as (x & y & -> & E1 & E2); auto. exists (v :: x), y. simpl. now rewrite E1.
Qed.

Lemma absl_starts_ic_ok text p :
  absl_starts_with_ignore_case text p = true <-> is_prefix (lowers p) (lowers text).
Proof.
  unfold is_prefix, absl_starts_with_ignore_case. rewrite andb_true_iff, Nat.leb_le, Z.eqb_eq. split.
  - intros [L H]. apply memcasecmp_zero in H; [|rewrite firstn_length; lia].
    exists (lowers (skipn (length p) text)). rewrite <- H. unfold lowers. now rewrite <- map_app, firstn_skipn.
  - intros [t H]. assert (L : (length p <= length text)%nat).
    { apply (f_equal (@length Z)) in H. unfold lowers in H. rewrite app_length, !map_length in H. lia. }
    split; auto. apply memcasecmp_zero. { rewrite firstn_length. lia. }
    apply (f_equal (firstn (length p))) in H. unfold lowers in *.
    rewrite <- firstn_map, H. rewrite firstn_app, map_length, Nat.sub_diag, firstn_O, app_nil_r.
    apply firstn_all2. rewrite map_length. lia.
Qed.

Lemma absl_contains_ic_ok text p :
  absl_contains_ignore_case text p = true <-> is_substring (lowers p) (lowers text).
Proof.
  unfold is_substring. induction text as [|x text IH]; cbn [absl_contains_ignore_case].
  - destruct (Nat.leb_spec (length p) (length (@nil Z))) as [L|L].
    + rewrite orb_true_iff, absl_starts_ic_ok. split.
      * intros [[t H]|H]; [|discriminate]. exists [], t. assumption.
      * intros (a & b & H). left. destruct a; [|discriminate]. exists b. assumption.
    + split; [discriminate|]. intros (a & b & H). apply (f_equal (@length Z)) in H.
      unfold lowers in H. rewrite !app_length, !map_length in H. lia.
  - destruct (Nat.leb_spec (length p) (length (x :: text))) as [L|L].
    + rewrite orb_true_iff, absl_starts_ic_ok, IH. split.
      * intros [[t H]|(a & b & H)].
        -- exists [], t. assumption.
        -- exists (lower x :: a), b. cbn [lowers map app]. f_equal. exact H.
      * intros (a & b & H). destruct a as [|y a].
        -- left. exists b. assumption.
        -- right. simpl in H. inversion H. exists a, b. assumption.
    + split; [discriminate|]. intros (a & b & H). apply (f_equal (@length Z)) in H.
      unfold lowers in H. rewrite !app_length, !map_length in H. lia.
Qed.

Lemma pred_view f j1 j2 s t : sv_pred f (view j1 s) (view j2 t) = Ret (f s t).
Proof. unfold sv_pred. now rewrite !data_ok. Qed.

(** ** Very long strings *)
Lemma long_empty junk s : Z.of_nat (length s) = 2 ^ 32 ->
  of_string junk s = Ret (mk_sv 0 (zeros 4) (Inlined junk)).
Proof. intros H. unfold of_string. rewrite H. reflexivity. Qed.

Lemma repeat_len (x : Z) n : 0 <= n -> Z.of_nat (length (repeat x (Z.to_nat n))) = n.
Proof. intros. rewrite repeat_length. lia. Qed.

Lemma long_view junk s : Z.of_nat (length s) = 2 ^ 31 + 4 ->
  of_string junk s = Ret (mk_sv (2 ^ 31 + 4) (firstn 4 s) (Data s)).
Proof.
  intros H. unfold of_string. rewrite H. unfold make.
  change (wrapu 32 (wraps 32 (2 ^ 31 + 4))) with (2 ^ 31 + 4).
  change (isInline (2 ^ 31 + 4)) with false. cbv iota. unfold read, kPrefixSize. rewrite H.
  change (4 <=? 2 ^ 31 + 4) with true. cbv iota. reflexivity.
Qed.

Lemma eq_props j1 j2 s t : bytes s -> bytes t -> short32 s -> short32 t ->
  exists v w b, of_string j1 s = Ret v /\ of_string j2 t = Ret w /\
                sv_eq v w = Ret b /\ (b = true <-> s = t).
Proof.
  intros Bs Bt Ss St. destruct (sv_eq_spec j1 j2 s t Bs Bt Ss St) as (b & E & B).
  exists (view j1 s), (view j2 t), b. rewrite !of_string_view by assumption. auto.
Qed.

Lemma data_props junk s : short32 s ->
  exists v, of_string junk s = Ret v /\ size_ v = Z.of_nat (length s) /\ get_string_view v = Ret s.
Proof.
  intros S. exists (view junk s). rewrite of_string_view by assumption. split; [reflexivity|].
  split; [reflexivity|]. apply data_ok.
Qed.

Lemma compare_props j1 j2 s t : bytes s -> bytes t -> short s -> short t ->
  exists v w r, of_string j1 s = Ret v /\ of_string j2 t = Ret w /\
                sv_compare v w = Ret r /\ sign_is r (lex s t).
Proof.
  intros Bs Bt Ss St. destruct (sv_compare_spec j1 j2 s t Bs Bt Ss St) as (r & E & B).
  exists (view j1 s), (view j2 t), r. rewrite !of_string_view by auto using short_short32. auto.
Qed.

Lemma relational_props op j1 j2 s t : bytes s -> bytes t -> short s -> short t ->
  exists v w, of_string j1 s = Ret v /\ of_string j2 t = Ret w /\
              compare_string_view op v w = Ret (op_holds op (lex s t)).
Proof.
  intros. exists (view j1 s), (view j2 t). rewrite !of_string_view by auto using short_short32.
  auto using compare_string_view_spec.
Qed.

Lemma eq_long_refuted j1 j2 : exists s t v w, bytes s /\ bytes t /\ s <> t /\
  of_string j1 s = Ret v /\ of_string j2 t = Ret w /\ sv_eq v w = Ret true.
Proof.
  exists [], (repeat 97 (Z.to_nat (2 ^ 32))). do 2 eexists. repeat apply conj.
  - constructor.
  - apply Forall_forall. intros x H. apply repeat_spec in H. lia.
  - intros H. apply (f_equal (fun l => Z.of_nat (length l))) in H. rewrite repeat_len in H by lia.
    simpl in H. lia.
  - apply of_string_view. unfold short32. simpl. lia.
  - apply long_empty. apply repeat_len. lia.
  - reflexivity.
Qed.

Lemma cmp_long_refuted j1 j2 : exists s t v w, bytes s /\ bytes t /\ s <> t /\
  Z.of_nat (length s) < 2 ^ 32 /\ Z.of_nat (length t) < 2 ^ 32 /\
  of_string j1 s = Ret v /\ of_string j2 t = Ret w /\ sv_compare v w = Ret 0.
Proof.
  set (k := Z.to_nat (2 ^ 31 - 1)).
  exists ([97;97;97;97] ++ repeat 97 k ++ [97]), ([97;97;97;97] ++ repeat 97 k ++ [98]).
  assert (L : forall z, Z.of_nat (length ([97;97;97;97] ++ repeat 97 k ++ [z])) = 2 ^ 31 + 4).
  { intros z. rewrite !app_length, repeat_length. unfold k. simpl length. pows. lia. }
  do 2 eexists. repeat apply conj.
  - apply Forall_forall. intros x H. rewrite !in_app_iff in H. destruct H as [H|[H|H]].
    + simpl in H. lia.
    + apply repeat_spec in H. lia.
    + simpl in H. lia.
  - apply Forall_forall. intros x H. rewrite !in_app_iff in H. destruct H as [H|[H|H]].
    + simpl in H. lia.
    + apply repeat_spec in H. lia.
    + simpl in H. lia.
  - intros H. apply app_inv_head, app_inv_head in H. discriminate.
  - rewrite L. pows. lia.
  - rewrite L. pows. lia.
  - apply long_view, L.
  - apply long_view, L.
  - reflexivity.
Qed.

Lemma pred_props f P j1 j2 s p : short32 s -> short32 p ->
  (forall a b, f a b = true <-> P b a) ->
  exists v w b, of_string j1 s = Ret v /\ of_string j2 p = Ret w /\
                sv_pred f v w = Ret b /\ (b = true <-> P p s).
Proof.
  intros Hs Hp H. exists (view j1 s), (view j2 p), (f s p).
  rewrite !of_string_view by assumption. rewrite pred_view. auto.
Qed.

Lemma contains_props j1 j2 s p : short32 s -> short32 p ->
  exists v w b, of_string j1 s = Ret v /\ of_string j2 p = Ret w /\
                contains v w = Ret b /\ (b = true <-> is_substring p s).
Proof. intros. apply pred_props; auto. apply absl_contains_ok. Qed.
Lemma starts_props j1 j2 s p : short32 s -> short32 p ->
  exists v w b, of_string j1 s = Ret v /\ of_string j2 p = Ret w /\
                starts_with v w = Ret b /\ (b = true <-> is_prefix p s).
Proof. intros. apply pred_props; auto. apply absl_starts_with_ok. Qed.
Lemma ends_props j1 j2 s p : short32 s -> short32 p ->
  exists v w b, of_string j1 s = Ret v /\ of_string j2 p = Ret w /\
                ends_with v w = Ret b /\ (b = true <-> is_suffix p s).
Proof. intros. apply pred_props; auto. apply absl_ends_with_ok. Qed.
Lemma contains_ic_props j1 j2 s p : short32 s -> short32 p ->
  exists v w b, of_string j1 s = Ret v /\ of_string j2 p = Ret w /\
                contains_ignore_case v w = Ret b /\ (b = true <-> is_substring (lowers p) (lowers s)).
Proof. intros. apply (pred_props _ (fun p s => is_substring (lowers p) (lowers s))); auto. apply absl_contains_ic_ok. Qed.

Lemma starts_ic_refuted :
  (forall j1 j2 s p, short32 s -> short32 p ->
     exists v w b, of_string j1 s = Ret v /\ of_string j2 p = Ret w /\
                   starts_with_ignore_case v w = Ret b /\ (b = true <-> is_prefix p s)) /\
  (exists s p, is_prefix (lowers p) (lowers s) /\ ~ is_prefix p s).
Proof.
  split.
  - intros. apply pred_props; auto. apply absl_starts_with_ok.
  - exists [72; 105], [104]. split; [exists [105]; reflexivity|]. intros [t H]. discriminate.
Qed.
Lemma ends_ic_refuted :
  (forall j1 j2 s p, short32 s -> short32 p ->
     exists v w b, of_string j1 s = Ret v /\ of_string j2 p = Ret w /\
                   ends_with_ignore_case v w = Ret b /\ (b = true <-> is_suffix p s)) /\
  (exists s p, is_suffix (lowers p) (lowers s) /\ ~ is_suffix p s).
Proof.
  split.
  - intros. apply pred_props; auto. apply absl_ends_with_ok.
  - exists [72; 73], [105]. split; [exists [104]; reflexivity|]. intros [t H].
    destruct t as [|a [|b t]]; try discriminate. destruct t; discriminate.
Qed.
