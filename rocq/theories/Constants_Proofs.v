(** The constants pi and e are the doubles nearest to the numbers. *)
From Coq Require Import List Arith ZArith QArith Qreals Reals Machin Lia Lra.
From Flocq Require Import Core.
From Verif Require Import Base Number_Model Scalar_Model Scalar_Spec Json_Spec.

(** ** Partial sums of alternating series, in rational numbers *)
Fixpoint qsum (u : nat -> Q) (n : nat) : Q :=
  match n with O => u O | S m => Qred (qsum u m + (if Nat.even n then u n else - u n))%Q end.
Lemma even_pow n : ((-1) ^ n)%R = if Nat.even n then 1%R else (-1)%R.
Proof.
  induction n as [|n IH]; [reflexivity|]. rewrite Nat.even_succ, <- Nat.negb_even. cbn [pow]. rewrite IH. destruct (Nat.even n); cbn [negb]; ring.
Qed.
Lemma qsum_ok (u : nat -> Q) (v : nat -> R) : (forall n, Q2R (u n) = v n) -> forall n, Q2R (qsum u n) = sum_f_R0 (tg_alt v) n.
Proof.
  intros E. induction n as [|n IH].
  - cbn [qsum sum_f_R0]. unfold tg_alt. cbn [pow]. rewrite E. ring.
  - cbn [sum_f_R0]. rewrite <- IH. cbn [qsum].
    rewrite (Qeq_eqR _ _ (Qred_correct _)), Q2R_plus. f_equal. unfold tg_alt. rewrite even_pow, <- E. destruct (Nat.even (S n)); [ring|]. rewrite Q2R_opp. ring.
Qed.
Lemma q_le a b x y : Q2R a = x -> Q2R b = y -> Qle_bool a b = true -> (x <= y)%R.
Proof. intros <- <- H. apply Qle_Rle. now apply Qle_bool_iff. Qed.

Fixpoint qpow (d : positive) (n : nat) : positive := match n with O => 1 | S m => d * qpow d m end.
Lemma qpow_ok d n : IZR (Zpos (qpow d n)) = (IZR (Zpos d) ^ n)%R.
Proof. induction n as [|n IH]; cbn [qpow pow]; [reflexivity|]. now rewrite Pos2Z.inj_mul, mult_IZR, IH. Qed.
Definition q_atan (d : positive) (n : nat) : Q := 1 # (qpow d (2 * n + 1) * Pos.of_nat (2 * n + 1)).
Lemma q_atan_ok d n : Q2R (q_atan d n) = Ratan_seq (/ IZR (Zpos d)) n.
Proof.
  unfold q_atan, Ratan_seq, Q2R. cbn [Qnum Qden]. rewrite Pos2Z.inj_mul, mult_IZR, qpow_ok.
  assert (P : IZR (Z.pos d) <> 0%R) by (apply IZR_neq; discriminate).
  assert (I : IZR (Z.pos (Pos.of_nat (2 * n + 1))) = INR (2 * n + 1)). { rewrite INR_IZR_INZ. f_equal. lia. }
  assert (N : INR (2 * n + 1) <> 0%R) by (apply not_0_INR; lia).
  rewrite I. rewrite <- Rinv_pow by exact P. field. split; [apply pow_nonzero; exact P|exact N].
Qed.
Definition q_pi (n : nat) : Q := (2 * q_atan 3 n + q_atan 7 n)%Q.
Lemma q_pi_ok n : Q2R (q_pi n) = PI_2_3_7_tg n.
Proof.
  unfold q_pi, PI_2_3_7_tg. rewrite Q2R_plus, Q2R_mult, !q_atan_ok. f_equal. f_equal. unfold Q2R. cbn. lra.
Qed.
Definition near (x : R) (m : Z) : Prop := (IZR (4 * m - 2) / IZR (2 ^ 53) < x < IZR (4 * m + 2) / IZR (2 ^ 53))%R.
Lemma q_lt a b x y : Q2R a = x -> Q2R b = y -> Qle_bool b a = false -> (x < y)%R.
Proof. intros <- <- H. apply Qlt_Rlt. apply Qnot_le_lt. intros L. apply Qle_bool_iff in L. congruence. Qed.
Lemma pi_near : near PI 7074237752028440.
Proof.
  destruct (PI_2_3_7_ineq 8) as (L & U). rewrite <- (qsum_ok q_pi _ q_pi_ok) in L, U.
  assert (A : (Q2R (14148475504056879 # (4 * 2 ^ 52)) < Q2R (qsum q_pi (S (2 * 8))))%R) by (apply (q_lt _ _ _ _ eq_refl eq_refl); vm_compute; reflexivity).
  assert (B : (Q2R (qsum q_pi (2 * 8)) < Q2R (14148475504056881 # (4 * 2 ^ 52)))%R) by (apply (q_lt _ _ _ _ eq_refl eq_refl); vm_compute; reflexivity).
  unfold Q2R at 1 in A. unfold Q2R at 2 in B. cbn [Qnum Qden] in A, B.
  change (Z.pos (4 * 2 ^ 52)) with (2 ^ 54)%Z in A, B. change (2 ^ 54)%Z with (4 * 2 ^ 52)%Z in A, B. rewrite mult_IZR in A, B. unfold near. change (2 ^ 53)%Z with (2 * 2 ^ 52)%Z. rewrite mult_IZR.
  set (p := IZR (2 ^ 52)) in *. assert (P : (0 < p)%R) by (apply IZR_lt; reflexivity).
  set (s := Q2R (qsum q_pi (S (2 * 8)))) in *. set (t := Q2R (qsum q_pi (2 * 8))) in *. clearbody s t p.
  assert (E : forall z : R, (z * / (4 * p) = / 4 * (z * / p))%R) by (intros; field; lra).
  rewrite E in A, B.
  split.
  - apply Rle_lt_trans with (4 * (/ 4 * (14148475504056879 * / p)))%R; [|lra]. right. field_simplify; [|lra|lra]. change (4 * 7074237752028440 - 2)%Z with 28296951008113758%Z. field; lra.
  - apply Rlt_le_trans with (4 * (/ 4 * (14148475504056881 * / p)))%R; [lra|]. right. change (4 * 7074237752028440 + 2)%Z with 28296951008113762%Z. field; lra.
Qed.

(** e: 1/e is an alternating series *)
Fixpoint qfact (n : nat) : positive := match n with O => 1 | S m => Pos.of_nat n * qfact m end.
Lemma qfact_ok n : IZR (Zpos (qfact n)) = INR (fact n).
Proof.
  induction n as [|n IH]; [reflexivity|]. change (qfact (S n)) with (Pos.of_nat (S n) * qfact n)%positive. change (fact (S n)) with (S n * fact n)%nat.
  rewrite Pos2Z.inj_mul, mult_IZR, mult_INR, IH. f_equal. rewrite INR_IZR_INZ. f_equal. lia.
Qed.
Definition q_e (n : nat) : Q := 1 # qfact n.
Lemma q_e_ok n : Q2R (q_e n) = (/ INR (fact n))%R.
Proof. unfold q_e, Q2R. cbn [Qnum Qden]. rewrite qfact_ok. ring. Qed.
Lemma inv_e N : (sum_f_R0 (tg_alt (fun n => / INR (fact n))) (S (2 * N)) <= exp (-1) <= sum_f_R0 (tg_alt (fun n => / INR (fact n))) (2 * N))%R.
Proof.
  apply alternated_series_ineq.
  - intros n. apply Rinv_le_contravar; [apply INR_fact_lt_0|]. apply le_INR. apply fact_le. lia.
  - apply (Un_cv_ext (fun n => (1 ^ n / INR (fact n))%R)); [intros n; rewrite pow1; unfold Rdiv; ring|apply cv_speed_pow_fact].
  - pose proof (proj2_sig (exist_exp (-1))) as H. unfold exp. unfold exp_in, infinite_sum in H. intros eps E. destruct (H eps E) as (M & HM). exists M. intros n Hn. specialize (HM n Hn). unfold R_dist in *.
    rewrite (sum_eq _ (fun i => (/ INR (fact i) * (-1) ^ i)%R)); [exact HM|]. intros i _. unfold tg_alt. ring.
Qed.
Lemma e_near : near (exp 1) 6121026514868073.
Proof.
  destruct (inv_e 10) as (L & U). rewrite <- (qsum_ok q_e _ q_e_ok) in L, U.
  assert (A : (Q2R (qsum q_e (2 * 10)) < Q2R (2 ^ 53 # (4 * 6121026514868073 - 2)))%R) by (apply (q_lt _ _ _ _ eq_refl eq_refl); vm_compute; reflexivity).
  assert (B : (Q2R (2 ^ 53 # (4 * 6121026514868073 + 2)) < Q2R (qsum q_e (S (2 * 10))))%R) by (apply (q_lt _ _ _ _ eq_refl eq_refl); vm_compute; reflexivity).
  unfold Q2R at 2 in A. unfold Q2R at 1 in B. cbn [Qnum Qden] in A, B.
  pose proof (exp_pos 1) as P. assert (E : (exp (-1) * exp 1 = 1)%R) by (rewrite <- exp_plus; replace (-1 + 1)%R with 0%R by ring; apply exp_0).
  assert (Q : (0 < IZR (2 ^ 53))%R) by (apply IZR_lt; reflexivity).
  set (s := Q2R (qsum q_e (S (2 * 10)))) in *. set (t := Q2R (qsum q_e (2 * 10))) in *. clearbody s t.
  unfold near. change (Z.pos (4 * 6121026514868073 - 2)) with (4 * 6121026514868073 - 2)%Z in A. change (Z.pos (4 * 6121026514868073 + 2)) with (4 * 6121026514868073 + 2)%Z in B.
  assert (A0 : (0 < IZR (4 * 6121026514868073 - 2))%R) by (apply IZR_lt; reflexivity). assert (B0 : (0 < IZR (4 * 6121026514868073 + 2))%R) by (apply IZR_lt; reflexivity).
  set (a := IZR (4 * 6121026514868073 - 2)) in *. set (b := IZR (4 * 6121026514868073 + 2)) in *. set (p := IZR (2 ^ 53)) in *. clearbody a b p.
  assert (A1 : (exp (-1) < p * / a)%R) by lra. assert (B1 : (p * / b < exp (-1))%R) by lra.
  split.
  - apply (Rmult_lt_reg_l p); [exact Q|]. apply (Rmult_lt_compat_r (exp 1)) in A1; [|exact P]. rewrite E in A1. apply (Rmult_lt_compat_l a) in A1; [|exact A0]. replace (a * (p * / a * exp 1))%R with (p * exp 1)%R in A1 by (field; lra). replace (p * (a / p))%R with a by (field; lra). lra.
  - apply (Rmult_lt_reg_l p); [exact Q|]. apply (Rmult_lt_compat_r (exp 1)) in B1; [|exact P]. rewrite E in B1. apply (Rmult_lt_compat_l b) in B1; [|exact B0]. replace (b * (p * / b * exp 1))%R with (p * exp 1)%R in B1 by (field; lra). replace (p * (b / p))%R with b by (field; lra). lra.
Qed.
Lemma near_rounded x m : near x m -> (2 ^ 52 < m < 2 ^ 53 - 1)%Z -> rounded F64 x = F2R (Float radix2 m (-51)).
Proof.
  intros (L & U) (M1 & M2). unfold rounded.
  assert (P : IZR (2 ^ 53) = bpow radix2 53) by reflexivity. rewrite P in L, U.
  assert (L' : (IZR (4 * m - 2) < x * bpow radix2 53)%R). { apply (Rmult_lt_compat_r (bpow radix2 53)) in L; [|apply bpow_gt_0]. unfold Rdiv in L. rewrite Rmult_assoc, Rinv_l, Rmult_1_r in L; [exact L|]. apply Rgt_not_eq, bpow_gt_0. }
  assert (U' : (x * bpow radix2 53 < IZR (4 * m + 2))%R). { apply (Rmult_lt_compat_r (bpow radix2 53)) in U; [|apply bpow_gt_0]. unfold Rdiv in U. rewrite Rmult_assoc, Rinv_l, Rmult_1_r in U; [exact U|]. apply Rgt_not_eq, bpow_gt_0. }
  assert (E : bpow radix2 53 = (4 * bpow radix2 51)%R) by (change 53%Z with (2 + 51)%Z; now rewrite bpow_plus).
  rewrite E in L', U'. rewrite minus_IZR, mult_IZR in L'. rewrite plus_IZR, mult_IZR in U'.
  assert (X : (Rabs (x * bpow radix2 51 - IZR m) < / 2)%R) by (apply Rabs_def1; lra).
  assert (MG : mag radix2 x = 2%Z :> Z).
  { apply mag_unique_pos. replace (bpow radix2 (2 - 1)) with 2%R by reflexivity. replace (bpow radix2 2) with 4%R by reflexivity.
    assert (M1' : (4503599627370497 <= m)%Z) by lia. assert (M2' : (m <= 9007199254740990)%Z) by lia. apply IZR_le in M1', M2'. replace (bpow radix2 51) with 2251799813685248%R in L', U' by reflexivity. split; lra. }
  unfold round, scaled_mantissa, cexp. rewrite MG. change (FLT_exp (3 - fmt_emax F64 - fmt_prec F64) (fmt_prec F64) 2) with (-51)%Z. change (- -51)%Z with 51%Z. f_equal. f_equal. apply Znearest_imp. exact X.
Qed.
Theorem pi_rounded : rounded F64 PI = F2R (Float radix2 7074237752028440 (-51)).
Proof. apply near_rounded; [exact pi_near|split; reflexivity]. Qed.
Theorem e_rounded : rounded F64 (exp 1) = F2R (Float radix2 6121026514868073 (-51)).
Proof. apply near_rounded; [exact e_near|split; reflexivity]. Qed.
