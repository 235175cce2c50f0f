(** Proofs for C73. *)
From Coq Require Import List Bool Arith ZArith Reals Permutation Lia Lra Psatz.
Import ListNotations.
From Flocq Require Import Core BinarySingleNaN Relative Plus_error.
From Verif Require Import Base Distance_Model Distance_Spec.

Section Lists.
Lemma combine_app {A B} : forall (a a' : list A) (b b' : list B), length a = length b -> combine (a ++ a') (b ++ b') = combine a b ++ combine a' b'.
Proof. induction a as [|x a IH]; intros a' [|y b] b' H; cbn in *; try lia; [reflexivity|]. rewrite IH by lia. reflexivity. Qed.
Lemma firstn_plus {A} : forall n m (l : list A), firstn (n + m) l = firstn n l ++ firstn m (skipn n l).
Proof. induction n as [|n IH]; intros m l; cbn; [reflexivity|]. destruct l as [|x l]; cbn; [rewrite firstn_nil; reflexivity|]. rewrite IH. reflexivity. Qed.
Lemma combine_repeat {A B} : forall n (a : A) (b : B), combine (repeat a n) (repeat b n) = repeat (a, b) n.
Proof. induction n as [|n IH]; intros; cbn; [reflexivity|]. rewrite IH. reflexivity. Qed.
Lemma concat_perm {A} : forall l l' : list (list A), Permutation l l' -> Permutation (concat l) (concat l').
Proof.
  induction 1; cbn; auto.
  - apply Permutation_app_head; auto.
  - rewrite !app_assoc. apply Permutation_app_tail. apply Permutation_app_comm.
  - eapply Permutation_trans; eauto.
Qed.
Lemma Forall2_combine_map {A B C} (P : A -> B -> Prop) (f : C -> A) (g : C -> B) l : (forall x, In x l -> P (f x) (g x)) -> Forall2 P (map f l) (map g l).
Proof. induction l as [|x l IH]; intros H; cbn; constructor; [apply H; left; reflexivity|]. apply IH. intros y Hy. apply H. right. exact Hy. Qed.
Lemma F2len {A B} (P : A -> B -> Prop) l m : Forall2 P l m -> length l = length m.
Proof. induction 1; cbn; auto. Qed.
Lemma Forall2_flip {A B} (P : A -> B -> Prop) l m : Forall2 P l m -> Forall2 (fun b a => P a b) m l.
Proof. induction 1; constructor; auto. Qed.
End Lists.

Section Proofs.
Local Open Scope R_scope.
Variables prec emax : Z.
Context (prec_gt_0_ : Prec_gt_0 prec) (prec_lt_emax_ : Prec_lt_emax prec emax).
Notation F := (binary_float prec emax).
Notation fma := (fma prec emax prec_gt_0_ prec_lt_emax_).
Notation add := (add prec emax prec_gt_0_ prec_lt_emax_).
Notation mul := (mul prec emax prec_gt_0_ prec_lt_emax_).
Notation sub := (sub prec emax prec_gt_0_ prec_lt_emax_).
Notation div := (div prec emax prec_gt_0_ prec_lt_emax_).
Notation fsqrt := (Distance_Model.sqrt prec emax prec_gt_0_ prec_lt_emax_).
Notation zero := (zero prec emax).
Notation summed := (summed prec emax prec_gt_0_ prec_lt_emax_).
Notation dotted := (dotted prec emax prec_gt_0_ prec_lt_emax_).
Notation is_int := (is_int prec emax).
Notation value := (value prec emax).
Notation finite := (finite prec emax).
Notation rounded := (rounded prec emax).
Notation fexp := (SpecFloat.fexp prec emax).
Let fexp_valid : Valid_exp fexp := FLT_exp_valid (3 - emax - prec) prec.
Local Existing Instance fexp_valid.

Lemma emin_le : (3 - emax - prec <= 0)%Z.
Proof. unfold Prec_gt_0, Prec_lt_emax in *. lia. Qed.
Lemma pow_bpow : IZR (2 ^ prec) = bpow radix2 prec.
Proof. change 2%Z with (radix_val radix2). apply IZR_Zpower. unfold Prec_gt_0 in *. lia. Qed.
Lemma fmt_int n : (Z.abs n <= 2 ^ prec)%Z -> generic_format radix2 fexp (IZR n).
Proof.
  intros H. pose proof emin_le as E. pose proof prec_gt_0_ as P0. unfold Prec_gt_0 in P0.
  destruct (Z.eq_dec (Z.abs n) (2 ^ prec)) as [e|ne].
  - assert (D : (n = 2 ^ prec \/ n = - 2 ^ prec)%Z) by lia.
    assert (G : generic_format radix2 fexp (bpow radix2 prec)).
    { apply generic_format_bpow. unfold SpecFloat.fexp, SpecFloat.emin. lia. }
    destruct D as [ -> | -> ]; [rewrite pow_bpow; exact G|]. rewrite opp_IZR, pow_bpow. apply generic_format_opp. exact G.
  - change fexp with (FLT_exp (3 - emax - prec) prec). apply generic_format_FLT. exists (Float radix2 n 0).
    + unfold F2R. cbn. lra.
    + cbn. lia.
    + cbn. exact E.
Qed.
Lemma round_int n : (Z.abs n <= 2 ^ prec)%Z -> rounded (IZR n) = IZR n.
Proof. intros H. unfold Distance_Spec.rounded. apply round_generic; [apply valid_rnd_N|]. apply fmt_int. exact H. Qed.
Lemma int_small n : (Z.abs n <= 2 ^ prec)%Z -> (Rabs (IZR n) < bpow radix2 emax)%R.
Proof.
  intros H. rewrite <- abs_IZR. apply Rle_lt_trans with (bpow radix2 prec).
  - rewrite <- pow_bpow. apply IZR_le. exact H.
  - apply bpow_lt. exact prec_lt_emax_.
Qed.
Lemma lt_bool n : (Z.abs n <= 2 ^ prec)%Z -> Rlt_bool (Rabs (rounded (IZR n))) (bpow radix2 emax) = true.
Proof. intros H. apply Rlt_bool_true. rewrite round_int by exact H. apply int_small. exact H. Qed.

(* -- exact on integers -- *)
Lemma int_zero : is_int zero 0.
Proof. split; reflexivity. Qed.
Lemma int_add x y a b : is_int x a -> is_int y b -> (Z.abs (a + b) <= 2 ^ prec)%Z -> is_int (add x y) (a + b).
Proof.
  intros [Fx Vx] [Fy Vy] H. unfold Distance_Spec.value in *. pose proof (Bplus_correct prec emax _ _ mode_NE x y Fx Fy) as C. rewrite Vx, Vy in C.
  rewrite <- plus_IZR in C. change (round radix2 fexp (round_mode mode_NE) (IZR (a + b))) with (rounded (IZR (a + b))) in C.
  rewrite lt_bool, round_int in C by exact H. destruct C as (V & Fi & _). split; [exact Fi|exact V].
Qed.
Lemma int_sub x y a b : is_int x a -> is_int y b -> (Z.abs (a - b) <= 2 ^ prec)%Z -> is_int (sub x y) (a - b).
Proof.
  intros [Fx Vx] [Fy Vy] H. unfold Distance_Spec.value in *. pose proof (Bminus_correct prec emax _ _ mode_NE x y Fx Fy) as C. rewrite Vx, Vy in C.
  rewrite <- minus_IZR in C. change (round radix2 fexp (round_mode mode_NE) (IZR (a - b))) with (rounded (IZR (a - b))) in C.
  rewrite lt_bool, round_int in C by exact H. destruct C as (V & Fi & _). split; [exact Fi|exact V].
Qed.
Lemma int_mul x y a b : is_int x a -> is_int y b -> (Z.abs (a * b) <= 2 ^ prec)%Z -> is_int (mul x y) (a * b).
Proof.
  intros [Fx Vx] [Fy Vy] H. unfold Distance_Spec.value, Distance_Spec.finite in *. pose proof (Bmult_correct prec emax _ _ mode_NE x y) as C. rewrite Vx, Vy in C.
  rewrite <- mult_IZR in C. change (round radix2 fexp (round_mode mode_NE) (IZR (a * b))) with (rounded (IZR (a * b))) in C.
  rewrite lt_bool, round_int in C by exact H. destruct C as (V & Fi & _). rewrite Fx, Fy in Fi. split; [exact Fi|exact V].
Qed.
Lemma int_fma x y z a b c : is_int x a -> is_int y b -> is_int z c -> (Z.abs (a * b + c) <= 2 ^ prec)%Z -> is_int (fma x y z) (a * b + c).
Proof.
  intros [Fx Vx] [Fy Vy] [Fz Vz] H. unfold Distance_Spec.value, Distance_Spec.finite in *. pose proof (Bfma_correct prec emax _ _ mode_NE x y z Fx Fy Fz) as C. cbv zeta in C.
  rewrite Vx, Vy, Vz in C.
  rewrite <- mult_IZR, <- plus_IZR in C. change (round radix2 fexp (round_mode mode_NE) (IZR (a * b + c))) with (rounded (IZR (a * b + c))) in C.
  rewrite lt_bool, round_int in C by exact H. destruct C as (V & Fi & _). split; [exact Fi|exact V].
Qed.
Lemma int_abs x a : is_int x a -> is_int (Babs x) (Z.abs a).
Proof.
  intros [Fx Vx]. unfold Distance_Spec.is_int, Distance_Spec.value, Distance_Spec.finite in *. split; [rewrite is_finite_Babs; exact Fx|]. rewrite B2R_Babs, Vx, <- abs_IZR. reflexivity.
Qed.

Notation zabs l := (zsum (map Z.abs l)).
Lemma zsum_app l l' : zsum (l ++ l') = (zsum l + zsum l')%Z.
Proof. unfold zsum. induction l as [|x l IH]; cbn; lia. Qed.
Lemma zsum_perm l l' : Permutation l l' -> zsum l = zsum l'.
Proof. unfold zsum. induction 1; cbn; lia. Qed.
Lemma zabs_bound l : (Z.abs (zsum l) <= zabs l)%Z.
Proof. unfold zsum. induction l as [|x l IH]; cbn; lia. Qed.
Lemma zabs_nonneg l : (0 <= zabs l)%Z.
Proof. unfold zsum. induction l as [|x l IH]; cbn; lia. Qed.

Lemma summed_int d l x : summed d l x -> forall zs, Forall2 is_int l zs -> (zabs zs <= 2 ^ prec)%Z -> is_int x (zsum zs).
Proof.
  induction 1 as [d x|d l l' x y _ IH1 _ IH2|d l l' x P _ IH]; intros zs HF HB.
  - inversion HF as [|a b c e Hab Hce]; subst. inversion Hce; subst. cbn. rewrite Z.add_0_r. exact Hab.
  - apply Forall2_app_inv_l in HF. destruct HF as (z1 & z2 & F1 & F2 & ->). rewrite map_app, zsum_app in HB. rewrite zsum_app.
    pose proof (zabs_nonneg z1). pose proof (zabs_nonneg z2). pose proof (zabs_bound z1). pose proof (zabs_bound z2).
    apply int_add; [apply IH1; [exact F1|lia]|apply IH2; [exact F2|lia]|lia].
  - destruct (Permutation_Forall2 (Permutation_sym P) HF) as (z' & P' & F'). rewrite (zsum_perm _ _ P'). apply IH; [exact F'|].
    rewrite <- (zsum_perm _ _ (Permutation_map Z.abs P')). exact HB.
Qed.
Definition pint (p : F * F) (z : Z * Z) : Prop := is_int (fst p) (fst z) /\ is_int (snd p) (snd z).
Definition zprod (p : Z * Z) : Z := (fst p * snd p)%Z.
Lemma dotted_int d l x : dotted d l x -> forall zs, Forall2 pint l zs -> (zabs (map zprod zs) <= 2 ^ prec)%Z -> is_int x (zsum (map zprod zs)).
Proof.
  induction 1 as [d|d l x y z _ IH|d x y|d l l' x y _ IH1 _ IH2|d l l' x P _ IH]; intros zs HF HB.
  - inversion HF; subst. exact int_zero.
  - inversion HF as [|p [a b] l0 zs' [Ha Hb] Hl]; subst. cbn in Ha, Hb, HB |- *. unfold zprod in HB at 1; cbn in HB. unfold zprod at 1; cbn.
    pose proof (zabs_nonneg (map zprod zs')) as B1. pose proof (zabs_bound (map zprod zs')) as B2.
    unfold zsum in *. apply int_fma; [exact Ha|exact Hb|apply IH; [exact Hl|lia]|]. lia.
  - inversion HF as [|p [a b] l0 zs' [Ha Hb] Hl]; subst. inversion Hl; subst. cbn in *. unfold zprod in *. cbn in *. rewrite Z.add_0_r. apply int_mul; [exact Ha|exact Hb|lia].
  - apply Forall2_app_inv_l in HF. destruct HF as (z1 & z2 & F1 & F2 & ->). rewrite !map_app, zsum_app in HB. rewrite map_app, zsum_app.
    pose proof (zabs_nonneg (map zprod z1)). pose proof (zabs_nonneg (map zprod z2)). pose proof (zabs_bound (map zprod z1)). pose proof (zabs_bound (map zprod z2)).
    apply int_add; [apply IH1; [exact F1|lia]|apply IH2; [exact F2|lia]|lia].
  - destruct (Permutation_Forall2 (Permutation_sym P) HF) as (z' & P' & F'). rewrite (zsum_perm _ _ (Permutation_map zprod P')). apply IH; [exact F'|].
    rewrite <- (zsum_perm _ _ (Permutation_map Z.abs (Permutation_map zprod P'))). exact HB.
Qed.

(* -- trees -- *)
Lemma summed_mono d l x : summed d l x -> forall e, (d <= e)%nat -> summed e l x.
Proof.
  induction 1 as [d x|d l l' x y _ IH1 _ IH2|d l l' x P _ IH]; intros e He.
  - constructor.
  - destruct e as [|e]; [lia|]. constructor; [apply IH1; lia|apply IH2; lia].
  - apply (s_perm _ _ _ _ e l l' x P). apply IH. exact He.
Qed.
Lemma dotted_mono d l x : dotted d l x -> forall e, (d <= e)%nat -> dotted e l x.
Proof.
  induction 1 as [d|d l x y z _ IH|d x y|d l l' x y _ IH1 _ IH2|d l l' x P _ IH]; intros e He.
  - constructor.
  - destruct e as [|e]; [lia|]. constructor. apply IH. lia.
  - destruct e as [|e]; [lia|]. constructor.
  - destruct e as [|e]; [lia|]. constructor; [apply IH1; lia|apply IH2; lia].
  - apply (d_perm _ _ _ _ e l l' x P). apply IH. exact He.
Qed.
Lemma dotted_sum d xs x : summed d xs x -> forall e cols, Forall2 (dotted e) cols xs -> dotted (d + e) (concat cols) x.
Proof.
  induction 1 as [d x|d l l' x y _ IH1 _ IH2|d l l' x P _ IH]; intros e cols HF.
  - inversion HF as [|c y cs ys Hc Hcs]; subst. inversion Hcs; subst. cbn. rewrite app_nil_r. apply (dotted_mono _ _ _ Hc). lia.
  - apply Forall2_app_inv_r in HF. destruct HF as (c1 & c2 & F1 & F2 & ->). rewrite concat_app. constructor; [apply IH1; exact F1|apply IH2; exact F2].
  - apply Forall2_flip in HF. destruct (Permutation_Forall2 (Permutation_sym P) HF) as (c' & P' & F'). apply Forall2_flip in F'. cbv beta in F'.
    apply (d_perm _ _ _ _ _ (concat c') (concat cols)); [apply concat_perm; apply Permutation_sym; exact P'|]. apply IH. exact F'.
Qed.

(* -- rounding errors -- *)
Notation u := (unit_roundoff prec).
Notation eta := (smallest prec emax).
Lemma u_pos : (0 <= u)%R. Proof. apply bpow_ge_0. Qed.
Lemma eta_pos : (0 <= eta)%R. Proof. apply bpow_ge_0. Qed.
Lemma u_half : (/ 2 * bpow radix2 (- prec + 1) = u)%R.
Proof. unfold unit_roundoff. rewrite bpow_plus, bpow_1. change (IZR radix2) with 2%R. lra. Qed.
Lemma eta_half : (/ 2 * bpow radix2 (3 - emax - prec) = eta)%R.
Proof.
  unfold smallest. replace (3 - emax - prec)%Z with ((3 - emax - prec - 1) + 1)%Z at 1 by ring. rewrite bpow_plus, bpow_1. change (IZR radix2) with 2%R. lra.
Qed.
Lemma round_err x : (Rabs (rounded x - x) <= u * Rabs x + eta)%R.
Proof.
  assert (P : (0 < prec)%Z) by exact prec_gt_0_.
  destruct (error_N_FLT radix2 (3 - emax - prec) prec P (fun t => negb (Z.even t)) x) as (e & h & He & Hh & _ & E).
  unfold Distance_Spec.rounded. change fexp with (FLT_exp (3 - emax - prec) prec). rewrite E. rewrite u_half in He. rewrite eta_half in Hh.
  replace (x * (1 + e) + h - x)%R with (x * e + h)%R by ring. eapply Rle_trans; [apply Rabs_triang|]. rewrite Rabs_mult.
  pose proof (Rabs_pos x). nra.
Qed.
Lemma plus_err x y : generic_format radix2 fexp x -> generic_format radix2 fexp y -> (Rabs (rounded (x + y) - (x + y)) <= u * Rabs (x + y))%R.
Proof.
  intros Fx Fy. destruct (FLT_plus_error_N_ex radix2 (3 - emax - prec) prec (fun t => negb (Z.even t)) x y Fx Fy) as (e & He & E).
  unfold Distance_Spec.rounded. change fexp with (FLT_exp (3 - emax - prec) prec). rewrite E.
  replace ((x + y) * (1 + e) - (x + y))%R with ((x + y) * e)%R by ring. rewrite Rabs_mult.
  assert (Hu : (Rabs e <= u)%R).
  { eapply Rle_trans; [exact He|]. unfold u_ro. rewrite u_half. pose proof u_pos as U.
    apply Rmult_le_reg_r with (1 + u)%R; [lra|]. unfold Rdiv. rewrite Rmult_assoc, Rinv_l by lra. nra. }
  pose proof (Rabs_pos (x + y)). nra.
Qed.
Lemma format (x : F) : generic_format radix2 fexp (B2R x).
Proof. apply generic_format_B2R. Qed.

Lemma add_err x y M : finite x -> finite y -> (1 + u) * Rabs (value x + value y) <= M -> M < bpow radix2 emax ->
  finite (add x y) /\ Rabs (value (add x y) - (value x + value y)) <= u * Rabs (value x + value y) /\ value (add x y) = rounded (value x + value y).
Proof.
  intros Fx Fy HM HL. pose proof (plus_err _ _ (format x) (format y)) as E. fold (value x) in E. fold (value y) in E.
  pose proof (Bplus_correct prec emax _ _ mode_NE x y Fx Fy) as C.
  change (round radix2 fexp (round_mode mode_NE) (B2R x + B2R y)) with (rounded (value x + value y)) in C.
  rewrite Rlt_bool_true in C.
  - destruct C as (V & Fi & _). split; [exact Fi|]. assert (V' : value (add x y) = rounded (value x + value y)) by exact V. rewrite V'. split; [exact E|reflexivity].
  - apply Rle_lt_trans with M; [|exact HL]. eapply Rle_trans; [|exact HM].
    replace (rounded (value x + value y)) with ((rounded (value x + value y) - (value x + value y)) + (value x + value y))%R by ring.
    eapply Rle_trans; [apply Rabs_triang|]. lra.
Qed.
Lemma fma_err x y z M : finite x -> finite y -> finite z -> (1 + u) * Rabs (value x * value y + value z) + eta <= M -> M < bpow radix2 emax ->
  finite (fma x y z) /\ Rabs (value (fma x y z) - (value x * value y + value z)) <= u * Rabs (value x * value y + value z) + eta
  /\ value (fma x y z) = rounded (value x * value y + value z).
Proof.
  intros Fx Fy Fz HM HL. pose proof (round_err (value x * value y + value z)) as E.
  pose proof (Bfma_correct prec emax _ _ mode_NE x y z Fx Fy Fz) as C. cbv zeta in C.
  change (round radix2 fexp (round_mode mode_NE) (B2R x * B2R y + B2R z)) with (rounded (value x * value y + value z)) in C.
  rewrite Rlt_bool_true in C.
  - destruct C as (V & Fi & _). split; [exact Fi|]. assert (V' : value (fma x y z) = rounded (value x * value y + value z)) by exact V. rewrite V'. split; [exact E|reflexivity].
  - apply Rle_lt_trans with M; [|exact HL]. eapply Rle_trans; [|exact HM].
    replace (rounded (value x * value y + value z)) with ((rounded (value x * value y + value z) - (value x * value y + value z)) + (value x * value y + value z))%R by ring.
    eapply Rle_trans; [apply Rabs_triang|]. lra.
Qed.
Lemma mul_err x y M : finite x -> finite y -> (1 + u) * Rabs (value x * value y) + eta <= M -> M < bpow radix2 emax ->
  finite (mul x y) /\ Rabs (value (mul x y) - (value x * value y)) <= u * Rabs (value x * value y) + eta /\ value (mul x y) = rounded (value x * value y).
Proof.
  intros Fx Fy HM HL. pose proof (round_err (value x * value y)) as E.
  pose proof (Bmult_correct prec emax _ _ mode_NE x y) as C.
  change (round radix2 fexp (round_mode mode_NE) (B2R x * B2R y)) with (rounded (value x * value y)) in C.
  rewrite Rlt_bool_true in C.
  - destruct C as (V & Fi & _). rewrite Fx, Fy in Fi. split; [exact Fi|]. assert (V' : value (mul x y) = rounded (value x * value y)) by exact V. rewrite V'. split; [exact E|reflexivity].
  - apply Rle_lt_trans with M; [|exact HL]. eapply Rle_trans; [|exact HM].
    replace (rounded (value x * value y)) with ((rounded (value x * value y) - (value x * value y)) + (value x * value y))%R by ring.
    eapply Rle_trans; [apply Rabs_triang|]. lra.
Qed.
Lemma sub_err x y M : finite x -> finite y -> (1 + u) * Rabs (value x - value y) <= M -> M < bpow radix2 emax ->
  finite (sub x y) /\ Rabs (value (sub x y) - (value x - value y)) <= u * Rabs (value x - value y).
Proof.
  intros Fx Fy HM HL. pose proof (plus_err _ _ (format x) (generic_format_opp _ _ _ (format y))) as E. fold (value x) in E. fold (value y) in E.
  change (value x + - value y)%R with (value x - value y)%R in E.
  pose proof (Bminus_correct prec emax _ _ mode_NE x y Fx Fy) as C.
  change (round radix2 fexp (round_mode mode_NE) (B2R x - B2R y)) with (rounded (value x - value y)) in C.
  rewrite Rlt_bool_true in C.
  - destruct C as (V & Fi & _). split; [exact Fi|]. unfold Distance_Spec.value at 1. unfold Distance_Model.sub. rewrite V. exact E.
  - apply Rle_lt_trans with M; [|exact HL]. eapply Rle_trans; [|exact HM].
    replace (rounded (value x - value y)) with ((rounded (value x - value y) - (value x - value y)) + (value x - value y))%R by ring.
    eapply Rle_trans; [apply Rabs_triang|]. lra.
Qed.

Notation rabs l := (rsum (map Rabs l)).
Lemma rsum_app l l' : rsum (l ++ l') = (rsum l + rsum l')%R.
Proof. unfold rsum. induction l as [|x l IH]; cbn; lra. Qed.
Lemma rsum_perm l l' : Permutation l l' -> rsum l = rsum l'.
Proof. unfold rsum. induction 1; cbn; lra. Qed.
Lemma rabs_bound l : (Rabs (rsum l) <= rabs l)%R.
Proof. unfold rsum. induction l as [|x l IH]; cbn; [rewrite Rabs_R0; lra|]. eapply Rle_trans; [apply Rabs_triang|]. lra. Qed.
Lemma rabs_nonneg l : (0 <= rabs l)%R.
Proof. unfold rsum. induction l as [|x l IH]; cbn; [lra|]. pose proof (Rabs_pos x). lra. Qed.
Lemma pow_ge1 n : (1 <= (1 + u) ^ n)%R.
Proof. apply pow_R1_Rle. pose proof u_pos. lra. Qed.

(** A sum in any order *)
Lemma summed_err d l x : summed d l x -> Forall finite l -> ((1 + u) ^ d * rabs (map value l) < bpow radix2 emax)%R ->
  finite x /\ (Rabs (value x - rsum (map value l)) <= ((1 + u) ^ d - 1) * rabs (map value l))%R.
Proof.
  induction 1 as [d x|d l l' x y _ IH1 _ IH2|d l l' x P _ IH]; intros HF HB.
  - inversion HF; subst. split; [assumption|]. cbn. replace (value x - (value x + 0))%R with 0%R by ring. rewrite Rabs_R0.
    pose proof (pow_ge1 d). pose proof (Rabs_pos (value x)). nra.
  - apply Forall_app in HF. destruct HF as [F1 F2]. rewrite !map_app, !rsum_app in *. cbn [pow] in *.
    pose proof (rabs_nonneg (map value l)) as N1. pose proof (rabs_nonneg (map value l')) as N2. pose proof (pow_ge1 d) as G. pose proof u_pos as U.
    set (A1 := rabs (map value l)) in *. set (A2 := rabs (map value l')) in *. set (g := ((1 + u) ^ d)%R) in *.
    assert (M1 : (g * (A1 + A2) <= (1 + u) * g * (A1 + A2))%R).
    { rewrite Rmult_assoc. assert (0 <= g * (A1 + A2))%R by (apply Rmult_le_pos; lra). nra. }
    destruct IH1 as [Fx E1]; [exact F1|nra|]. destruct IH2 as [Fy E2]; [exact F2|nra|].
    pose proof (rabs_bound (map value l)) as B1. pose proof (rabs_bound (map value l')) as B2. fold A1 in B1. fold A2 in B2.
    set (S1 := rsum (map value l)) in *. set (S2 := rsum (map value l')) in *.
    assert (SUM : (Rabs (value x + value y) <= g * (A1 + A2))%R).
    { replace (value x + value y)%R with ((value x - S1) + (value y - S2) + S1 + S2)%R by ring.
      eapply Rle_trans; [apply Rabs_triang|]. eapply Rle_trans; [apply Rplus_le_compat_r, Rabs_triang|].
      eapply Rle_trans; [apply Rplus_le_compat_r, Rplus_le_compat_r, Rabs_triang|]. lra. }
    destruct (add_err x y ((1 + u) * g * (A1 + A2)) Fx Fy) as (Fz & E & VE); [nra|exact HB|].
    split; [exact Fz|]. replace (value (add x y) - (S1 + S2))%R with ((value (add x y) - (value x + value y)) + ((value x - S1) + (value y - S2)))%R by ring.
    eapply Rle_trans; [apply Rabs_triang|]. eapply Rle_trans; [apply Rplus_le_compat_l, Rabs_triang|]. fold A1 A2. nra.
  - rewrite <- (rsum_perm _ _ (Permutation_map value P)). rewrite <- (rsum_perm _ _ (Permutation_map Rabs (Permutation_map value P))) in *. apply IH; [|exact HB].
    eapply Permutation_Forall; [apply Permutation_sym; exact P|exact HF].
Qed.

Lemma rounded_nonneg x : 0 <= x -> 0 <= rounded x.
Proof. intros H. unfold Distance_Spec.rounded. apply round_ge_generic; [apply fexp_valid|apply valid_rnd_N|apply generic_format_0|exact H]. Qed.
(** Products in any order, where each product stands for an exact value [t] known up to a factor [g0]. *)
Definition near (g0 : R) (p : F * F) (t : R) : Prop :=
  finite (fst p) /\ finite (snd p) /\ (Rabs (value (fst p) * value (snd p) - t) <= g0 * Rabs t - Rabs t)%R.
Definition weight (g0 : R) (ts : list R) : R := rsum (map (fun t => (g0 * Rabs t + eta)%R) ts).
Lemma weight_nonneg g0 ts : (1 <= g0)%R -> (rabs ts <= weight g0 ts)%R.
Proof. intros G. unfold weight, rsum. pose proof eta_pos. induction ts as [|t ts IH]; cbn; [lra|]. pose proof (Rabs_pos t). nra. Qed.
Lemma dotted_err g0 : (1 <= g0)%R -> forall d l x, dotted d l x -> forall ts, Forall2 (near g0) l ts -> ((1 + u) ^ d * weight g0 ts < bpow radix2 emax)%R ->
  finite x /\ (Rabs (value x - rsum ts) <= (1 + u) ^ d * weight g0 ts - rabs ts)%R /\ (Forall (fun p => 0 <= value (fst p) * value (snd p)) l -> 0 <= value x).
Proof.
  intros G0 d l x H. pose proof u_pos as U. pose proof eta_pos as ET.
  assert (prod_le : forall p t, near g0 p t -> (Rabs (value (fst p) * value (snd p)) <= g0 * Rabs t)%R).
  { intros p t (_ & _ & E). replace (value (fst p) * value (snd p))%R with ((value (fst p) * value (snd p) - t) + t)%R by ring.
    eapply Rle_trans; [apply Rabs_triang|]. lra. }
  induction H as [d|d l x y z _ IH|d x y|d l l' x y _ IH1 _ IH2|d l l' x P _ IH]; intros ts HF HB.
  - inversion HF; subst. split; [reflexivity|]. cbn. unfold weight. cbn. rewrite Rminus_0_r, Rabs_R0. split; lra.
  - inversion HF as [|p t l0 ts' Hp Hl]; subst. pose proof (prod_le _ _ Hp) as PL. destruct Hp as (Fx & Fy & Ep). cbn [fst snd] in *.
    pose proof (pow_ge1 d) as G. pose proof (weight_nonneg g0 ts' G0) as W. pose proof (rabs_nonneg ts') as N. pose proof (Rabs_pos t) as T.
    assert (WE : weight g0 (t :: ts') = (g0 * Rabs t + eta + weight g0 ts')%R) by reflexivity. rewrite WE in *.
    assert (SE : rsum (t :: ts') = (t + rsum ts')%R) by reflexivity. rewrite SE. clear SE.
    assert (AE : rabs (t :: ts') = (Rabs t + rabs ts')%R) by reflexivity. rewrite AE. clear AE. cbn [pow] in *.
    set (g := ((1 + u) ^ d)%R) in *. set (w := weight g0 ts') in *. set (A := rabs ts') in *.
    assert (P1 : (0 <= g0 * Rabs t)%R) by (apply Rmult_le_pos; lra).
    assert (P2 : (g0 * Rabs t <= g * (g0 * Rabs t))%R) by nra.
    assert (P3 : (eta <= g * eta)%R) by nra. assert (P4 : (0 <= g * w)%R) by (apply Rmult_le_pos; lra).
    assert (P5 : (0 <= u * (g * (g0 * Rabs t + eta + w)))%R) by (apply Rmult_le_pos; [lra|nra]).
    assert (P6 : (0 <= u * (g * eta))%R) by (apply Rmult_le_pos; lra).
    assert (PRE : g * w < bpow radix2 emax) by nra. destruct (IH ts' Hl PRE) as (Fz & Ez & Nz). fold g w A in Ez.
    pose proof (rabs_bound ts') as B. fold A in B.
    assert (SUM : (Rabs (value x * value y + value z) <= g0 * Rabs t + g * w)%R).
    { replace (value x * value y + value z)%R with (value x * value y + ((value z - rsum ts') + rsum ts'))%R by ring.
      eapply Rle_trans; [apply Rabs_triang|]. eapply Rle_trans; [apply Rplus_le_compat_l, Rabs_triang|]. lra. }
    assert (SU : (u * Rabs (value x * value y + value z) <= u * (g0 * Rabs t + g * w))%R) by (apply Rmult_le_compat_l; assumption).
    assert (P7 : (u * (g0 * Rabs t) <= u * (g * (g0 * Rabs t)))%R) by (apply Rmult_le_compat_l; assumption).
    destruct (fma_err x y z ((1 + u) * g * (g0 * Rabs t + eta + w)) Fx Fy Fz) as (Fr & E & VE); [nra|exact HB|].
    split; [exact Fr|]. split; [|intros FN; inversion FN; subst; cbn [fst snd] in *; rewrite VE; apply rounded_nonneg; pose proof (Nz ltac:(assumption)); lra].
    replace (value (fma x y z) - (t + rsum ts'))%R with ((value (fma x y z) - (value x * value y + value z)) + ((value x * value y - t) + (value z - rsum ts')))%R by ring.
    eapply Rle_trans; [apply Rabs_triang|]. eapply Rle_trans; [apply Rplus_le_compat_l, Rabs_triang|]. nra.
  - inversion HF as [|p t l0 ts' Hp Hl]; subst. inversion Hl; subst. pose proof (prod_le _ _ Hp) as PL. destruct Hp as (Fx & Fy & Ep). cbn [fst snd] in *.
    pose proof (pow_ge1 d) as G. pose proof (Rabs_pos t) as T.
    assert (WE : weight g0 [t] = (g0 * Rabs t + eta)%R) by (unfold weight, rsum; cbn; ring). rewrite WE in *.
    assert (SE : rsum [t] = t) by (unfold rsum; cbn; ring). rewrite SE. assert (AE : rabs [t] = Rabs t) by (unfold rsum; cbn; ring). rewrite AE.
    cbn [pow] in *. set (g := ((1 + u) ^ d)%R) in *.
    assert (P1 : (0 <= g0 * Rabs t)%R) by (apply Rmult_le_pos; lra).
    assert (P2 : (g0 * Rabs t <= g * (g0 * Rabs t))%R) by nra.
    assert (P3 : (eta <= g * eta)%R) by nra.
    assert (P6 : (0 <= u * (g * eta))%R) by (apply Rmult_le_pos; [lra|nra]).
    assert (SU : (u * Rabs (value x * value y) <= u * (g0 * Rabs t))%R) by (apply Rmult_le_compat_l; assumption).
    assert (P7 : (u * (g0 * Rabs t) <= u * (g * (g0 * Rabs t)))%R) by (apply Rmult_le_compat_l; assumption).
    destruct (mul_err x y ((1 + u) * g * (g0 * Rabs t + eta)) Fx Fy) as (Fr & E & VE); [nra|exact HB|].
    split; [exact Fr|]. split; [|intros FN; inversion FN; subst; cbn [fst snd] in *; rewrite VE; apply rounded_nonneg; assumption].
    replace (value (mul x y) - t)%R with ((value (mul x y) - value x * value y) + (value x * value y - t))%R by ring.
    eapply Rle_trans; [apply Rabs_triang|]. nra.
  - apply Forall2_app_inv_l in HF. destruct HF as (t1 & t2 & F1 & F2 & ->).
    pose proof (pow_ge1 d) as G. pose proof (weight_nonneg g0 t1 G0) as W1. pose proof (weight_nonneg g0 t2 G0) as W2.
    pose proof (rabs_nonneg t1) as N1. pose proof (rabs_nonneg t2) as N2.
    assert (WE : weight g0 (t1 ++ t2) = (weight g0 t1 + weight g0 t2)%R) by (unfold weight; rewrite map_app, rsum_app; reflexivity). rewrite WE in *.
    rewrite map_app, !rsum_app. cbn [pow] in *.
    set (g := ((1 + u) ^ d)%R) in *. set (w1 := weight g0 t1) in *. set (w2 := weight g0 t2) in *. set (A1 := rabs t1) in *. set (A2 := rabs t2) in *.
    assert (P1 : (0 <= g * w1)%R) by (apply Rmult_le_pos; lra). assert (P2 : (0 <= g * w2)%R) by (apply Rmult_le_pos; lra).
    assert (P3 : (0 <= u * (g * w1))%R) by (apply Rmult_le_pos; lra). assert (P4 : (0 <= u * (g * w2))%R) by (apply Rmult_le_pos; lra).
    assert (PR1 : g * w1 < bpow radix2 emax) by nra. assert (PR2 : g * w2 < bpow radix2 emax) by nra.
    destruct (IH1 t1 F1 PR1) as (Fx & E1 & Nx). destruct (IH2 t2 F2 PR2) as (Fy & E2 & Ny). fold g w1 A1 in E1. fold g w2 A2 in E2.
    pose proof (rabs_bound t1) as B1. pose proof (rabs_bound t2) as B2. fold A1 in B1. fold A2 in B2.
    assert (SUM : (Rabs (value x + value y) <= g * w1 + g * w2)%R).
    { replace (value x + value y)%R with ((value x - rsum t1) + (value y - rsum t2) + rsum t1 + rsum t2)%R by ring.
      eapply Rle_trans; [apply Rabs_triang|]. eapply Rle_trans; [apply Rplus_le_compat_r, Rabs_triang|].
      eapply Rle_trans; [apply Rplus_le_compat_r, Rplus_le_compat_r, Rabs_triang|]. lra. }
    assert (SU : (u * Rabs (value x + value y) <= u * (g * w1 + g * w2))%R) by (apply Rmult_le_compat_l; assumption).
    destruct (add_err x y ((1 + u) * g * (w1 + w2)) Fx Fy) as (Fz & E & VE); [nra|exact HB|].
    split; [exact Fz|]. split; [|intros FN; apply Forall_app in FN; destruct FN as [FN1 FN2]; rewrite VE; apply rounded_nonneg; pose proof (Nx FN1); pose proof (Ny FN2); lra].
    replace (value (add x y) - (rsum t1 + rsum t2))%R with ((value (add x y) - (value x + value y)) + ((value x - rsum t1) + (value y - rsum t2)))%R by ring.
    eapply Rle_trans; [apply Rabs_triang|]. eapply Rle_trans; [apply Rplus_le_compat_l, Rabs_triang|]. fold A1 A2. nra.
  - destruct (Permutation_Forall2 (Permutation_sym P) HF) as (t' & P' & F').
    assert (WE : weight g0 ts = weight g0 t') by (unfold weight; apply rsum_perm, Permutation_map; exact P').
    rewrite WE in *. rewrite (rsum_perm _ _ P'), (rsum_perm _ _ (Permutation_map Rabs P')). destruct (IH t' F' HB) as (Fx & E & Nx).
    split; [exact Fx|]. split; [exact E|]. intros FN. apply Nx. eapply Permutation_Forall; [apply Permutation_sym; exact P|exact FN].
Qed.
End Proofs.
