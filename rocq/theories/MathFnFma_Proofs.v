(** Proofs for C77: the multiply-add functions, integers, the choice of an implementation. *)
From Coq Require Import List Bool Arith ZArith Reals Lia Lra.
Import ListNotations.
From Flocq Require Import Core BinarySingleNaN.
From Verif Require Import Base Lexer_Model Op_Model Number_Model MathFn_Model MathFn_Spec MathFn_Proofs.

Section Floats.
Variables prec emax : Z.
Context (prec_gt_0_ : Prec_gt_0 prec) (prec_lt_emax_ : Prec_lt_emax prec emax).
Notation F := (binary_float prec emax).
Notation add := (Bplus mode_NE). Notation sub := (Bminus mode_NE). Notation mul := (Bmult mode_NE). Notation fma := (Bfma mode_NE).
Notation fexp := (SpecFloat.fexp prec emax).
Notation rnd := (round radix2 fexp (round_mode mode_NE)).
Implicit Types x y a b c : F.

Lemma rnd_opp r : rnd (- r)%R = (- rnd r)%R.
Proof. apply round_NE_opp. Qed.
Lemma nan_finite x : is_finite x = true -> is_nan x = false. Proof. destruct x; easy. Qed.
Lemma opp_mul a b : mul (Bopp a) b = Bopp (mul a b).
Proof.
  destruct (is_finite a && is_finite b) eqn:Fab.
  2:{ destruct a as [sa|sa| |sa ma ea Ha], b as [sb|sb| |sb mb eb Hb]; try discriminate; cbn; rewrite <- ?negb_xorb_l; reflexivity. }
  pose proof (Bmult_correct prec emax _ _ mode_NE a b) as M1. pose proof (Bmult_correct prec emax _ _ mode_NE (Bopp a) b) as M2.
  apply andb_true_iff in Fab as Fab'. destruct Fab' as [Fa Fb].
  rewrite B2R_Bopp in M2. rewrite <- Ropp_mult_distr_l, rnd_opp, Rabs_Ropp in M2.
  destruct (Rlt_bool _ _).
  - destruct M1 as (V1 & F1 & S1), M2 as (V2 & F2 & S2). rewrite is_finite_Bopp in F2.
    rewrite Fa, Fb in *. cbn in F1, F2. apply B2R_Bsign_inj.
    + exact F2.
    + rewrite is_finite_Bopp. exact F1.
    + rewrite B2R_Bopp, V1, V2. reflexivity.
    + rewrite S2 by (apply nan_finite; exact F2). rewrite Bsign_Bopp by (apply nan_finite; exact Fa). rewrite Bsign_Bopp by (apply nan_finite; exact F1).
      rewrite S1 by (apply nan_finite; exact F1). symmetry. apply negb_xorb_l.
  - rewrite Bsign_Bopp in M2 by (apply nan_finite; exact Fa). apply B2SF_inj. rewrite M2.
    destruct (mul a b) as [s|s| |s m e H]; cbn in M1; try discriminate. cbn. injection M1 as ->. cbn. unfold binary_overflow. cbn. rewrite negb_xorb_l. reflexivity.
Qed.
Lemma add_comm x y : add x y = add y x.
Proof.
  destruct (is_finite x && is_finite y) eqn:Fxy.
  2:{ destruct x as [sx|sx| |sx mx ex Hx], y as [sy|sy| |sy my ey Hy]; try discriminate; try reflexivity. cbn. destruct sx, sy; reflexivity. }
  apply andb_true_iff in Fxy. destruct Fxy as [Fx Fy].
  pose proof (Bplus_correct prec emax _ _ mode_NE x y Fx Fy) as P1. pose proof (Bplus_correct prec emax _ _ mode_NE y x Fy Fx) as P2.
  rewrite (Rplus_comm (B2R y)) in P2. destruct (Rlt_bool _ _).
  - destruct P1 as (V1 & F1 & S1), P2 as (V2 & F2 & S2). apply B2R_Bsign_inj; try assumption; [congruence|].
    rewrite S1, S2. destruct (Rcompare _ 0); try reflexivity. apply andb_comm.
  - destruct P1 as (V1 & S1), P2 as (V2 & _). apply B2SF_inj. rewrite V1, V2, S1. reflexivity.
Qed.
Lemma sub_add x y : sub x y = add x (Bopp y).
Proof.
  destruct (is_finite x && is_finite y) eqn:Fxy.
  2:{ destruct x as [sx|sx| |sx mx ex Hx], y as [sy|sy| |sy my ey Hy]; try discriminate; try reflexivity. }
  apply andb_true_iff in Fxy. destruct Fxy as [Fx Fy].
  assert (Fy' : is_finite (Bopp y) = true) by (rewrite is_finite_Bopp; exact Fy).
  pose proof (Bplus_correct prec emax _ _ mode_NE x (Bopp y) Fx Fy') as P1. pose proof (Bminus_correct prec emax _ _ mode_NE x y Fx Fy) as P2.
  rewrite B2R_Bopp in P1. change (B2R x + - B2R y)%R with (B2R x - B2R y)%R in P1.
  rewrite Bsign_Bopp in P1 by (apply nan_finite; exact Fy).
  destruct (Rlt_bool _ _).
  - destruct P1 as (V1 & F1 & S1), P2 as (V2 & F2 & S2). apply B2R_Bsign_inj; try assumption; congruence.
  - destruct P1 as (V1 & S1), P2 as (V2 & _). apply B2SF_inj. rewrite V1, V2. reflexivity.
Qed.
(** A fused operation with an exact product is the unfused one. *)
Lemma fma_exact a b c : exact_product prec emax prec_gt_0_ prec_lt_emax_ a b -> fma a b c = add (mul a b) c.
Proof.
  intros (Fa & Fb & Fp & Vp). unfold finite, value in *.
  destruct (is_finite c) eqn:Fc.
  2:{ destruct a as [sa|sa| |sa ma ea Ha]; try discriminate; destruct b as [sb|sb| |sb mb eb Hb]; try discriminate;
        destruct c as [sc|sc| |sc mc ec Hc]; try discriminate; try reflexivity;
        destruct (mul _ _) as [sp|sp| |sp mp ep Hp]; try discriminate; reflexivity. }
  pose proof (Bfma_correct prec emax _ _ mode_NE a b c Fa Fb Fc) as P1. pose proof (Bplus_correct prec emax _ _ mode_NE (mul a b) c Fp Fc) as P2.
  pose proof (Bmult_correct prec emax _ _ mode_NE a b) as M.
  assert (Sp : Bsign (mul a b) = xorb (Bsign a) (Bsign b)).
  { destruct (Rlt_bool (Rabs (rnd (B2R a * B2R b))) _) eqn:L.
    - destruct M as (_ & _ & SM). apply SM. apply nan_finite. exact Fp.
    - exfalso. destruct (mul a b); cbn in M; try discriminate. }
  cbv zeta in P1. rewrite Vp in P2. destruct (Rlt_bool _ _) eqn:L.
  - destruct P1 as (V1 & F1 & S1), P2 as (V2 & F2 & S2). apply B2R_Bsign_inj; try assumption; [congruence|].
    rewrite S1, S2. destruct (Rcompare _ 0); try reflexivity. unfold Bfma_szero. rewrite Sp. destruct (xorb _ _), (Bsign c); reflexivity.
  - destruct P2 as (V2 & S2). apply B2SF_inj. rewrite P1, V2. f_equal.
    (* the signs *)
    assert (R0 : (B2R a * B2R b + B2R c <> 0)%R).
    { intros E. rewrite E, round_0, Rabs_R0 in L by (apply valid_rnd_round_mode). rewrite Rlt_bool_true in L by apply bpow_gt_0. discriminate. }
    assert (SG : forall x : F, is_finite x = true -> if Bsign x then (B2R x <= 0)%R else (0 <= B2R x)%R).
    { intros [s|s| |s m e H] Hf; try discriminate; cbn; [destruct s; lra|]. destruct s; [apply F2R_le_0; cbn; lia|apply F2R_ge_0; cbn; lia]. }
    pose proof (SG _ Fp) as G1. pose proof (SG _ Fc) as G2. rewrite <- S2 in G2. rewrite Vp in G1.
    destruct (Bsign (mul a b)); [rewrite Rlt_bool_true by lra|rewrite Rlt_bool_false by lra]; reflexivity.
Qed.
Lemma exact_opp a b : exact_product prec emax prec_gt_0_ prec_lt_emax_ a b -> exact_product prec emax prec_gt_0_ prec_lt_emax_ (Bopp a) b.
Proof.
  intros (Fa & Fb & Fp & Vp). unfold exact_product, finite, value in *. rewrite opp_mul, !is_finite_Bopp, !B2R_Bopp, Vp. repeat split; try assumption. ring.
Qed.
Lemma opp_opp x : Bopp (Bopp x) = x. Proof. apply Bopp_involutive. Qed.
Variables vmax vmin : F -> F -> F.
Notation v_ternary := (v_ternary prec emax prec_gt_0_ prec_lt_emax_ vmax vmin).
Notation s_ternary := (s_ternary prec emax prec_gt_0_ prec_lt_emax_).
Lemma fma_same first fused contracted op a b c : In op fma_family -> (op = OP_FMA -> fused = true) -> (op <> OP_FMA -> fused = contracted) ->
  v_ternary first fused op a b c = s_ternary contracted op a b c.
Proof.
  intros HI H1 H2. cbn in HI. destruct HI as [ <- |[ <- |[ <- |[ <- |[]]]]].
  - rewrite H1 by reflexivity. reflexivity.
  - rewrite H2 by discriminate. destruct contracted; reflexivity.
  - rewrite H2 by discriminate. destruct contracted; [reflexivity|]. cbn. f_equal. unfold v_fnma, s_fnma. rewrite sub_add, opp_mul. apply add_comm.
  - rewrite H2 by discriminate. destruct contracted; [reflexivity|]. cbn. f_equal. unfold v_fnms, s_fnms. rewrite opp_mul. reflexivity.
Qed.
Lemma fma_any first fused contracted op a b c : In op fma_family -> exact_product prec emax prec_gt_0_ prec_lt_emax_ a b ->
  v_ternary first fused op a b c = s_ternary contracted op a b c.
Proof.
  intros HI E. pose proof (exact_opp a b E) as E'. cbn in HI. destruct HI as [ <- |[ <- |[ <- |[ <- |[]]]]]; cbn; f_equal.
  - unfold v_fma, s_fma. destruct fused; [reflexivity|]. symmetry. apply fma_exact. exact E.
  - unfold v_fms, s_fms. rewrite sub_add, (fma_exact a b) by exact E. destruct fused, contracted; reflexivity.
  - unfold v_fnma, s_fnma. rewrite (fma_exact (Bopp a) b) by exact E'. rewrite sub_add, opp_mul, (add_comm c). destruct fused, contracted; reflexivity.
  - unfold v_fnms, s_fnms. rewrite (fma_exact (Bopp a) b) by exact E'. rewrite !sub_add, opp_mul. destruct fused, contracted; reflexivity.
Qed.
Lemma fused_value first op a b c : In op fma_family -> finite _ _ a -> finite _ _ b -> finite _ _ c ->
  (Rabs (rnd (fma_value prec emax op a b c)) < bpow radix2 emax)%R ->
  exists r, v_ternary first true op a b c = Ret r /\ finite _ _ r /\ value _ _ r = rnd (fma_value prec emax op a b c).
Proof.
  intros HI Fa Fb Fc L. unfold finite, value in *.
  assert (G : forall a' c', is_finite a' = true -> is_finite c' = true -> (B2R a' * B2R b + B2R c' = fma_value prec emax op a b c)%R ->
    is_finite (fma a' b c') = true /\ B2R (fma a' b c') = rnd (fma_value prec emax op a b c)).
  { intros a' c' Fa' Fc' E. pose proof (Bfma_correct prec emax _ _ mode_NE a' b c' Fa' Fb Fc') as P. cbv zeta in P. rewrite E in P.
    rewrite Rlt_bool_true in P by exact L. destruct P as (P1 & P2 & _). auto. }
  cbn in HI. destruct HI as [ <- |[ <- |[ <- |[ <- |[]]]]]; cbn [MathFn_Model.v_ternary]; eexists; (split; [reflexivity|]); cbn -[round fma_value];
    apply G; rewrite ?is_finite_Bopp, ?B2R_Bopp; try assumption; unfold fma_value, value; ring.
Qed.
(** Whole units *)
Lemma unit_elements n op f arr out : 0 < n -> Nat.divide n 64 -> 64 <= length arr -> 64 <= length out -> (forall x, v_unary prec emax prec_gt_0_ prec_lt_emax_ op x = Ret (f x)) ->
  exists out', unary_kernel n f arr out = Ret out' /\ unit_replaced out out' (fun i x => exists u, nth_error arr i = Some u
    /\ (~ (op = OP_ROUND /\ exists k, halfway prec emax u k /\ Z.even k = true) -> s_unary prec emax prec_gt_0_ prec_lt_emax_ op u = Ret x)).
Proof.
  intros Hn HD La Lo Hf. destruct (unary_ok n f arr out Hn HD La Lo) as (o & E & L & P & Q). exists o. split; [exact E|]. split; [exact L|]. split; [|exact Q].
  intros i x Hi Hx. destruct (P i x Hi Hx) as (u & Hu & ->). exists u. split; [exact Hu|]. intros HT.
  rewrite <- Hf. symmetry. apply (proj2 (unary_agree_all prec emax _ _ op u)). exact HT.
Qed.
End Floats.

(** Fused and not fused: [a * a - c] with a = 1 + 2^-52 and c the rounded square *)
Definition w64_a : binary_float 53 1024 := @B754_finite 53 1024 false 4503599627370497 (-52) eq_refl.
Definition w64_c : binary_float 53 1024 := @B754_finite 53 1024 false 4503599627370498 (-52) eq_refl.
Definition P53 : Prec_gt_0 53 := eq_refl.
Definition E53 : Prec_lt_emax 53 1024 := eq_refl.
Definition three : binary_float 53 1024 := @B754_finite 53 1024 false 6755399441055744 (-51) eq_refl.
Lemma exact_case : exact_product 53 1024 P53 E53 three three /\ finite 53 1024 three.
Proof.
  split; [|reflexivity]. split; [reflexivity|]. split; [reflexivity|].
  assert (M : Bmult (prec_gt_0_ := P53) (prec_lt_emax_ := E53) mode_NE three three = @B754_finite 53 1024 false 5066549580791808 (-49) eq_refl).
  { apply B2SF_inj. vm_compute. reflexivity. }
  split; [rewrite M; reflexivity|]. rewrite M. unfold value, three, B2R, F2R. simpl. lra.
Qed.
Definition two_half : binary_float 53 1024 := @B754_finite 53 1024 false 5629499534213120 (-51) eq_refl.
Lemma half_case : exists x : binary_float 53 1024, finite 53 1024 x /\ halfway 53 1024 x 2 /\ Z.even 2 = true.
Proof.
  exists two_half. split; [reflexivity|]. split; [|reflexivity]. split; [lia|].
  unfold value, two_half, B2R, F2R. simpl. rewrite Rabs_pos_eq; lra.
Qed.
(** x86: maxps and minps *)
Definition x86_max prec emax (a b : binary_float prec emax) : binary_float prec emax := if Bltb b a then a else b.
Definition x86_min prec emax (a b : binary_float prec emax) : binary_float prec emax := if Bltb a b then a else b.
Lemma ltb_nan prec emax (a b : binary_float prec emax) : ~ number _ _ a \/ ~ number _ _ b -> Bltb a b = false.
Proof. intros [H|H]; [destruct a|destruct b]; try (exfalso; apply H; reflexivity); [reflexivity|]. destruct a as [|[]| |[]]; reflexivity. Qed.
Lemma x86_meets prec emax : maxes prec emax (x86_max prec emax) /\ mins prec emax (x86_min prec emax)
  /\ second_if_nan prec emax (x86_max prec emax) /\ second_if_nan prec emax (x86_min prec emax).
Proof.
  split; [|split; [|split]].
  - intros a b Ha Hb. unfold x86_max. rewrite !less_ext by (destruct (Bltb b a); assumption).
    destruct (Bltb b a) eqn:L; [apply ltb_ext in L; try assumption|apply ltb_ext_false in L; try assumption]; split; auto; lra.
  - intros a b Ha Hb. unfold x86_min. rewrite !less_ext by (destruct (Bltb a b); assumption).
    destruct (Bltb a b) eqn:L; [apply ltb_ext in L; try assumption|apply ltb_ext_false in L; try assumption]; split; auto; lra.
  - intros a b H. unfold x86_max. rewrite ltb_nan; [reflexivity|tauto].
  - intros a b H. unfold x86_min. rewrite ltb_nan; [reflexivity|tauto].
Qed.
Lemma fused_differs first :
  v_ternary 53 1024 P53 E53 (x86_max 53 1024) (x86_min 53 1024) first true OP_FMS w64_a w64_a w64_c
  <> s_ternary 53 1024 P53 E53 false OP_FMS w64_a w64_a w64_c.
Proof.
  intros H. cbn in H. injection H as H. apply (f_equal (fun x : binary_float 53 1024 => is_finite_strict x)) in H. vm_compute in H. discriminate H.
Qed.

(** ** Integers *)
Local Open Scope Z_scope.
Lemma wrap_id w sg z : 1 <= w -> in_type w sg z = true -> wrap w sg z = z.
Proof.
  intros Hw. unfold in_type, wrap. destruct sg; rewrite andb_true_iff, Z.leb_le, Z.ltb_lt; intros H.
  - apply wraps_id; [exact Hw|exact H].
  - apply wrapu_id. exact H.
Qed.
Lemma abs_diff_int w sg a b : 1 <= w -> in_type w sg a = true -> in_type w sg b = true ->
  (in_type w sg (Z.abs (a - b)) = true -> s_abs_diff_int w sg a b = Ret (Z.abs (a - b)) /\ v_abs_diff_int w sg a b = Z.abs (a - b))
  /\ (in_type w sg (Z.abs (a - b)) = false -> s_abs_diff_int w sg a b = UB /\ v_abs_diff_int w sg a b = Z.abs (a - b) - 2 ^ w /\ v_abs_diff_int w sg a b < 0).
Proof.
  intros Hw Ha Hb.
  assert (E : (if b <? a then a - b else b - a) = Z.abs (a - b)) by (destruct (Z.ltb_spec b a); lia).
  assert (E2 : Z.max a b - Z.min a b = Z.abs (a - b)) by lia.
  unfold s_abs_diff_int, v_abs_diff_int. rewrite E, E2. split; intros H; rewrite H.
  - rewrite andb_false_r, wrap_id by assumption. split; reflexivity.
  - pose proof (Base.pow2_split w Hw) as PS. unfold in_type in Ha, Hb, H. destruct sg; cbn [andb negb].
    + rewrite andb_true_iff, Z.leb_le, Z.ltb_lt in Ha, Hb. rewrite andb_false_iff, Z.leb_gt, Z.ltb_ge in H.
      assert (V : wrap w true (Z.abs (a - b)) = Z.abs (a - b) - 2 ^ w).
      { unfold wrap, wraps. cbv zeta. rewrite Z.mod_small by lia. destruct (Z.ltb_spec (Z.abs (a - b)) (2 ^ (w - 1))); lia. }
      rewrite V. split; [reflexivity|]. split; [reflexivity|]. lia.
    + exfalso. rewrite andb_true_iff, Z.leb_le, Z.ltb_lt in Ha, Hb. rewrite andb_false_iff, Z.leb_gt, Z.ltb_ge in H. lia.
Qed.
Lemma clamp_int v lo hi :
  (lo <= hi -> exists r, s_clamp_int v lo hi = Ret r /\ v_clamp_int v lo hi = r /\ lo <= r <= hi /\ (lo <= v <= hi -> r = v))
  /\ (hi < lo -> s_clamp_int v lo hi = UB /\ v_clamp_int v lo hi = hi).
Proof.
  unfold s_clamp_int, v_clamp_int. split; intros H.
  - destruct (Z.ltb_spec hi lo); [lia|]. eexists. split; [reflexivity|]. destruct (Z.ltb_spec v lo), (Z.ltb_spec hi v); repeat split; lia.
  - destruct (Z.ltb_spec hi lo); [|lia]. split; [reflexivity|]. lia.
Qed.

Lemma wrap_spec w sg z : 1 <= w -> in_type w sg (wrap w sg z) = true /\ exists k, wrap w sg z = z + k * 2 ^ w.
Proof.
  intros Hw. assert (HP : 2 ^ w <> 0) by (pose proof (Z.pow_pos_nonneg 2 w); lia).
  pose proof (Z.div_mod z (2 ^ w) HP) as D. unfold in_type, wrap. destruct sg.
  - pose proof (wraps_range w z Hw) as R. unfold in_s in R. split; [rewrite andb_true_iff, Z.leb_le, Z.ltb_lt; exact R|].
    unfold wraps. cbv zeta. destruct (z mod 2 ^ w <? 2 ^ (w - 1)); [exists (- (z / 2 ^ w)); lia|exists (- (z / 2 ^ w) - 1); lia].
  - pose proof (wrapu_range w z ltac:(lia)) as R. unfold in_u in R. split; [rewrite andb_true_iff, Z.leb_le, Z.ltb_lt; exact R|].
    unfold wrapu. exists (- (z / 2 ^ w)). lia.
Qed.
Lemma fma_int w sg op a b c : 1 <= w -> In op fma_family ->
  exists r, v_fma_int w sg op a b c = Ret r /\ in_type w sg r = true /\ (exists k, r = fma_int_value op a b c + k * 2 ^ w)
    /\ (in_type w sg (fma_int_value op a b c) = true -> r = fma_int_value op a b c).
Proof.
  intros Hw HI.
  assert (G : forall z, v_fma_int w sg op a b c = Ret (wrap w sg z) -> z = fma_int_value op a b c -> exists r, v_fma_int w sg op a b c = Ret r /\ in_type w sg r = true /\ (exists k, r = fma_int_value op a b c + k * 2 ^ w)
    /\ (in_type w sg (fma_int_value op a b c) = true -> r = fma_int_value op a b c)).
  { intros z E <-. exists (wrap w sg z). destruct (wrap_spec w sg z Hw) as [H1 H2]. split; [exact E|]. split; [exact H1|]. split; [exact H2|]. apply wrap_id. exact Hw. }
  cbn in HI. destruct HI as [ <- |[ <- |[ <- |[ <- |[]]]]]; (eapply G; [reflexivity|]); unfold fma_int_value; lia.
Qed.

(** ** Choice *)
Lemma coverage op n : In op modelled -> n <> F80 ->
  (scalars_accepted op n /\ ~ vectors_accepted op n <-> op = OP_CLAMP /\ In n [U8; I8; U16; I16])
  /\ (vectors_accepted op n /\ ~ scalars_accepted op n <->
      op = OP_ABS_DIFF /\ In n [I8; I16] \/ In op fma_family /\ In n [U32; I32; U64; I64] \/ op = OP_ABS /\ In n [U8; I8; U16; I16; U32; U64]).
Proof.
  intros HI HN. unfold scalars_accepted, vectors_accepted. cbn in HI.
  repeat (destruct HI as [ <- |HI]; [destruct n; try contradiction; vm_compute; split; split;
    solve [ intuition discriminate | intuition (try discriminate; try congruence; auto 12) ]|]).
  contradiction.
Qed.
(** All calls have a vector first: each is compiled as if it were alone. *)
Definition refused (c : choice) : bool := match c with Refused => true | _ => false end.
Lemma declared_first cs : (forall c, In c cs -> c_first c = true) ->
  exists d, declared cs = Some d /\ forall c, In c cs -> kernel_registered (c_op c) (c_type c) = true -> existsb (same_kernel (c_op c, c_type c)) d = true.
Proof.
  induction cs as [|c cs IH]; intros H; [exists []; split; [reflexivity|intros ? []]|].
  destruct IH as (d & E & P); [intros x Hx; apply H; right; exact Hx|]. cbn [declared]. rewrite E.
  unfold check_call. rewrite (H c) by (left; reflexivity).
  destruct (kernel_registered (c_op c) (c_type c)) eqn:K; cbn [negb].
  - exists ((c_op c, c_type c) :: d). split; [reflexivity|]. intros x [ <- |Hx] Kx; cbn.
    + unfold same_kernel at 1. rewrite !Nat.eqb_refl. reflexivity.
    + rewrite (P x Hx Kx). apply orb_true_r.
  - exists d. split; [reflexivity|]. intros x [ <- |Hx] Kx; [congruence|]. apply P; assumption.
Qed.
Definition alone (c : call) : choice :=
  if kernel_registered (c_op c) (c_type c) then Kernel else if instruction (c_op c) (c_type c) then Instruction else Refused.
Lemma choice_first d c : (kernel_registered (c_op c) (c_type c) = true -> existsb (same_kernel (c_op c, c_type c)) d = true) -> vector_choice d c = alone c.
Proof. intros H. unfold vector_choice, alone. destruct (kernel_registered _ _); [rewrite H by reflexivity; reflexivity|reflexivity]. Qed.
Lemma compile_first cs : (forall c, In c cs -> c_first c = true) ->
  compile_calls cs = if existsb refused (map alone cs) then None else Some (map alone cs).
Proof.
  intros H. unfold compile_calls. destruct (declared_first cs H) as (d & -> & P).
  assert (E : map (vector_choice d) cs = map alone cs) by (apply map_ext_in; intros c Hc; apply choice_first; apply P; exact Hc).
  rewrite E. reflexivity.
Qed.
Lemma calls_alone cs : (forall c, In c cs -> c_first c = true) ->
  (forall ch, compile_calls cs = Some ch -> Forall2 (fun c k => compile_calls [c] = Some [k]) cs ch)
  /\ (compile_calls cs = None <-> exists c, In c cs /\ compile_calls [c] = None).
Proof.
  intros H. rewrite (compile_first cs H).
  assert (A : forall c, In c cs -> compile_calls [c] = if refused (alone c) then None else Some [alone c]).
  { intros c Hc. rewrite compile_first by (intros x [ <- |[]]; apply H; exact Hc). cbn. rewrite orb_false_r. reflexivity. }
  split.
  - intros ch. destruct (existsb refused (map alone cs)) eqn:X; [discriminate|]. intros E. injection E as <-. clear H.
    induction cs as [|c cs IH]; [constructor|]. cbn in X. apply orb_false_iff in X. destruct X as [X1 X2]. cbn [map]. constructor.
    + rewrite A by (left; reflexivity). rewrite X1. reflexivity.
    + apply IH; [|exact X2]. intros x Hx. apply A. right. exact Hx.
  - split.
    + destruct (existsb refused (map alone cs)) eqn:X; [|discriminate]. intros _. apply existsb_exists in X. destruct X as (k & Hk & R).
      apply in_map_iff in Hk. destruct Hk as (c & <- & Hc). exists c. split; [exact Hc|]. rewrite A by exact Hc. rewrite R. reflexivity.
    + intros (c & Hc & E). rewrite A in E by exact Hc. destruct (refused (alone c)) eqn:R; [|discriminate].
      assert (X : existsb refused (map alone cs) = true) by (apply existsb_exists; exists (alone c); split; [apply in_map; exact Hc|exact R]).
      rewrite X. reflexivity.
Qed.
(** A scalar first *)
Lemma scalar_first n : kernel_registered OP_CLAMP n = true ->
  compile_calls [Call OP_CLAMP n false] = None /\ compile_calls [Call OP_CLAMP n false; Call OP_CLAMP n true] = Some [Kernel; Kernel].
Proof. destruct n; cbn; try discriminate; split; reflexivity. Qed.
Lemma scalar_first_fma n : n = F32 \/ n = F64 ->
  compile_calls [Call OP_FMA n false] = Some [Instruction] /\ compile_calls [Call OP_FMA n false; Call OP_FMA n true] = Some [Kernel; Kernel].
Proof. intros [-> | ->]; split; reflexivity. Qed.
