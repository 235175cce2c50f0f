(** Proofs for C79. *)
From Coq Require Import Ascii String List Bool Arith ZArith Reals Floats.SpecFloat Lia Lra.
Import ListNotations.
From Flocq Require Import Core BinarySingleNaN.
From Verif Require Import Base Lexer_Model Lexer_Proofs Op_Model Number_Model Parser_Model Parser_Spec Ir_Model Codegen_Model Codegen_Spec Codegen_Lemmas Codegen_Scope
  Scalar_Model Scalar_Spec Scalar_Proofs Json_Spec JsonCmp_Proofs FloatExpr_Spec.
From Verif Require Codegen_Results2 Constants_Proofs.
Local Open Scope Z_scope.

(** ** SpecFloat and Flocq *)
Section Formats.
Variable prec emax : Z.
Context (P0 : Prec_gt_0 prec) (PE : Prec_lt_emax prec emax).
Lemma add_sf (x y : binary_float prec emax) : SFadd prec emax (B2SF x) (B2SF y) = B2SF (Bplus mode_NE x y).
Proof.
  case x as [sx|sx| |sx mx ex Bx]; case y as [sy|sy| |sy my ey By]; [now (trivial || simpl; case Bool.eqb).. | ]. apply (normalize_sf prec emax P0 PE).
Qed.
Lemma sub_sf (x y : binary_float prec emax) : SFsub prec emax (B2SF x) (B2SF y) = B2SF (Bminus mode_NE x y).
Proof.
  case x as [sx|sx| |sx mx ex Bx]; case y as [sy|sy| |sy my ey By]; [now (trivial || simpl; case Bool.eqb).. | ].
  simpl. unfold Zminus. rewrite <- cond_Zopp_negb. apply (normalize_sf prec emax P0 PE).
Qed.
Lemma mul_sf (x y : binary_float prec emax) : SFmul prec emax (B2SF x) (B2SF y) = B2SF (Bmult mode_NE x y).
Proof.
  case x as [sx|sx| |sx mx ex Bx]; case y as [sy|sy| |sy my ey By]; [now trivial.. | ]. simpl. rewrite B2SF_SF2B. apply round_aux_sf.
Qed.
Lemma div_sf (x y : binary_float prec emax) : SFdiv prec emax (B2SF x) (B2SF y) = B2SF (Bdiv mode_NE x y).
Proof.
  case x as [sx|sx| |sx mx ex Bx]; case y as [sy|sy| |sy my ey By]; [now (trivial || simpl; case Bool.eqb).. | ].
  simpl. rewrite B2SF_SF2B. set (melz := SFdiv_core_binary _ _ _ _ _ _). case melz as [[mz ez] lz]. apply round_aux_sf.
Qed.
Lemma sqrt_sf (x : binary_float prec emax) : SFsqrt prec emax (B2SF x) = B2SF (Bsqrt mode_NE x).
Proof.
  case x as [sx|sx| |sx mx ex Bx]; [reflexivity|now case sx|reflexivity|]. case sx; [reflexivity|]. simpl. rewrite B2SF_SF2B. set (melz := SFsqrt_core_binary _ _ _ _). case melz as [[mz ez] lz]. apply round_aux_sf.
Qed.
Notation ok f x := (valid_binary prec emax f = true /\ is_finite_SF f = true /\ SF2R radix2 f = x).
Lemma from_b (b : binary_float prec emax) x : B2R b = x -> is_finite b = true -> ok (B2SF b) x.
Proof. intros <- F. split; [apply valid_binary_B2SF|]. split; [now rewrite is_finite_SF_B2SF|apply SF2R_B2SF]. Qed.
Lemma to_b f : valid_binary prec emax f = true -> is_finite_SF f = true -> exists b : binary_float prec emax, B2SF b = f /\ is_finite b = true /\ B2R b = SF2R radix2 f.
Proof. intros V Fi. exists (SF2B f V). rewrite B2SF_SF2B, is_finite_SF2B, B2R_SF2B. auto. Qed.
Lemma sqrt_rounded f : valid_binary prec emax f = true -> is_finite_SF f = true -> (0 <= SF2R radix2 f)%R ->
  ok (SFsqrt prec emax f) (round radix2 (FLT_exp (3 - emax - prec) prec) ZnearestE (sqrt (SF2R radix2 f))).
Proof.
  intros Vf Ff NN. destruct (to_b f Vf Ff) as (x & Ex & Fx & Rx). subst f. rewrite sqrt_sf. pose proof (Bsqrt_correct prec emax P0 PE mode_NE x) as (C1 & C2 & _).
  change (SpecFloat.fexp prec emax) with (FLT_exp (3 - emax - prec) prec) in C1. cbn [round_mode] in C1. rewrite Rx in C1. apply from_b; [exact C1|]. rewrite C2.
  destruct x as [s|s| |s m e Bx]; try discriminate Fx; [reflexivity|]. destruct s; [|reflexivity]. exfalso. cbn [B2SF SF2R cond_Zopp] in NN. assert (F2R (Float radix2 (- Z.pos m) e) < 0)%R by (apply F2R_lt_0; reflexivity). lra.
Qed.
Definition machine_op (op : optok) (f g : spec_float) : option spec_float :=
  match op with
  | OP_PLUS => Some (SFadd prec emax f g) | OP_MINUS => Some (SFsub prec emax f g)
  | OP_MULTIPLY => Some (SFmul prec emax f g) | OP_DIVIDE => Some (SFdiv prec emax f g) | _ => None
  end.
Lemma op_rounded op f g r : valid_binary prec emax f = true -> is_finite_SF f = true -> valid_binary prec emax g = true -> is_finite_SF g = true ->
  real_op op (SF2R radix2 f) (SF2R radix2 g) r -> (Rabs (round radix2 (FLT_exp (3 - emax - prec) prec) ZnearestE r) < bpow radix2 emax)%R ->
  exists h, machine_op op f g = Some h /\ ok h (round radix2 (FLT_exp (3 - emax - prec) prec) ZnearestE r).
Proof.
  intros Vf Ff Vg Fg O B. destruct (to_b f Vf Ff) as (x & Ex & Fx & Rx). destruct (to_b g Vg Fg) as (y & Ey & Fy & Ry). rewrite <- Rx, <- Ry in O. subst f g.
  destruct op; try (exfalso; inversion O; fail); cbn [machine_op]; (eexists; split; [reflexivity|]).
  - assert (r = B2R x + B2R y)%R as -> by (inversion O; reflexivity). rewrite add_sf. pose proof (Bplus_correct prec emax P0 PE mode_NE x y Fx Fy) as C.
    change (SpecFloat.fexp prec emax) with (FLT_exp (3 - emax - prec) prec) in C. cbn [round_mode] in C. rewrite (Rlt_bool_true _ _ B) in C. destruct C as (C1 & C2 & _). now apply from_b.
  - assert (r = B2R x - B2R y)%R as -> by (inversion O; reflexivity). rewrite sub_sf. pose proof (Bminus_correct prec emax P0 PE mode_NE x y Fx Fy) as C.
    change (SpecFloat.fexp prec emax) with (FLT_exp (3 - emax - prec) prec) in C. cbn [round_mode] in C. rewrite (Rlt_bool_true _ _ B) in C. destruct C as (C1 & C2 & _). now apply from_b.
  - assert (r = B2R x * B2R y)%R as -> by (inversion O; reflexivity). rewrite mul_sf. pose proof (Bmult_correct prec emax P0 PE mode_NE x y) as C.
    change (SpecFloat.fexp prec emax) with (FLT_exp (3 - emax - prec) prec) in C. cbn [round_mode] in C. rewrite (Rlt_bool_true _ _ B) in C. destruct C as (C1 & C2 & _). rewrite Fx, Fy in C2. now apply from_b.
  - assert (r = B2R x / B2R y /\ B2R y <> 0)%R as (-> & NZ) by (inversion O; auto). rewrite div_sf. pose proof (Bdiv_correct prec emax P0 PE mode_NE x y NZ) as C.
    change (SpecFloat.fexp prec emax) with (FLT_exp (3 - emax - prec) prec) in C. cbn [round_mode] in C. rewrite (Rlt_bool_true _ _ B) in C. destruct C as (C1 & C2 & _). rewrite Fx in C2. now apply from_b.
Qed.
Lemma sign_value (b : binary_float prec emax) : if Bsign b then (B2R b <= 0)%R else (0 <= B2R b)%R.
Proof. destruct b as [s|s| |s m e]; cbn [Bsign B2R]; try (destruct s; lra); try lra. destruct s; [apply F2R_le_0|apply F2R_ge_0]; cbn; lia. Qed.
Lemma large_nonzero r : (bpow radix2 emax <= Rabs (round radix2 (FLT_exp (3 - emax - prec) prec) ZnearestE r))%R -> r <> 0%R.
Proof.
  intros B ->. rewrite round_0, Rabs_R0 in B by apply valid_rnd_N. pose proof (bpow_gt_0 radix2 emax). lra.
Qed.
Lemma op_overflow op f g r : valid_binary prec emax f = true -> is_finite_SF f = true -> valid_binary prec emax g = true -> is_finite_SF g = true ->
  real_op op (SF2R radix2 f) (SF2R radix2 g) r -> (bpow radix2 emax <= Rabs (round radix2 (FLT_exp (3 - emax - prec) prec) ZnearestE r))%R ->
  machine_op op f g = Some (S754_infinity (Rlt_bool r 0)).
Proof.
  intros Vf Ff Vg Fg O B. pose proof (large_nonzero r B) as NZ. destruct (to_b f Vf Ff) as (x & Ex & Fx & Rx). destruct (to_b g Vg Fg) as (y & Ey & Fy & Ry). rewrite <- Rx, <- Ry in O. subst f g.
  pose proof (sign_value x) as Sx. pose proof (sign_value y) as Sy.
  assert (SG : forall s : bool, (if s then r <= 0 else 0 <= r)%R -> S754_infinity s = S754_infinity (Rlt_bool r 0)).
  { intros s H. f_equal. destruct s; symmetry; [apply Rlt_bool_true|apply Rlt_bool_false]; lra. }
  destruct op; try (exfalso; inversion O; fail); cbn [machine_op]; f_equal.
  - assert (r = B2R x + B2R y)%R as -> by (inversion O; reflexivity). rewrite add_sf. pose proof (Bplus_correct prec emax P0 PE mode_NE x y Fx Fy) as C.
    change (SpecFloat.fexp prec emax) with (FLT_exp (3 - emax - prec) prec) in C. cbn [round_mode] in C. rewrite (Rlt_bool_false _ _ B) in C. destruct C as (-> & C2). apply SG. rewrite <- C2 in Sy. destruct (Bsign x); lra.
  - assert (r = B2R x - B2R y)%R as -> by (inversion O; reflexivity). rewrite sub_sf. pose proof (Bminus_correct prec emax P0 PE mode_NE x y Fx Fy) as C.
    change (SpecFloat.fexp prec emax) with (FLT_exp (3 - emax - prec) prec) in C. cbn [round_mode] in C. rewrite (Rlt_bool_false _ _ B) in C. destruct C as (-> & C2). apply SG. rewrite C2. rewrite C2 in Sx. destruct (Bsign y); cbn [negb] in *; lra.
  - assert (r = B2R x * B2R y)%R as -> by (inversion O; reflexivity). rewrite mul_sf. pose proof (Bmult_correct prec emax P0 PE mode_NE x y) as C.
    change (SpecFloat.fexp prec emax) with (FLT_exp (3 - emax - prec) prec) in C. cbn [round_mode] in C. rewrite (Rlt_bool_false _ _ B) in C. rewrite C. apply SG. destruct (Bsign x), (Bsign y); cbn [xorb]; nra.
  - assert (r = B2R x / B2R y /\ B2R y <> 0)%R as (-> & NZy) by (inversion O; auto). rewrite div_sf. pose proof (Bdiv_correct prec emax P0 PE mode_NE x y NZy) as C.
    change (SpecFloat.fexp prec emax) with (FLT_exp (3 - emax - prec) prec) in C. cbn [round_mode] in C. rewrite (Rlt_bool_false _ _ B) in C. rewrite C. apply SG. unfold Rdiv.
    assert (if Bsign y then (/ B2R y < 0)%R else (0 < / B2R y)%R) as Iy. { destruct (Bsign y); [apply Rinv_lt_0_compat; lra|apply Rinv_0_lt_compat; lra]. }
    destruct (Bsign x), (Bsign y); cbn [xorb]; nra.
Qed.
End Formats.

(** ** Values *)
Lemma denotes_opp n v x : denotes n v x -> ty_integer n = false -> exists f, v = VFlt f /\ denotes n (VFlt (SFopp f)) (- x).
Proof.
  intros D I. destruct D as [n z HO|n f I' V Fi]; [rewrite (holds_int _ _ HO) in I; discriminate I|]. exists f. split; [reflexivity|].
  assert (- SF2R radix2 f = SF2R radix2 (SFopp f))%R as ->.
  { destruct f as [s|s| |s m e]; cbn [SFopp SF2R]; try apply Ropp_0. rewrite <- F2R_Zopp. destruct s; reflexivity. }
  constructor; [exact I| |]; destruct f; auto.
Qed.
Lemma denotes_abs n v x : denotes n v x -> ty_integer n = false -> exists f, v = VFlt f /\ denotes n (VFlt (SFabs f)) (Rabs x).
Proof.
  intros D I. destruct D as [n z HO|n f I' V Fi]; [rewrite (holds_int _ _ HO) in I; discriminate I|]. exists f. split; [reflexivity|].
  assert (Rabs (SF2R radix2 f) = SF2R radix2 (SFabs f))%R as ->.
  { destruct f as [s|s| |s m e]; cbn [SFabs SF2R]; try apply Rabs_R0. rewrite <- F2R_Zabs. destruct s; reflexivity. }
  constructor; [exact I| |]; destruct f; auto.
Qed.
Lemma denotes_one n v x : denotes n v x -> (exists z, ty_integer n = true /\ holds n z = true /\ v = encode n z /\ x = IZR z) \/ (exists f, ty_integer n = false /\ valid_binary (fmt_prec n) (fmt_emax n) f = true /\ is_finite_SF f = true /\ v = VFlt f /\ x = SF2R radix2 f).
Proof. intros [m z HO|m f I V Fi]; [left; exists z; repeat split; auto; apply (holds_int _ _ HO)|right; exists f; auto]. Qed.
Lemma rounded_exact n m e : Z.abs m < 2 ^ fmt_prec n -> 3 - fmt_emax n - fmt_prec n <= e -> rounded n (F2R (Float radix2 m e)) = F2R (Float radix2 m e).
Proof.
  intros B E. apply round_generic; [apply valid_rnd_N|]. apply generic_format_FLT. apply (FLT_spec _ _ _ _ (Float radix2 m e)); auto.
Qed.
Lemma bounded_parts prec emax m e : bounded prec emax m e = true -> Z.pos m < 2 ^ prec /\ 3 - emax - prec <= e <= emax - prec.
Proof.
  unfold bounded. intros H. apply andb_true_iff in H as (C & B). apply Z.leb_le in B. unfold canonical_mantissa in C. apply Zeq_bool_eq in C.
  unfold SpecFloat.fexp, SpecFloat.emin in C. rewrite Digits.Zpos_digits2_pos in C. pose proof (Digits.Zdigits_correct radix2 (Z.pos m)) as (_ & D). change (Z.abs (Z.pos m)) with (Z.pos m) in D. split; [|lia].
  eapply Z.lt_le_trans; [exact D|]. change (radix_val radix2) with 2. apply Z.pow_le_mono_r; lia.
Qed.
Lemma exact_fmt n m e s : ty_integer n = false -> Z.abs m < 2 ^ fmt_prec n -> 3 - fmt_emax n - fmt_prec n <= e <= fmt_emax n - fmt_prec n ->
  denotes n (VFlt (to_fmt n m e s)) (F2R (Float radix2 m e)).
Proof.
  intros I A B. assert (0 < fmt_prec n) as P by (destruct n; reflexivity). rewrite <- (rounded_exact n m e A (proj1 B)). apply to_fmt_rounded; [|exact I].
  rewrite (rounded_exact n m e A (proj1 B)), <- F2R_Zabs. unfold F2R. cbn [Fnum Fexp]. apply Rlt_le_trans with (bpow radix2 (fmt_prec n) * bpow radix2 e)%R.
  - apply Rmult_lt_compat_r; [apply bpow_gt_0|]. rewrite <- IZR_Zpower by lia. now apply IZR_lt.
  - rewrite <- bpow_plus. apply bpow_le. lia.
Qed.
(** The operations without rounding *)
Lemma shift_value s m e k : k <= e -> F2R (Float radix2 (cond_Zopp s (Z.pos m)) e) = (IZR (cond_Zopp s (Z.pos m * 2 ^ (e - k))) * bpow radix2 k)%R.
Proof.
  intros L. assert (cond_Zopp s (Z.pos m * 2 ^ (e - k)) = cond_Zopp s (Z.pos m) * 2 ^ (e - k)) as -> by (destruct s; cbn [cond_Zopp]; ring).
  rewrite mult_IZR. change 2 with (radix_val radix2). rewrite IZR_Zpower by lia. unfold F2R. cbn [Fnum Fexp]. rewrite Rmult_assoc, <- bpow_plus. do 2 f_equal. lia.
Qed.
Lemma rem_signs s s' a b : 0 <= a -> 0 < b -> Z.rem (cond_Zopp s a) (cond_Zopp s' b) = if s then - (a mod b) else a mod b.
Proof.
  intros A B. destruct s, s'; cbn [cond_Zopp]; rewrite ?Z.rem_opp_r', ?Z.rem_opp_l', Z.rem_mod_nonneg by lia; reflexivity.
Qed.
Lemma rem_exact n f g : ty_integer n = false -> valid_binary (fmt_prec n) (fmt_emax n) f = true -> is_finite_SF f = true -> valid_binary (fmt_prec n) (fmt_emax n) g = true -> is_finite_SF g = true ->
  SF2R radix2 g <> 0%R -> denotes n (VFlt (f_rem n f g)) (SF2R radix2 f - IZR (Ztrunc (SF2R radix2 f / SF2R radix2 g)) * SF2R radix2 g).
Proof.
  intros I Vf Ff Vg Fg NZ. destruct g as [t|t| |t m' e']; try discriminate Fg; [now contradiction NZ|]. destruct f as [s|s| |s m e]; try discriminate Ff.
  - cbn [f_rem]. replace (SF2R radix2 (S754_zero s) - _)%R with (SF2R radix2 (S754_zero s)); [now constructor|]. cbn [SF2R]. unfold Rdiv. rewrite Rmult_0_l. change 0%R with (IZR 0). rewrite Ztrunc_IZR. lra.
  - cbn [f_rem SF2R] in *. destruct (bounded_parts _ _ _ _ Vf) as (M & E). destruct (bounded_parts _ _ _ _ Vg) as (M' & E'). set (k := Z.min e e').
    rewrite (shift_value s m e k), (shift_value t m' e' k) by lia. set (a := Z.pos m * 2 ^ (e - k)). set (b := Z.pos m' * 2 ^ (e' - k)).
    assert (0 < a) as A by (apply Z.mul_pos_pos; [lia|apply Z.pow_pos_nonneg; lia]). assert (0 < b) as B by (apply Z.mul_pos_pos; [lia|apply Z.pow_pos_nonneg; lia]).
    assert (NB : IZR (cond_Zopp t b) <> 0%R) by (destruct t; cbn [cond_Zopp]; apply not_0_IZR; lia). pose proof (bpow_gt_0 radix2 k) as BP.
    replace (IZR (cond_Zopp s a) * bpow radix2 k / (IZR (cond_Zopp t b) * bpow radix2 k))%R with (IZR (cond_Zopp s a) / IZR (cond_Zopp t b))%R by (field; split; [lra|exact NB]).
    rewrite Ztrunc_div by (destruct t; cbn [cond_Zopp]; lia).
    replace (IZR (cond_Zopp s a) * bpow radix2 k - IZR (Z.quot (cond_Zopp s a) (cond_Zopp t b)) * (IZR (cond_Zopp t b) * bpow radix2 k))%R with (F2R (Float radix2 (if s then - (a mod b) else a mod b) k)).
    + apply exact_fmt; [exact I| |lia]. pose proof (Z.mod_pos_bound a b B). pose proof (Z.mod_le a b ltac:(lia) B). assert (Z.abs (if s then - (a mod b) else a mod b) = a mod b) as -> by (destruct s; lia).
      destruct (Z.min_spec e e') as [(L & Q)|(L & Q)]; fold k in Q.
      * assert (a = Z.pos m) as Ea by (unfold a; rewrite Q, Z.sub_diag; lia). lia.
      * assert (b = Z.pos m') as Eb by (unfold b; rewrite Q, Z.sub_diag; lia). lia.
    + rewrite <- (rem_signs s t a b) by lia. unfold F2R. cbn [Fnum Fexp]. rewrite Z.rem_eq by (destruct t; cbn [cond_Zopp]; lia). rewrite minus_IZR, mult_IZR. ring.
Qed.
Lemma rem_multiple n f g q : valid_binary (fmt_prec n) (fmt_emax n) f = true -> is_finite_SF f = true -> is_finite_SF g = true ->
  SF2R radix2 g <> 0%R -> SF2R radix2 f = (IZR q * SF2R radix2 g)%R -> f_rem n f g = S754_zero (sign_of f).
Proof.
  intros Vf Ff Fg NZ E. destruct g as [t|t| |t m' e']; try discriminate Fg; [now contradiction NZ|]. destruct f as [s|s| |s m e]; try discriminate Ff; [reflexivity|].
  cbn [f_rem SF2R sign_of] in *. set (k := Z.min e e').
  rewrite (shift_value s m e k), (shift_value t m' e' k) in E by lia. set (a := Z.pos m * 2 ^ (e - k)) in *. set (b := Z.pos m' * 2 ^ (e' - k)) in *.
  assert (0 < a) as A by (apply Z.mul_pos_pos; [lia|apply Z.pow_pos_nonneg; lia]). assert (0 < b) as B by (apply Z.mul_pos_pos; [lia|apply Z.pow_pos_nonneg; lia]).
  pose proof (bpow_gt_0 radix2 k) as BP. rewrite <- Rmult_assoc, <- mult_IZR in E. apply Rmult_eq_reg_r in E; [|lra]. apply eq_IZR in E.
  pose proof (rem_signs s t a b ltac:(lia) B) as R. rewrite E, Z.rem_mul in R by (destruct t; cbn [cond_Zopp]; lia). assert (a mod b = 0) as -> by (destruct s; lia).
  destruct s; reflexivity.
Qed.
Lemma max_exact n f g : ty_integer n = false -> valid_binary (fmt_prec n) (fmt_emax n) f = true -> is_finite_SF f = true -> valid_binary (fmt_prec n) (fmt_emax n) g = true -> is_finite_SF g = true ->
  denotes n (VFlt (f_max f g)) (Rmax (SF2R radix2 f) (SF2R radix2 g)) /\ denotes n (VFlt (f_min f g)) (Rmin (SF2R radix2 f) (SF2R radix2 g)).
Proof.
  intros I Vf Ff Vg Fg. assert (Df : denotes n (VFlt f) (SF2R radix2 f)) by now constructor. assert (Dg : denotes n (VFlt g) (SF2R radix2 g)) by now constructor.
  unfold f_max, f_min. rewrite (compare_sf _ _ f g Vf Vg Ff Fg). destruct (Rcompare_spec (SF2R radix2 f) (SF2R radix2 g)) as [L|E|L].
  - rewrite Rmax_right, Rmin_left by lra. auto.
  - rewrite <- E in *. rewrite Rmax_left, Rmin_left by lra. split; (destruct f as [[]|?| |? ? ?]; assumption).
  - rewrite Rmax_left, Rmin_right by lra. auto.
Qed.
(** Whole numbers *)
Definition picks (up : bool -> Z -> Z -> Z -> bool) (g : R -> Z) : Prop :=
  forall s m d, 0 < m -> 1 < d -> g (IZR (cond_Zopp s m) / IZR d)%R = cond_Zopp s (if up s (m / d) (m mod d) d then m / d + 1 else m / d).
Lemma opp_quotient a d : (- (IZR a / IZR d) = IZR (- a) / IZR d)%R. Proof. rewrite opp_IZR. unfold Rdiv. ring. Qed.
Lemma floor_opp a d : 1 < d -> - a / d = - (if negb (a mod d =? 0) then a / d + 1 else a / d).
Proof.
  intros D. destruct (Z.eqb_spec (a mod d) 0) as [E|E]; cbn [negb]; [apply Z.div_opp_l_z; lia|]. rewrite Z.div_opp_l_nz by lia. lia.
Qed.
Lemma picks_floor : picks (fun s _ r _ => s && negb (r =? 0)) Zfloor.
Proof. intros s m d M D. rewrite Zfloor_div by lia. destruct s; cbn [cond_Zopp andb]; [now apply floor_opp|reflexivity]. Qed.
Lemma picks_ceil : picks (fun s _ r _ => negb s && negb (r =? 0)) Zceil.
Proof.
  intros s m d M D. unfold Zceil. rewrite opp_quotient, Zfloor_div by lia. destruct s; cbn [cond_Zopp andb negb]; [rewrite Z.opp_involutive; reflexivity|]. rewrite floor_opp by lia. apply Z.opp_involutive.
Qed.
Lemma picks_trunc : picks (fun _ _ _ _ => false) Ztrunc.
Proof. intros s m d M D. rewrite Ztrunc_div by lia. destruct s; cbn [cond_Zopp]; rewrite ?Z.quot_opp_l, Z.quot_div_nonneg by lia; reflexivity. Qed.
Lemma nearest_positive choice m d : 0 < m -> 1 < d ->
  Znearest choice (IZR m / IZR d) = if (d <? 2 * (m mod d)) || ((2 * (m mod d) =? d) && choice (m / d)) then m / d + 1 else m / d.
Proof.
  intros M D. unfold Znearest. assert (0 < IZR d)%R as DP by (apply IZR_lt; lia). pose proof (Z.div_mod m d ltac:(lia)) as E. pose proof (Z.mod_pos_bound m d ltac:(lia)) as B.
  rewrite Zfloor_div by lia. assert (IZR m / IZR d - IZR (m / d) = IZR (m mod d) / IZR d)%R as X.
  { rewrite E at 1. rewrite plus_IZR, mult_IZR. field. lra. }
  rewrite X. assert (C : m mod d <> 0 -> Zceil (IZR m / IZR d) = m / d + 1).
  { intros NZ. rewrite <- (Zfloor_div m d) by lia. apply Zceil_floor_neq. rewrite Zfloor_div by lia. intros Q. apply NZ. apply eq_IZR. rewrite <- Q in X. assert (IZR (m mod d) / IZR d = 0)%R as X0 by lra.
    apply Rmult_integral in X0 as [X0|X0]; [exact X0|]. pose proof (Rinv_0_lt_compat _ DP). lra. }
  assert (H : (/ 2 = IZR d / 2 / IZR d)%R) by (field; lra).
  destruct (Z.lt_trichotomy (2 * (m mod d)) d) as [L|[L|L]].
  - rewrite Rcompare_Lt. { rewrite (proj2 (Z.ltb_ge _ _)), (proj2 (Z.eqb_neq _ _)) by lia. reflexivity. }
    rewrite H. apply Rmult_lt_compat_r; [now apply Rinv_0_lt_compat|]. apply IZR_lt in L. rewrite mult_IZR in L. lra.
  - rewrite Rcompare_Eq. { rewrite (proj2 (Z.ltb_ge _ _)), (proj2 (Z.eqb_eq _ _)) by lia. cbn [orb andb]. rewrite C by lia. reflexivity. }
    rewrite H. apply (f_equal IZR) in L. rewrite mult_IZR in L. f_equal. lra.
  - rewrite Rcompare_Gt. { rewrite (proj2 (Z.ltb_lt _ _)) by lia. cbn [orb]. apply C. lia. }
    rewrite H. apply Rmult_lt_compat_r; [now apply Rinv_0_lt_compat|]. apply IZR_lt in L. rewrite mult_IZR in L. lra.
Qed.
Lemma picks_nearest choice : (forall q, 0 <= q -> negb (choice (- (q + 1))) = choice q) ->
  picks (fun _ q r d => (d <? 2 * r) || ((2 * r =? d) && choice q)) (Znearest choice).
Proof.
  intros SY s m d M D. destruct s; cbn [cond_Zopp]; [|now apply nearest_positive]. rewrite <- opp_quotient, Znearest_opp. f_equal. rewrite nearest_positive by lia. rewrite SY by (apply Z.div_pos; lia). reflexivity.
Qed.
Lemma picks_same up up' g : (forall s q r d, 0 <= q -> up s q r d = up' s q r d) -> picks up g -> picks up' g.
Proof. intros E P s m d M D. rewrite <- E by (apply Z.div_pos; lia). now apply P. Qed.
Lemma picks_round : picks (fun _ _ r d => d <=? 2 * r) ZnearestA.
Proof.
  apply (picks_same (fun _ q r d => (d <? 2 * r) || ((2 * r =? d) && (0 <=? q)))).
  - intros s q r d Q. rewrite (proj2 (Z.leb_le 0 q)) by lia. rewrite andb_true_r. destruct (Z.ltb_spec d (2 * r)), (Z.eqb_spec (2 * r) d), (Z.leb_spec d (2 * r)); cbn [orb]; auto; lia.
  - apply picks_nearest. intros q Q. rewrite (proj2 (Z.leb_le 0 q)) by lia. rewrite (proj2 (Z.leb_gt 0 (- (q + 1)))) by lia. reflexivity.
Qed.
Lemma picks_rint : picks (fun _ q r d => (d <? 2 * r) || ((2 * r =? d) && Z.odd q)) ZnearestE.
Proof.
  apply (picks_same (fun _ q r d => (d <? 2 * r) || ((2 * r =? d) && negb (Z.even q)))).
  - intros s q r d Q. now rewrite Z.negb_even.
  - apply picks_nearest. intros q Q. rewrite negb_involutive, Z.even_opp, Z.add_1_r, Z.even_succ. now rewrite Z.negb_even.
Qed.
Lemma whole_small (up : bool -> Z -> Z -> Z -> bool) s m d : 0 < m -> 1 < d -> 0 <= (if up s (m / d) (m mod d) d then m / d + 1 else m / d) <= m.
Proof.
  intros M D. pose proof (Z.div_pos m d ltac:(lia) ltac:(lia)) as P. pose proof (Z.div_lt m d M D) as L. destruct (up s (m / d) (m mod d) d); lia.
Qed.
Lemma whole_exact n up g f : picks up g -> Valid_rnd g -> ty_integer n = false -> valid_binary (fmt_prec n) (fmt_emax n) f = true -> is_finite_SF f = true ->
  denotes n (VFlt (f_whole up n f)) (IZR (g (SF2R radix2 f))) /\ sign_of (f_whole up n f) = sign_of f.
Proof.
  intros P VR I Vf Ff. destruct f as [s|s| |s m e]; try discriminate Ff.
  - cbn [f_whole SF2R]. change 0%R with (IZR 0) at 1. rewrite (@Zrnd_IZR g VR). split; [|reflexivity]. exact (den_flt n (S754_zero s) I eq_refl eq_refl).
  - cbn [f_whole]. destruct (bounded_parts _ _ _ _ Vf) as (M & E). destruct (0 <=? e) eqn:EE.
    + apply Z.leb_le in EE. split; [|reflexivity]. replace (IZR (g (SF2R radix2 (S754_finite s m e)))) with (SF2R radix2 (S754_finite s m e)); [now constructor|].
      cbn [SF2R]. unfold F2R. cbn [Fnum Fexp]. rewrite <- (IZR_Zpower radix2 e EE), <- mult_IZR. now rewrite (@Zrnd_IZR g VR).
    + apply Z.leb_gt in EE. cbv zeta. set (d := 2 ^ (- e)). assert (1 < d) as D. { unfold d. change 1 with (2 ^ 0). apply Z.pow_lt_mono_r; lia. }
      pose proof (whole_small up s (Z.pos m) d ltac:(lia) D) as W. set (v := if up s (Z.pos m / d) (Z.pos m mod d) d then Z.pos m / d + 1 else Z.pos m / d) in *.
      assert (VAL : IZR (g (SF2R radix2 (S754_finite s m e))) = F2R (Float radix2 (if s then - v else v) 0)).
      { cbn [SF2R]. replace (F2R (Float radix2 (cond_Zopp s (Z.pos m)) e)) with (IZR (cond_Zopp s (Z.pos m)) / IZR d)%R.
        - rewrite P by lia. fold v. unfold F2R. cbn [Fnum Fexp bpow]. destruct s; cbn [cond_Zopp]; lra.
        - unfold F2R, Rdiv. cbn [Fnum Fexp]. f_equal. unfold d. change 2 with (radix_val radix2). rewrite IZR_Zpower by lia. rewrite <- bpow_opp. f_equal. lia. }
      assert (DEN : denotes n (VFlt (to_fmt n (if s then - v else v) 0 s)) (F2R (Float radix2 (if s then - v else v) 0))).
      { apply exact_fmt; [exact I|destruct s; lia|destruct n; split; discriminate]. }
      rewrite VAL. split; [exact DEN|]. cbn [sign_of]. destruct (Z.eq_dec v 0) as [->|NZ]; [destruct s; reflexivity|].
      destruct (denotes_one _ _ _ DEN) as [(z & I' & _)|(h & _ & _ & Fh & Eh & Vh)]; [congruence|]. injection Eh as Eh. rewrite Eh.
      destruct h as [t|t| |t hm he]; try discriminate Fh.
      * exfalso. cbn [SF2R] in Vh. apply eq_0_F2R in Vh. destruct s; lia.
      * cbn [SF2R sign_of] in *. destruct s, t; try reflexivity; exfalso; cbn [cond_Zopp] in Vh.
        -- assert (F2R (Float radix2 (- v) 0) < 0)%R by (apply F2R_lt_0; cbn [Fnum]; lia). assert (0 < F2R (Float radix2 (Z.pos hm) he))%R by (apply F2R_gt_0; reflexivity). lra.
        -- assert (0 < F2R (Float radix2 v 0))%R by (apply F2R_gt_0; cbn [Fnum]; lia). assert (F2R (Float radix2 (- Z.pos hm) he) < 0)%R by (apply F2R_lt_0; reflexivity). lra.
Qed.
Lemma parts_value f : is_finite_SF f = true -> exists s m e, f_parts f = Some (s, m, e) /\ SF2R radix2 f = (IZR m * bpow radix2 e)%R.
Proof.
  destruct f as [s|s| |s m e]; try discriminate; intros _; cbn [f_parts SF2R]; do 3 eexists; (split; [reflexivity|]); [lra|]. destruct s; reflexivity.
Qed.
Lemma fma_rounded n f g h : ty_integer n = false -> is_finite_SF f = true -> is_finite_SF g = true -> is_finite_SF h = true ->
  let r := (SF2R radix2 f * SF2R radix2 g + SF2R radix2 h)%R in (Rabs (rounded n r) < bpow radix2 (fmt_emax n))%R ->
  denotes n (VFlt (f_fma n f g h)) (rounded n r).
Proof.
  intros I Ff Fg Fh r B. destruct (parts_value f Ff) as (s & x & a & Pf & Ef). destruct (parts_value g Fg) as (t & y & b & Pg & Eg). destruct (parts_value h Fh) as (u & z & c & Ph & Eh).
  unfold f_fma. rewrite Pf, Pg, Ph. cbv zeta. set (k := Z.min (a + b) c).
  assert (E : F2R (Float radix2 (x * y * 2 ^ (a + b - k) + z * 2 ^ (c - k)) k) = r).
  { unfold r. rewrite Ef, Eg, Eh. unfold F2R. cbn [Fnum Fexp]. change 2 with (radix_val radix2). rewrite plus_IZR, !mult_IZR, !IZR_Zpower by lia.
    rewrite Rmult_plus_distr_r. f_equal; rewrite Rmult_assoc, <- bpow_plus.
    - replace (a + b - k + k) with (a + b) by lia. rewrite bpow_plus. ring.
    - do 2 f_equal. lia. }
  pose proof (to_fmt_rounded n (x * y * 2 ^ (a + b - k) + z * 2 ^ (c - k)) k (xorb s t && u)) as T. cbv zeta in T. rewrite E in T. now apply T.
Qed.
(** Conversions *)
Lemma cast_ok m n v x x' : denotes m v x -> converts x n x' -> m <> n -> exists v', cast (TNum m) (TNum n) v = Some v' /\ denotes n v' x'.
Proof.
  intros D C NE. destruct (denotes_one _ _ _ D) as [(z & I & HO & -> & ->)|(f & I & V & Fi & -> & ->)]; destruct C as [n HO'|n [I' B]].
  - rewrite Ztrunc_IZR in *. exists (encode n z). split; [apply cast_int; [exact HO|apply (holds_int _ _ HO')]|now constructor].
  - rewrite (encode_bits m z HO). cbn [cast]. rewrite I'. eexists. split; [reflexivity|]. cbv zeta. change (if d_signed m then as_signed (ty_bits m) (z mod 2 ^ ty_bits m) else z mod 2 ^ ty_bits m) with (reading m (z mod 2 ^ ty_bits m)). rewrite (read_back m z HO).
    pose proof (to_fmt_rounded n z 0 false) as T. cbv zeta in T. replace (F2R (Float radix2 z 0)) with (IZR z) in T by (unfold F2R; cbn; lra). now apply T.
  - cbn [cast]. rewrite (holds_int _ _ HO'), (trunc_value f Fi). pose proof (proj1 (holds_range n _ (holds_int _ _ HO')) HO') as RG. pose proof (encode_bits n _ HO') as EB.
    destruct (d_signed n) eqn:Sg.
    + rewrite (proj2 (Z.leb_le _ _)), (proj2 (Z.ltb_lt _ _)) by lia. eexists. split; [reflexivity|]. cbn [andb]. rewrite <- EB. now constructor.
    + rewrite (proj2 (Z.leb_le _ _)), (proj2 (Z.ltb_lt _ _)) by lia. eexists. split; [reflexivity|]. rewrite Z.mod_small in EB by lia. rewrite <- EB. now constructor.
  - cbn [cast]. rewrite I'. eexists. split; [reflexivity|]. destruct f as [s|s| |s mm e]; try discriminate Fi.
    + cbn [SF2R f_round]. rewrite zero_rounded. exact (den_flt n (S754_zero s) I' eq_refl eq_refl).
    + rewrite finite_value in *. cbn [f_round]. now apply to_fmt_rounded.
Qed.
Lemma converts_same n v x x' : denotes n v x -> converts x n x' -> x' = x.
Proof.
  intros D C. destruct C as [n HO|n [I B]].
  - destruct (denotes_int n v x D (holds_int _ _ HO)) as (z & _ & _ & ->). now rewrite Ztrunc_IZR.
  - apply rounded_id; [now exists v|exact I].
Qed.
Lemma convert_ok m n v x x' : denotes m v x -> converts x n x' -> exists v', Codegen_Spec.convert cast (TNum m, v) (TNum n) = Ret v' /\ denotes n v' x'.
Proof.
  intros D C. unfold Codegen_Spec.convert. destruct (numty_eq_dec m n) as [->|NE].
  - rewrite vty_refl. exists v. split; [reflexivity|]. now rewrite (converts_same n v x x' D C).
  - assert (vty_eqb (TNum m) (TNum n) = false) as -> by (apply vty_eqb_neq; congruence). destruct (cast_ok m n v x x' D C NE) as (v' & -> & D'). exists v'. auto.
Qed.

Section Eval.
Context {W : Type}.
Variable lib : optok -> vty -> list val -> option val.
Variable ext : text -> W -> list val -> W * val.
Variable llvm19 : bool.
Variable op_fun : optok -> vty -> option vty.
Variable fsig : text -> option (list vty * vty).
Notation eval := (@Codegen_Spec.eval val W (Scalar_Model.oper lib) cast (total ext) konst_val llvm19 op_fun fsig).
Notation oper := (Scalar_Model.oper lib).

Lemma operates_ok n op v w x y r : denotes n v x -> denotes n w y -> operates n op x y r -> exists u, oper op (TNum n) [v; w] = Some u /\ denotes n u r /\ Codegen_Spec.result_type llvm19 op_fun op (TNum n) = Some (TNum n).
Proof.
  intros Dv Dw O. destruct O as [x y z B|x y r RO [I B]|x y r I XO].
  - assert (A : holds n x = true /\ holds n y = true /\ holds n z = true /\ arith_op op = true).
    { unfold both in B. rewrite wider_self in B. destruct (holds n x); [|discriminate B]. destruct (holds n y); [|discriminate B]. cbn [andb] in B.
      destruct op; cbn [compares] in B; try discriminate B; cbn [computes] in B;
        repeat match type of B with context [if ?c then _ else _] => destruct c; try discriminate B end;
        apply keep_inv in B as (K & E); injection E as ->; auto. }
    destruct A as (Hx & Hy & Hz & A).
    assert (v = encode n x) as ->. { destruct (denotes_int n v _ Dv (holds_int _ _ Hx)) as (k & _ & -> & E). now apply eq_IZR in E as ->. }
    assert (w = encode n y) as ->. { destruct (denotes_int n w _ Dw (holds_int _ _ Hy)) as (k & _ & -> & E). now apply eq_IZR in E as ->. }
    destruct (both_ok lib llvm19 op_fun op (MInt n x) (MInt n y) (MInt n z) Hx Hy B) as (_ & E).
    unfold Codegen_Spec.apply_op in E. cbn [map fst ideal_type machine Codegen_Spec.common] in E. rewrite vty_refl in E. cbn [typed obind] in E.
    destruct (Codegen_Spec.result_type llvm19 op_fun op (TNum n)) as [t|] eqn:RT; [|discriminate E]. cbn [typed obind Codegen_Spec.convert_all] in E.
    unfold Codegen_Spec.convert in E. rewrite vty_refl in E. cbn [obind] in E. destruct (oper op (TNum n) [encode n x; encode n y]) as [u|]; [|discriminate E]. cbn [defined obind] in E. injection E as -> ->.
    eexists. split; [reflexivity|]. split; [now constructor|reflexivity].
  - destruct (denotes_one _ _ _ Dv) as [(z & I' & _)|(f & _ & Vf & Ff & -> & ->)]; [congruence|]. destruct (denotes_one _ _ _ Dw) as [(z & I' & _)|(g & _ & Vg & Fg & -> & ->)]; [congruence|].
    destruct (op_rounded _ _ (fmt_prec_pos n) (fmt_prec_lt n) op f g r Vf Ff Vg Fg RO B) as (h & M & V & Fi & E).
    exists (VFlt h). cbn [Scalar_Model.oper]. rewrite I. destruct op; try discriminate M; injection M as <-; (split; [reflexivity|]; split; [unfold rounded; rewrite <- E; now constructor|reflexivity]).
  - destruct (denotes_one _ _ _ Dv) as [(z & I' & _)|(f & _ & Vf & Ff & -> & ->)]; [congruence|]. destruct (denotes_one _ _ _ Dw) as [(z & I' & _)|(g & _ & Vg & Fg & -> & ->)]; [congruence|].
    cbn [Scalar_Model.oper]. rewrite I. destruct (max_exact n f g I Vf Ff Vg Fg) as (MX & MN).
    assert (RT : forall op', In op' [OP_MOD; OP_MAX; OP_MIN] -> Codegen_Spec.result_type llvm19 op_fun op' (TNum n) = Some (TNum n)).
    { intros op' IN. repeat (destruct IN as [<-|IN]; [destruct n; try discriminate I; reflexivity|]). destruct IN. }
    inversion XO; subst; eexists; (split; [reflexivity|]); (split; [|apply RT; cbn; auto]); [now apply rem_exact|exact MX|exact MN].
Qed.
Lemma compare_any n v w x y op b : denotes n v x -> denotes n w y -> answer op (Rcompare x y) = Some b ->
  oper op (TNum n) [v; w] = Some (VInt (if b then 1 else 0)) /\ Codegen_Spec.result_type llvm19 op_fun op (TNum n) = Some TBit.
Proof.
  intros Dv Dw A. pose proof (compare_values n v w x y op b Dv Dw A) as C. split; [|destruct op; try discriminate A; reflexivity].
  change (i1 b) with (if b then 1 else 0) in C. rewrite <- C.
  destruct (denotes_one _ _ _ Dv) as [(z & I & H1 & -> & _)|(f & I & _ & _ & -> & _)]; destruct (denotes_one _ _ _ Dw) as [(z' & I' & H2 & -> & _)|(g & I' & _ & _ & -> & _)]; try congruence.
  - rewrite (encode_bits _ _ H1), (encode_bits _ _ H2). cbn [Scalar_Model.oper]. rewrite I. destruct op; try discriminate A; reflexivity.
  - cbn [Scalar_Model.oper]. rewrite I. destruct op; try discriminate A; reflexivity.
Qed.
Definition agrees (σ : text -> option quantity) (ρ : env) : Prop := forall x q, σ x = Some q -> exists v, represents q v /\ ρ x = Some (q_type q, v).
Lemma rep_num_inv n x v : represents (QNum n x) v -> denotes n v x. Proof. intros R. inversion R; subst; auto. Qed.
Lemma rep_bool_inv b v : represents (QBool b) v -> v = VInt (if b then 1 else 0). Proof. intros R. inversion R; subst; auto. Qed.
Lemma convert_both m n x y x' y' v w t : denotes m v x -> denotes n w y -> converts x t x' -> converts y t y' ->
  exists v' w', Codegen_Spec.convert_all cast [(TNum m, v); (TNum n, w)] (TNum t) = Ret [v'; w'] /\ denotes t v' x' /\ denotes t w' y'.
Proof.
  intros Dv Dw Cx Cy. destruct (convert_ok _ _ _ _ _ Dv Cx) as (v' & E1 & D1). destruct (convert_ok _ _ _ _ _ Dw Cy) as (w' & E2 & D2).
  exists v', w'. cbn [Codegen_Spec.convert_all]. rewrite E1. cbn [obind]. rewrite E2. auto.
Qed.
Lemma apply_operation op m n v w x y x' y' r : denotes m v x -> denotes n w y -> converts x (wider m n) x' -> converts y (wider m n) y' -> operates (wider m n) op x' y' r ->
  exists u, Codegen_Spec.apply_op oper cast llvm19 op_fun op [(TNum m, v); (TNum n, w)] = Ret (TNum (wider m n), u) /\ denotes (wider m n) u r.
Proof.
  intros Dv Dw Cx Cy O. destruct (convert_both _ _ _ _ _ _ _ _ _ Dv Dw Cx Cy) as (v' & w' & E & D1 & D2). destruct (operates_ok _ _ _ _ _ _ _ D1 D2 O) as (u & E' & Du & RT).
  exists u. unfold Codegen_Spec.apply_op. cbn [map fst]. rewrite common_int. cbn [typed obind]. rewrite RT. cbn [typed obind]. rewrite E. cbn [obind]. rewrite E'. auto.
Qed.
Definition leaves {A} (σ : text -> option A) (ρ : text -> option (vty * val)) : Prop := forall x, σ x = None -> ρ x = None.
Lemma constant_value x m : rounded F64 x = F2R (Float radix2 m (-51)) -> Z.abs m < 2 ^ 53 -> denotes F64 (VFlt (to_fmt F64 m (-51) false)) (rounded F64 x).
Proof.
  intros E B. assert (R : rounded F64 (F2R (Float radix2 m (-51))) = F2R (Float radix2 m (-51))) by (apply rounded_exact; [exact B|discriminate]).
  pose proof (to_fmt_rounded F64 m (-51) false) as T. cbv zeta in T.  rewrite E, <- R. apply T; [|reflexivity].
  rewrite R. rewrite <- F2R_Zabs. unfold F2R. cbn [Fnum Fexp]. apply Rlt_trans with (bpow radix2 53 * bpow radix2 (-51))%R.
  - apply Rmult_lt_compat_r; [apply bpow_gt_0|]. change (bpow radix2 53) with (IZR (2 ^ 53)). now apply IZR_lt.
  - rewrite <- bpow_plus. now apply bpow_lt.
Qed.
Definition float_functions : list optok := [OP_SQRT; OP_FLOOR; OP_CEIL; OP_TRUNC; OP_ROUND; OP_RINT].
Lemma float_result n op : ty_integer n = false -> In op (OP_FMA :: float_functions) -> Codegen_Spec.result_type llvm19 op_fun op (TNum n) = Some (TNum n).
Proof. intros I IN. unfold float_functions in IN. repeat (destruct IN as [<-|IN]; [destruct n; try discriminate I; destruct llvm19; reflexivity|]). destruct IN. Qed.
Lemma one_float n op f h (w : W) : ty_integer n = false -> oper op (TNum n) [VFlt f] = Some (VFlt h) -> In op float_functions ->
  (do! r <- Codegen_Spec.apply_op oper cast llvm19 op_fun op [(TNum n, VFlt f)]; Ret (w, r)) = Ret (w, (TNum n, VFlt h)).
Proof.
  intros I E IN. unfold Codegen_Spec.apply_op. cbn [map fst Codegen_Spec.common typed obind]. rewrite (float_result n op I (or_intror IN)). cbn [typed obind Codegen_Spec.convert_all]. unfold Codegen_Spec.convert. rewrite vty_refl. cbn [obind]. now rewrite E.
Qed.
Lemma three_floats l m n v1 v2 v3 f g h (w : W) : let t := wider l (wider m n) in ty_integer t = false ->
  Codegen_Spec.convert cast (TNum l, v1) (TNum t) = Ret (VFlt f) -> Codegen_Spec.convert cast (TNum m, v2) (TNum t) = Ret (VFlt g) -> Codegen_Spec.convert cast (TNum n, v3) (TNum t) = Ret (VFlt h) ->
  (do! r <- Codegen_Spec.apply_op oper cast llvm19 op_fun OP_FMA [(TNum l, v1); (TNum m, v2); (TNum n, v3)]; Ret (w, r)) = Ret (w, (TNum t, VFlt (f_fma t f g h))).
Proof.
  intros t I E1 E2 E3. unfold Codegen_Spec.apply_op. cbn [map fst]. change (Codegen_Spec.common [TNum l; TNum m; TNum n]) with (Some (TNum t)). cbn [typed obind]. rewrite (float_result t OP_FMA I (or_introl eq_refl)). cbn [typed obind Codegen_Spec.convert_all].
  rewrite E1. cbn [obind]. rewrite E2. cbn [obind]. rewrite E3. reflexivity.
Qed.
Lemma whole_function fn g n f : In (fn, g) whole_functions -> ty_integer n = false -> valid_binary (fmt_prec n) (fmt_emax n) f = true -> is_finite_SF f = true ->
  exists op h, find_text function_operators fn = Some (op, 1%nat) /\ In op float_functions /\ oper op (TNum n) [VFlt f] = Some (VFlt h) /\ denotes n (VFlt h) (IZR (g (SF2R radix2 f))) /\ sign_of h = sign_of f.
Proof.
  intros IN I V F. unfold whole_functions, float_functions in *. destruct IN as [IN|[IN|[IN|[IN|[IN|[]]]]]].
  - assert (fn = lit "floor" /\ g = Zfloor) as (-> & ->) by (split; congruence). exists OP_FLOOR. eexists. split; [reflexivity|]. split; [cbn; auto 10|]. split; [reflexivity|]. apply whole_exact; auto; [apply picks_floor|apply valid_rnd_DN].
  - assert (fn = lit "ceil" /\ g = Zceil) as (-> & ->) by (split; congruence). exists OP_CEIL. eexists. split; [reflexivity|]. split; [cbn; auto 10|]. split; [reflexivity|]. apply whole_exact; auto; [apply picks_ceil|apply valid_rnd_UP].
  - assert (fn = lit "trunc" /\ g = Ztrunc) as (-> & ->) by (split; congruence). exists OP_TRUNC. eexists. split; [reflexivity|]. split; [cbn; auto 10|]. split; [reflexivity|]. apply whole_exact; auto; [apply picks_trunc|apply valid_rnd_ZR].
  - assert (fn = lit "round" /\ g = ZnearestA) as (-> & ->) by (split; congruence). exists OP_ROUND. eexists. split; [reflexivity|]. split; [cbn; auto 10|]. split; [reflexivity|]. apply whole_exact; auto; [apply picks_round|apply valid_rnd_N].
  - assert (fn = lit "rint" /\ g = ZnearestE) as (-> & ->) by (split; congruence). exists OP_RINT. eexists. split; [reflexivity|]. split; [cbn; auto 10|]. split; [reflexivity|]. apply whole_exact; auto; [apply picks_rint|apply valid_rnd_N].
Qed.
Lemma means_ok σ ρ : agrees σ ρ -> leaves σ ρ -> forall e q, means σ e q -> exists v, represents q v /\ forall w, eval ρ w e = Ret (w, (q_type q, v)).
Proof.
  intros A LV. induction 1 as [b|v ty n z BC HO|v ty n m e BC [I B]|x q E|E|E|a n x M IH HS|a n x M IH SG HS|a n x M IH I NN|fn g a n x IN M IH I|a b c l m n t x y z x' y' z' M1 IH1 M2 IH2 M3 IH3 ET C1 C2 C3 [I B]|a b M IH|a b x y M1 IH1 M2 IH2|a b x y M1 IH1 M2 IH2
    |op a b m n x y x' y' r IN M1 IH1 M2 IH2 C1 C2 O|f op a b m n x y x' y' r IN M1 IH1 M2 IH2 C1 C2 O|op a b m n x y x' y' c M1 IH1 M2 IH2 C1 C2 AN
    |c a b t m n x y x' y' M0 IH0 M1 IH1 M2 IH2 C1 C2|c a b t x y M0 IH0 M1 IH1 M2 IH2].
  - exists (VInt (if b then 1 else 0)). split; [constructor|reflexivity].
  - exists (encode n z). split; [constructor; now constructor|]. intros w. cbn [Codegen_Spec.eval]. rewrite BC. cbn [obind konst_val q_type]. now rewrite (encode_bits n z HO).
  - eexists. split; [constructor; apply (to_fmt_rounded n m e false B I)|]. intros w. cbn [Codegen_Spec.eval]. rewrite BC. reflexivity.
  - destruct (A x q E) as (v & R & EV). exists v. split; [exact R|]. intros w. cbn [Codegen_Spec.eval]. now rewrite EV.
  - exists (VFlt (to_fmt F64 7074237752028440 (-51) false)). split; [constructor; apply constant_value; [exact Constants_Proofs.pi_rounded|reflexivity]|]. intros w. cbn [Codegen_Spec.eval]. rewrite (LV _ E), text_eqb_refl. reflexivity.
  - exists (VFlt (to_fmt F64 6121026514868073 (-51) false)). split; [constructor; apply constant_value; [exact Constants_Proofs.e_rounded|reflexivity]|]. intros w. cbn [Codegen_Spec.eval]. rewrite (LV _ E). reflexivity.
  - destruct IH as (v & R & EV). apply rep_num_inv in R.
    assert (exists u, oper OP_NEGATIVE (TNum n) [v] = Some u /\ denotes n u (- x)) as (u & E & D).
    { destruct (denotes_one _ _ _ R) as [(z & I & HO & -> & ->)|(f & I & _)].
      - destruct HS as (v' & D'). destruct (denotes_int n v' _ D' I) as (z' & HO' & _ & E'). rewrite <- opp_IZR in E'. apply eq_IZR in E' as <-. exists (encode n (- z)). split; [apply int_negate; exact HO|]. rewrite <- opp_IZR. now constructor.
      - destruct (denotes_opp n v x R I) as (g & -> & D). eexists. split; [reflexivity|exact D]. }
    exists u. split; [now constructor|]. intros w. cbn [Codegen_Spec.eval]. rewrite EV. cbn [obind]. unfold Codegen_Spec.apply_op. cbn [map fst q_type Codegen_Spec.common typed obind].
    change (Codegen_Spec.result_type llvm19 op_fun OP_NEGATIVE (TNum n)) with (Some (TNum n)). cbn [typed obind Codegen_Spec.convert_all]. unfold Codegen_Spec.convert. rewrite vty_refl. cbn [obind]. now rewrite E.
  - destruct IH as (v & R & EV). apply rep_num_inv in R.
    assert (exists u, oper OP_ABS (TNum n) [v] = Some u /\ denotes n u (Rabs x)) as (u & E & D).
    { destruct (denotes_one _ _ _ R) as [(z & I & HO & -> & ->)|(f & I & _)].
      - destruct HS as (v' & D'). destruct (denotes_int n v' _ D' I) as (z' & HO' & _ & E'). rewrite <- abs_IZR in E'. apply eq_IZR in E' as <-. exists (encode n (Z.abs z)). split; [|rewrite <- abs_IZR; now constructor].
        apply int_abs; [|exact HO]. unfold signed in SG. destruct (layout n) as [[k s]|] eqn:L; [subst s; apply (layout_ok _ _ _ L)|]. destruct n; discriminate.
      - destruct (denotes_abs n v x R I) as (g & -> & D). eexists. split; [reflexivity|exact D]. }
    exists u. split; [now constructor|]. intros w. cbn [Codegen_Spec.eval]. rewrite EV. cbn [obind]. change (find_text function_operators (lit "abs")) with (Some (OP_ABS, 1%nat)). cbv beta iota.
    unfold Codegen_Spec.apply_op. cbn [map fst q_type Codegen_Spec.common typed obind].
    change (Codegen_Spec.result_type llvm19 op_fun OP_ABS (TNum n)) with (Some (TNum n)). cbn [typed obind Codegen_Spec.convert_all]. unfold Codegen_Spec.convert. rewrite vty_refl. cbn [obind]. now rewrite E.
  - destruct IH as (v & R & EV). apply rep_num_inv in R. destruct (denotes_one _ _ _ R) as [(z & I' & _)|(f & _ & Vf & Ff & -> & ->)]; [congruence|].
    destruct (sqrt_rounded _ _ (fmt_prec_pos n) (fmt_prec_lt n) f Vf Ff NN) as (V & Fi & E). eexists. split; [constructor; unfold rounded; rewrite <- E; now constructor|]. intros w. cbn [Codegen_Spec.eval]. rewrite EV. cbn [obind].
    change (find_text function_operators (lit "sqrt")) with (Some (OP_SQRT, 1%nat)). cbv beta iota. apply one_float; [exact I|reflexivity|cbn; auto].
  - destruct IH as (v & R & EV). apply rep_num_inv in R. destruct (denotes_one _ _ _ R) as [(z & I' & _)|(f & _ & Vf & Ff & -> & ->)]; [congruence|].
    destruct (whole_function fn g n f IN I Vf Ff) as (op & h & FO & IO & E & D & _). exists (VFlt h). split; [now constructor|]. intros w. cbn [Codegen_Spec.eval]. rewrite EV. cbn [obind]. rewrite FO. cbv beta iota. now apply one_float.
  - destruct IH1 as (v1 & R1 & EV1). apply rep_num_inv in R1. destruct IH2 as (v2 & R2 & EV2). apply rep_num_inv in R2. destruct IH3 as (v3 & R3 & EV3). apply rep_num_inv in R3.
    destruct (convert_ok _ _ _ _ _ R1 C1) as (u1 & E1 & D1). destruct (convert_ok _ _ _ _ _ R2 C2) as (u2 & E2 & D2). destruct (convert_ok _ _ _ _ _ R3 C3) as (u3 & E3 & D3).
    destruct (denotes_one _ _ _ D1) as [(? & I' & _)|(f & _ & Vf & Ff & -> & ->)]; [congruence|]. destruct (denotes_one _ _ _ D2) as [(? & I' & _)|(g & _ & Vg & Fg & -> & ->)]; [congruence|]. destruct (denotes_one _ _ _ D3) as [(? & I' & _)|(h & _ & Vh & Fh & -> & ->)]; [congruence|].
    eexists. split; [constructor; exact (fma_rounded t f g h I Ff Fg Fh B)|]. intros w. cbn [Codegen_Spec.eval]. rewrite EV1. cbn [obind]. rewrite EV2. cbn [obind]. rewrite EV3. cbn [obind].
    change (find_text function_operators (lit "fma")) with (Some (OP_FMA, 3%nat)). cbv beta iota. cbn [q_type]. subst t. apply (three_floats l m n v1 v2 v3 f g h w); assumption.
  - destruct IH as (v & R & EV). apply rep_bool_inv in R. subst v. exists (VInt (if negb b then 1 else 0)). split; [constructor|]. intros w. cbn [Codegen_Spec.eval]. rewrite EV. destruct b; reflexivity.
  - destruct IH1 as (v & R & EV). apply rep_bool_inv in R. subst v. destruct IH2 as (v & R & EV2). apply rep_bool_inv in R. subst v. eexists. split; [constructor|]. intros w. cbn [Codegen_Spec.eval]. rewrite EV. cbn [obind]. rewrite EV2. destruct x, y; reflexivity.
  - destruct IH1 as (v & R & EV). apply rep_bool_inv in R. subst v. destruct IH2 as (v & R & EV2). apply rep_bool_inv in R. subst v. eexists. split; [constructor|]. intros w. cbn [Codegen_Spec.eval]. rewrite EV. cbn [obind]. rewrite EV2. destruct x, y; reflexivity.
  - destruct IH1 as (v & R & EV). apply rep_num_inv in R. destruct IH2 as (w & R' & EV'). apply rep_num_inv in R'. destruct (apply_operation _ _ _ _ _ _ _ _ _ _ R R' C1 C2 O) as (u & E & D).
    exists u. split; [now constructor|]. intros w'. cbn [Codegen_Spec.eval]. rewrite EV. cbn [obind]. rewrite EV'. cbn [obind q_type]. now rewrite E.
  - destruct IH1 as (v & R & EV). apply rep_num_inv in R. destruct IH2 as (w & R' & EV'). apply rep_num_inv in R'. destruct (apply_operation _ _ _ _ _ _ _ _ _ _ R R' C1 C2 O) as (u & E & D).
    exists u. split; [now constructor|]. intros w'. cbn [Codegen_Spec.eval]. rewrite EV. cbn [obind]. rewrite EV'. cbn [obind].
    cbn [q_type]. destruct IN as [IN|[IN|[]]].
    + assert (f = lit "max" /\ op = OP_MAX) as (-> & ->) by (split; congruence). change (find_text function_operators (lit "max")) with (Some (OP_MAX, 2%nat)). cbv beta iota. now rewrite E.
    + assert (f = lit "min" /\ op = OP_MIN) as (-> & ->) by (split; congruence). change (find_text function_operators (lit "min")) with (Some (OP_MIN, 2%nat)). cbv beta iota. now rewrite E.
  - destruct IH1 as (v & R & EV). apply rep_num_inv in R. destruct IH2 as (w & R' & EV'). apply rep_num_inv in R'. destruct (convert_both _ _ _ _ _ _ _ _ _ R R' C1 C2) as (v' & w' & E & D1 & D2). destruct (compare_any _ _ _ _ _ _ _ D1 D2 AN) as (E' & RT).
    eexists. split; [constructor|]. intros w0. cbn [Codegen_Spec.eval]. rewrite EV. cbn [obind]. rewrite EV'. cbn [obind q_type]. unfold Codegen_Spec.apply_op. cbn [map fst]. rewrite common_int. cbn [typed obind]. rewrite RT. cbn [typed obind]. rewrite E. cbn [obind]. now rewrite E'.
  - destruct IH0 as (v0 & R0 & EV0). apply rep_bool_inv in R0. subst v0. destruct IH1 as (v & R & EV). apply rep_num_inv in R. destruct IH2 as (w & R' & EV'). apply rep_num_inv in R'. destruct (convert_both _ _ _ _ _ _ _ _ _ R R' C1 C2) as (v' & w' & E & D1 & D2).
    exists (if t then v' else w'). split; [constructor; now destruct t|]. intros w0. cbn [Codegen_Spec.eval]. rewrite EV0. cbn [obind]. rewrite EV. cbn [obind]. rewrite EV'. cbn [obind]. unfold Codegen_Spec.apply_cond. cbn [fst snd q_type vty_eqb negb]. rewrite common_int. cbn [typed obind].
    change (Codegen_Spec.result_type llvm19 op_fun OP_CONDITIONAL (TNum (wider m n))) with (Some (TNum (wider m n))). cbn [typed obind]. rewrite E. cbn [obind]. clear E D1 D2. destruct t; destruct v', w'; reflexivity.
  - destruct IH0 as (v0 & R0 & EV0). apply rep_bool_inv in R0. subst v0. destruct IH1 as (v & R & EV). apply rep_bool_inv in R. subst v. destruct IH2 as (v & R & EV2). apply rep_bool_inv in R. subst v.
    eexists. split; [constructor|]. intros w. cbn [Codegen_Spec.eval]. rewrite EV0. cbn [obind]. rewrite EV. cbn [obind]. rewrite EV2. destruct t, x, y; reflexivity.
Qed.
Lemma means_pure σ e q : means σ e q -> pure e = true.
Proof.
  induction 1 as [b|v ty n z BC HO|v ty n m e BC [I B]|x q E|E|E|a n x M IH HS|a n x M IH SG HS|a n x M IH I NN|fn g a n x IN M IH I|a b c l m n t x y z x' y' z' M1 IH1 M2 IH2 M3 IH3 ET C1 C2 C3 [I B]|a b M IH|a b x y M1 IH1 M2 IH2|a b x y M1 IH1 M2 IH2
    |op a b m n x y x' y' r IN M1 IH1 M2 IH2 C1 C2 O|f op a b m n x y x' y' r IN M1 IH1 M2 IH2 C1 C2 O|op a b m n x y x' y' c M1 IH1 M2 IH2 C1 C2 AN
    |c a b t m n x y x' y' M0 IH0 M1 IH1 M2 IH2 C1 C2|c a b t x y M0 IH0 M1 IH1 M2 IH2]; cbn [pure forallb]; rewrite ?IH, ?IH0, ?IH1, ?IH2, ?IH3; try reflexivity.
  - unfold whole_functions in IN. repeat (destruct IN as [IN|IN]; [assert (fn = fst (fn, g)) as EF by reflexivity; rewrite <- IN in EF; rewrite EF; reflexivity|]). destruct IN.
  - repeat (destruct IN as [<-|IN]; [reflexivity|]). destruct IN.
  - destruct IN as [IN|[IN|[]]]; injection IN as <- <-; reflexivity.
  - destruct op; try discriminate AN; reflexivity.
Qed.
Lemma typed_names l : map snd (typed_params l) = map fst l.
Proof. unfold typed_params. rewrite map_map. now apply map_ext. Qed.
Lemma typed_types l : Forall (fun p => fst p <> TVoid) (typed_params l).
Proof. apply Forall_map, Forall_forall. intros [x [b|n z]] _; discriminate. Qed.
Lemma start_agrees l args : NoDup (map fst l) -> Forall2 (fun p v => represents (snd p) v) l args -> forall ρ, agrees (find_text l) (Codegen_Spec.bind_args (typed_params l) args ρ).
Proof.
  intros ND F. revert ND. induction F as [|[y q] v l args R F IH]; intros ND ρ x i H; cbn [find_text] in H; [discriminate|]. cbn [map fst] in ND. inversion ND as [|? ? N ND']; subst. cbn [snd] in R.
  change (Codegen_Spec.bind_args (typed_params ((y, q) :: l)) (v :: args) ρ) with (Codegen_Spec.bind_args (typed_params l) args (set_var ρ y (q_type q) v)).
  destruct (text_eqb y x) eqn:E.
  - apply text_eqb_eq in E. subst y. injection H as <-. exists v. split; [exact R|]. rewrite bind_other by (now rewrite typed_names). unfold set_var. now rewrite text_eqb_refl.
  - apply (IH ND' _ x i H).
Qed.
Lemma find_none {A} (l : list (text * A)) x : find_text l x = None -> ~ In x (map fst l).
Proof.
  induction l as [|[y q] l IH]; cbn [find_text map fst]; [intros _ []|]. intros H [E|I].
  - subst y. now rewrite text_eqb_refl in H.
  - destruct (text_eqb y x); [discriminate|]. now apply IH.
Qed.
Lemma start_leaves l args : leaves (find_text l) (Codegen_Spec.bind_args (typed_params l) args (fun _ => None)).
Proof. intros x H. rewrite bind_other; [reflexivity|]. rewrite typed_names. now apply find_none. Qed.
Notation call args := (Ir_Model.call (ir_prim oper cast) (total ext) konst_val truth args).
Theorem float_return l args ret o F q r : passed l args -> means (find_text l) (denote o) q -> gives ret q r ->
  compile llvm19 op_fun fsig ret (typed_params l) [S_return (Some o)] = Ret F ->
  exists v, represents r v /\ forall w, exists k0, forall k, (k0 <= k)%nat -> call args k F w = Ret (Some v, w).
Proof.
  intros [P1 P2 P3 P4] HI HR HF.
  assert (FIT : fits (typed_params l) args [S_return (Some o)]).
  { apply Codegen_Results2.return_fits; try rewrite typed_names; auto. apply typed_types. unfold typed_params. rewrite map_length. clear - P4. induction P4; cbn [length]; congruence. apply (means_pure _ _ _ HI). }
  destruct (means_ok _ _ (start_agrees l args P1 P4 (fun _ => None)) (start_leaves l args) _ _ HI) as (v & R & E).
  assert (C : exists u, Codegen_Spec.convert cast (q_type q, v) ret = Ret u /\ represents r u /\ ret <> TVoid).
  { destruct HR as [b|m n x x' C].
    - exists v. repeat split; auto. discriminate.
    - apply rep_num_inv in R. destruct (convert_ok _ _ _ _ _ R C) as (u & E' & D). exists u. repeat split; auto; [now constructor|discriminate]. }
  destruct C as (u & C & Ru & N). exists u. split; [exact Ru|]. intros w.
  pose proof (Codegen_Results2.return_value oper cast ext konst_val truth llvm19 op_fun fsig ret (typed_params l) args o F w FIT HF) as H.
  cbn zeta in H. rewrite E in H. cbn [obind] in H. rewrite C in H. cbn [obind] in H. apply vty_eqb_neq in N. rewrite N in H. exact H.
Qed.

(** No integer for a floating number: undefined *)
Lemma cast_undefined m n v x : denotes m v x -> ty_integer m = false -> ty_integer n = true -> holds n (Ztrunc x) = false -> Codegen_Spec.convert cast (TNum m, v) (TNum n) = UB.
Proof.
  intros D I J HO. destruct (denotes_one _ _ _ D) as [(z & I' & _)|(f & _ & V & Fi & -> & ->)]; [congruence|]. unfold Codegen_Spec.convert.
  destruct (vty_eqb (TNum m) (TNum n)) eqn:E; [apply vty_eqb_eq in E; congruence|]. cbn [cast]. rewrite J, (trunc_value f Fi).
  pose proof (holds_range n (Ztrunc (SF2R radix2 f)) J) as RG. destruct (d_signed n).
  - destruct ((- 2 ^ (ty_bits n - 1) <=? Ztrunc (SF2R radix2 f)) && (Ztrunc (SF2R radix2 f) <? 2 ^ (ty_bits n - 1))) eqn:B; [|reflexivity].
    apply andb_true_iff in B as (B1 & B2). apply Z.leb_le in B1. apply Z.ltb_lt in B2. rewrite (proj2 RG (conj B1 B2)) in HO. discriminate HO.
  - destruct ((0 <=? Ztrunc (SF2R radix2 f)) && (Ztrunc (SF2R radix2 f) <? 2 ^ ty_bits n)) eqn:B; [|reflexivity].
    apply andb_true_iff in B as (B1 & B2). apply Z.leb_le in B1. apply Z.ltb_lt in B2. rewrite (proj2 RG (conj B1 B2)) in HO. discriminate HO.
Qed.
Theorem undefined_return l args m n x o F : passed l args -> means (find_text l) (denote o) (QNum m x) -> ty_integer m = false -> ty_integer n = true -> holds n (Ztrunc x) = false ->
  compile llvm19 op_fun fsig (TNum n) (typed_params l) [S_return (Some o)] = Ret F ->
  forall w, exists k0, forall k, (k0 <= k)%nat -> call args k F w = UB.
Proof.
  intros [P1 P2 P3 P4] HI I J HO HF w.
  assert (FIT : fits (typed_params l) args [S_return (Some o)]).
  { apply Codegen_Results2.return_fits; try rewrite typed_names; auto. apply typed_types. unfold typed_params. rewrite map_length. clear - P4. induction P4; cbn [length]; congruence. apply (means_pure _ _ _ HI). }
  destruct (means_ok _ _ (start_agrees l args P1 P4 (fun _ => None)) (start_leaves l args) _ _ HI) as (v & R & E). apply rep_num_inv in R.
  pose proof (Codegen_Results2.return_value oper cast ext konst_val truth llvm19 op_fun fsig (TNum n) (typed_params l) args o F w FIT HF) as H.
  cbn zeta in H. rewrite E in H. cbn [obind q_type] in H. rewrite (cast_undefined _ _ _ _ R I J HO) in H. exact H.
Qed.
Theorem not_a_number_return a m n f o F : a <> lit "pi" -> a <> lit "e" -> denote o = EVar a -> ty_integer m = false -> ty_integer n = true -> is_finite_SF f = false ->
  compile llvm19 op_fun fsig (TNum n) [(TNum m, a)] [S_return (Some o)] = Ret F ->
  forall w, exists k0, forall k, (k0 <= k)%nat -> call [VFlt f] k F w = UB.
Proof.
  intros Np Ne Ho I J Fi HF w.
  assert (FIT : fits [(TNum m, a)] [VFlt f] [S_return (Some o)]).
  { apply Codegen_Results2.return_fits; cbn [map snd]; auto; try (intros [?|[]]; congruence). repeat constructor; auto. repeat constructor; discriminate. now rewrite Ho. }
  pose proof (Codegen_Results2.return_value oper cast ext konst_val truth llvm19 op_fun fsig (TNum n) _ _ o F w FIT HF) as H.
  rewrite Ho in H. cbn [Codegen_Spec.eval Codegen_Spec.bind_args] in H. unfold set_var in H. rewrite text_eqb_refl in H. cbn [obind] in H.
  unfold Codegen_Spec.convert in H. destruct (vty_eqb (TNum m) (TNum n)) eqn:E; [apply vty_eqb_eq in E; congruence|]. cbn [cast] in H. rewrite J in H.
  destruct f; try discriminate Fi; cbn [f_trunc defined obind] in H; exact H.
Qed.
Lemma find_two {A} (a b : text) (x y : A) : a <> b -> find_text [(a, x); (b, y)] a = Some x /\ find_text [(a, x); (b, y)] b = Some y.
Proof.
  intros N. cbn [find_text]. rewrite !text_eqb_refl. destruct (text_eqb a b) eqn:E; [apply text_eqb_eq in E; contradiction|auto].
Qed.
Lemma passed_two a b q r v w : a <> b -> ~ In (lit "pi") [a; b] -> ~ In (lit "e") [a; b] -> represents q v -> represents r w -> passed [(a, q); (b, r)] [v; w].
Proof. intros N Np Ne R1 R2. constructor; [now apply two_names|exact Np|exact Ne|]. constructor; [exact R1|]. constructor; [exact R2|constructor]. Qed.
Lemma wider_float m n : ty_integer m = true -> ty_integer n = false -> wider m n = n.
Proof. destruct m, n; intros; try discriminate; reflexivity. Qed.
Lemma two_numbers m n a b x y v w op o F : a <> b -> ~ In (lit "pi") [a; b] -> ~ In (lit "e") [a; b] ->
  denote o = EBin op (EVar a) (EVar b) -> denotes m v x -> denotes n w y -> forall x' y' c,
  converts x (wider m n) x' -> converts y (wider m n) y' -> answer op (Rcompare x' y') = Some c ->
  compile llvm19 op_fun fsig TBit [(TNum m, a); (TNum n, b)] [S_return (Some o)] = Ret F ->
  forall s, exists k0, forall k, (k0 <= k)%nat -> call [v; w] k F s = Ret (Some (VInt (if c then 1 else 0)), s).
Proof.
  intros N Np Ne D Dv Dw x' y' c Cx Cy A HF.
  destruct (find_two a b (QNum m x) (QNum n y) N) as (Fa & Fb).
  destruct (float_return [(a, QNum m x); (b, QNum n y)] [v; w] TBit o F (QBool c) (QBool c)) as (u & R & E); auto.
  - apply passed_two; auto; now constructor.
  - rewrite D. apply (m_comparison _ op (EVar a) (EVar b) m n x y x' y' c); auto; now constructor.
  - constructor.
  - apply rep_bool_inv in R. subst u. exact E.
Qed.
Lemma round_down_equal m n a b z o F : a <> b -> ~ In (lit "pi") [a; b] -> ~ In (lit "e") [a; b] ->
  denote o = EBin OP_EQUAL (EVar a) (EVar b) -> holds m z = true -> in_range n (IZR z) ->
  compile llvm19 op_fun fsig TBit [(TNum m, a); (TNum n, b)] [S_return (Some o)] = Ret F ->
  exists v, denotes n v (rounded n (IZR z)) /\ forall s, exists k0, forall k, (k0 <= k)%nat -> call [encode m z; v] k F s = Ret (Some (VInt 1), s).
Proof.
  intros N Np Ne D HO IR HF. pose proof (wider_float m n (holds_int _ _ HO) (proj1 IR)) as EW. destruct IR as (I & B).
  pose proof (to_fmt_rounded n z 0 false) as T. cbv zeta in T. replace (F2R (Float radix2 z 0)) with (IZR z) in T by (unfold F2R; cbn; lra). specialize (T B I).
  eexists. split; [exact T|]. destruct (rounded_id n (rounded n (IZR z))) as (ID & IB); [eexists; exact T|exact I|].
  apply (two_numbers m n a b (IZR z) (rounded n (IZR z)) (encode m z) _ OP_EQUAL o F N Np Ne D (den_int m z HO) T (rounded n (IZR z)) (rounded n (IZR z)) true).
  - rewrite EW. now constructor.
  - rewrite EW. rewrite <- ID at 2. now constructor.
  - rewrite Rcompare_Eq; reflexivity.
  - exact HF.
Qed.

(** *** Every floating value *)
Lemma two_floats n a b f g op h o F : a <> b -> ~ In (lit "pi") [a; b] -> ~ In (lit "e") [a; b] -> ty_integer n = false ->
  denote o = EBin op (EVar a) (EVar b) -> machine_op (fmt_prec n) (fmt_emax n) op f g = Some h ->
  compile llvm19 op_fun fsig (TNum n) [(TNum n, a); (TNum n, b)] [S_return (Some o)] = Ret F ->
  forall w, exists k0, forall k, (k0 <= k)%nat -> call [VFlt f; VFlt g] k F w = Ret (Some (VFlt h), w).
Proof.
  intros N Np Ne I Ho M HF w.
  assert (FIT : fits [(TNum n, a); (TNum n, b)] [VFlt f; VFlt g] [S_return (Some o)]).
  { apply Codegen_Results2.return_fits; cbn [map snd]; auto. now apply two_names. repeat constructor; discriminate. rewrite Ho. cbn [pure]. rewrite !andb_true_r. destruct op; try discriminate M; reflexivity. }
  pose proof (Codegen_Results2.return_value oper cast ext konst_val truth llvm19 op_fun fsig (TNum n) _ _ o F w FIT HF) as H.
  rewrite Ho in H. cbn [Codegen_Spec.eval Codegen_Spec.bind_args] in H. unfold set_var in H. rewrite !text_eqb_refl in H. destruct (text_eqb a b) eqn:E; [apply text_eqb_eq in E; contradiction|]. cbn [obind] in H.
  unfold Codegen_Spec.apply_op in H. cbn [map fst] in H. rewrite common_int, wider_self in H. cbn [typed obind] in H.
  assert (R : Codegen_Spec.result_type llvm19 op_fun op (TNum n) = Some (TNum n)) by (destruct op; try discriminate M; reflexivity). rewrite R in H. cbn [typed obind Codegen_Spec.convert_all] in H. unfold Codegen_Spec.convert in H at 1 2. rewrite vty_refl in H. cbn [obind] in H.
  assert (oper op (TNum n) [VFlt f; VFlt g] = Some (VFlt h)) as Hv. { cbn [Scalar_Model.oper]. rewrite I. destruct op; try discriminate M; injection M as <-; reflexivity. }
  rewrite Hv in H. cbn [defined obind Codegen_Spec.convert] in H. rewrite vty_refl in H. cbn [obind] in H. exact H.
Qed.
Lemma two_operands n a b f g op e h o F : a <> b -> ~ In (lit "pi") [a; b] -> ~ In (lit "e") [a; b] -> ty_integer n = false ->
  denote o = e -> In (op, e) (combine [OP_PLUS; OP_MINUS; OP_MULTIPLY; OP_DIVIDE; OP_MOD; OP_MAX; OP_MIN] (float_operations (EVar a) (EVar b))) ->
  oper op (TNum n) [VFlt f; VFlt g] = Some (VFlt h) ->
  compile llvm19 op_fun fsig (TNum n) [(TNum n, a); (TNum n, b)] [S_return (Some o)] = Ret F ->
  forall w, exists k0, forall k, (k0 <= k)%nat -> call [VFlt f; VFlt g] k F w = Ret (Some (VFlt h), w).
Proof.
  intros N Np Ne I Ho IN Hv HF w.
  assert (FIT : fits [(TNum n, a); (TNum n, b)] [VFlt f; VFlt g] [S_return (Some o)]).
  { apply Codegen_Results2.return_fits; cbn [map snd]; auto. now apply two_names. repeat constructor; discriminate. rewrite Ho. cbn [float_operations combine] in IN.
    repeat (destruct IN as [IN|IN]; [injection IN as <- <-; reflexivity|]). destruct IN. }
  pose proof (Codegen_Results2.return_value oper cast ext konst_val truth llvm19 op_fun fsig (TNum n) _ _ o F w FIT HF) as H.
  assert (E : eval (Codegen_Spec.bind_args [(TNum n, a); (TNum n, b)] [VFlt f; VFlt g] (fun _ => None)) w e = (do! r <- Codegen_Spec.apply_op oper cast llvm19 op_fun op [(TNum n, VFlt f); (TNum n, VFlt g)]; Ret (w, r))).
  { assert (text_eqb a b = false) as Eab by (destruct (text_eqb a b) eqn:E; [apply text_eqb_eq in E; contradiction|reflexivity]).
    cbn [float_operations combine] in IN. repeat (destruct IN as [IN|IN]; [injection IN as <- <-; cbn [Codegen_Spec.eval Codegen_Spec.bind_args]; unfold set_var; rewrite !text_eqb_refl, Eab; reflexivity|]). destruct IN. }
  rewrite Ho, E in H. unfold Codegen_Spec.apply_op in H. cbn [map fst] in H. rewrite common_int, wider_self in H. cbn [typed obind] in H.
  assert (R : Codegen_Spec.result_type llvm19 op_fun op (TNum n) = Some (TNum n)).
  { cbn [float_operations combine] in IN. repeat (destruct IN as [IN|IN]; [injection IN as <- <-; destruct n; try discriminate I; reflexivity|]). destruct IN. }
  rewrite R in H. cbn [typed obind Codegen_Spec.convert_all] in H. unfold Codegen_Spec.convert in H at 1 2. rewrite vty_refl in H. cbn [obind] in H.
  rewrite Hv in H. cbn [defined obind Codegen_Spec.convert] in H. rewrite vty_refl in H. cbn [obind] in H. exact H.
Qed.
Lemma remainder_return n a b f z o F : a <> b -> ~ In (lit "pi") [a; b] -> ~ In (lit "e") [a; b] -> ty_integer n = false ->
  denote o = EBin OP_MOD (EVar a) (EVar b) ->
  compile llvm19 op_fun fsig (TNum n) [(TNum n, a); (TNum n, b)] [S_return (Some o)] = Ret F ->
  forall s, exists k0, forall k, (k0 <= k)%nat -> call [VFlt f; VFlt (S754_zero z)] k F s = Ret (Some (VFlt S754_nan), s).
Proof.
  intros N Np Ne I Ho HF. apply (two_operands n a b f _ OP_MOD _ _ o F N Np Ne I Ho); [cbn; auto 10| |exact HF]. cbn [Scalar_Model.oper]. rewrite I. destruct f; reflexivity.
Qed.
Lemma multiple_return n a b f g x y q o F : a <> b -> ~ In (lit "pi") [a; b] -> ~ In (lit "e") [a; b] -> ty_integer n = false ->
  denote o = EBin OP_MOD (EVar a) (EVar b) -> denotes n (VFlt f) x -> denotes n (VFlt g) y -> y <> 0%R -> x = (IZR q * y)%R ->
  compile llvm19 op_fun fsig (TNum n) [(TNum n, a); (TNum n, b)] [S_return (Some o)] = Ret F ->
  forall s, exists k0, forall k, (k0 <= k)%nat -> call [VFlt f; VFlt g] k F s = Ret (Some (VFlt (S754_zero (sign_of f))), s).
Proof.
  intros N Np Ne I Ho Df Dg NZ E HF. apply (two_operands n a b f g OP_MOD _ _ o F N Np Ne I Ho); [cbn; auto 10| |exact HF]. cbn [Scalar_Model.oper]. rewrite I. cbn [flt_binary].
  destruct (denotes_one _ _ _ Df) as [(z & I' & _)|(f' & _ & Vf & Ff & Ef & ->)]; [congruence|]. destruct (denotes_one _ _ _ Dg) as [(z & I' & _)|(g' & _ & Vg & Fg & Eg & ->)]; [congruence|].
  injection Ef as <-. injection Eg as <-. now rewrite (rem_multiple n f g q).
Qed.
Lemma zeros_return n a b s t o F : a <> b -> ~ In (lit "pi") [a; b] -> ~ In (lit "e") [a; b] -> ty_integer n = false -> forall fn z,
  In (fn, z) [(lit "max", s && t); (lit "min", s || t)] -> denote o = ECall fn [EVar a; EVar b] ->
  compile llvm19 op_fun fsig (TNum n) [(TNum n, a); (TNum n, b)] [S_return (Some o)] = Ret F ->
  forall w, exists k0, forall k, (k0 <= k)%nat -> call [VFlt (S754_zero s); VFlt (S754_zero t)] k F w = Ret (Some (VFlt (S754_zero z)), w).
Proof.
  intros N Np Ne I fn z IN Ho HF. destruct IN as [IN|[IN|[]]].
  - assert (fn = lit "max" /\ z = s && t) as (-> & ->) by (split; congruence). apply (two_operands n a b _ _ OP_MAX _ _ o F N Np Ne I Ho); [cbn; auto 10| |exact HF]. cbn [Scalar_Model.oper]. rewrite I. destruct s, t; reflexivity.
  - assert (fn = lit "min" /\ z = s || t) as (-> & ->) by (split; congruence). apply (two_operands n a b _ _ OP_MIN _ _ o F N Np Ne I Ho); [cbn; auto 10| |exact HF]. cbn [Scalar_Model.oper]. rewrite I. destruct s, t; reflexivity.
Qed.
Lemma one_operand n a f op fn h o F : a <> lit "pi" -> a <> lit "e" -> ty_integer n = false -> denote o = ECall fn [EVar a] ->
  find_text function_operators fn = Some (op, 1%nat) -> In op float_functions -> oper op (TNum n) [VFlt f] = Some (VFlt h) ->
  compile llvm19 op_fun fsig (TNum n) [(TNum n, a)] [S_return (Some o)] = Ret F ->
  forall w, exists k0, forall k, (k0 <= k)%nat -> call [VFlt f] k F w = Ret (Some (VFlt h), w).
Proof.
  intros Np Ne I Ho FO IO E HF w.
  assert (FIT : fits [(TNum n, a)] [VFlt f] [S_return (Some o)]).
  { apply Codegen_Results2.return_fits; cbn [map snd]; auto; try (intros [?|[]]; congruence). repeat constructor; auto. repeat constructor; discriminate. rewrite Ho. cbn [pure forallb andb]. now rewrite FO. }
  pose proof (Codegen_Results2.return_value oper cast ext konst_val truth llvm19 op_fun fsig (TNum n) _ _ o F w FIT HF) as H.
  rewrite Ho in H. cbn [Codegen_Spec.eval Codegen_Spec.bind_args] in H. unfold set_var in H. rewrite text_eqb_refl in H. cbn [obind] in H. rewrite FO in H.
  rewrite (one_float n op f h w I E IO) in H. cbn [obind] in H. unfold Codegen_Spec.convert in H. rewrite vty_refl in H. cbn [obind] in H. exact H.
Qed.
Lemma whole_return n a f x fn g o F : a <> lit "pi" -> a <> lit "e" -> ty_integer n = false -> In (fn, g) whole_functions -> denote o = ECall fn [EVar a] -> denotes n (VFlt f) x ->
  compile llvm19 op_fun fsig (TNum n) [(TNum n, a)] [S_return (Some o)] = Ret F ->
  exists h, denotes n (VFlt h) (IZR (g x)) /\ sign_of h = sign_of f /\ forall w, exists k0, forall k, (k0 <= k)%nat -> call [VFlt f] k F w = Ret (Some (VFlt h), w).
Proof.
  intros Np Ne I IN Ho D HF. destruct (denotes_one _ _ _ D) as [(z & I' & _)|(f' & _ & Vf & Ff & Ef & ->)]; [congruence|]. injection Ef as <-.
  destruct (whole_function fn g n f IN I Vf Ff) as (op & h & FO & IO & E & Dh & Sh). exists h. split; [exact Dh|]. split; [exact Sh|]. exact (one_operand n a f op fn h o F Np Ne I Ho FO IO E HF).
Qed.
Lemma negative_root n a f x o F : a <> lit "pi" -> a <> lit "e" -> ty_integer n = false -> denote o = ECall (lit "sqrt") [EVar a] -> denotes n (VFlt f) x -> (x < 0)%R ->
  compile llvm19 op_fun fsig (TNum n) [(TNum n, a)] [S_return (Some o)] = Ret F ->
  forall w, exists k0, forall k, (k0 <= k)%nat -> call [VFlt f] k F w = Ret (Some (VFlt S754_nan), w).
Proof.
  intros Np Ne I Ho D L HF. destruct (denotes_one _ _ _ D) as [(z & I' & _)|(f' & _ & Vf & Ff & Ef & ->)]; [congruence|]. injection Ef as <-.
  apply (one_operand n a f OP_SQRT (lit "sqrt") S754_nan o F Np Ne I Ho eq_refl); [cbn; auto| |exact HF]. destruct f as [s|s| |s m e]; try discriminate Ff; cbn [SF2R] in L; [lra|].
  destruct s; [reflexivity|]. exfalso. cbn [cond_Zopp] in L. assert (0 < F2R (Float radix2 (Z.pos m) e))%R by (apply F2R_gt_0; reflexivity). lra.
Qed.
Lemma fused_return n a b c f g h o F : NoDup [a; b; c] -> ~ In (lit "pi") [a; b; c] -> ~ In (lit "e") [a; b; c] -> ty_integer n = false ->
  denote o = ECall (lit "fma") [EVar a; EVar b; EVar c] ->
  compile llvm19 op_fun fsig (TNum n) [(TNum n, a); (TNum n, b); (TNum n, c)] [S_return (Some o)] = Ret F ->
  forall w, exists k0, forall k, (k0 <= k)%nat -> call [VFlt f; VFlt g; VFlt h] k F w = Ret (Some (VFlt (f_fma n f g h)), w).
Proof.
  intros ND Np Ne I Ho HF w.
  assert (FIT : fits [(TNum n, a); (TNum n, b); (TNum n, c)] [VFlt f; VFlt g; VFlt h] [S_return (Some o)]).
  { apply Codegen_Results2.return_fits; cbn [map snd]; auto. repeat constructor; discriminate. now rewrite Ho. }
  pose proof (Codegen_Results2.return_value oper cast ext konst_val truth llvm19 op_fun fsig (TNum n) _ _ o F w FIT HF) as H.
  assert (NE : text_eqb a b = false /\ text_eqb a c = false /\ text_eqb b c = false).
  { inversion ND as [|? ? N1 ND1]; subst. inversion ND1 as [|? ? N2 _]; subst. repeat split; match goal with |- text_eqb ?x ?y = false => destruct (text_eqb x y) eqn:E; [apply text_eqb_eq in E; subst; exfalso; cbn [In] in *; tauto|reflexivity] end. }
  destruct NE as (E1 & E2 & E3). assert (T : wider n (wider n n) = n) by now rewrite !wider_self.
  assert (SF : forall u, Codegen_Spec.convert cast (TNum n, VFlt u) (TNum (wider n (wider n n))) = Ret (VFlt u)) by (intros u; rewrite T; unfold Codegen_Spec.convert; now rewrite vty_refl).
  pose proof (three_floats n n n (VFlt f) (VFlt g) (VFlt h) f g h w) as X. cbv zeta in X. specialize (X ltac:(now rewrite T) (SF f) (SF g) (SF h)). rewrite T in X.
  rewrite Ho in H. cbn [Codegen_Spec.eval Codegen_Spec.bind_args] in H. unfold set_var in H. rewrite !text_eqb_refl, E1, E2, E3 in H. cbn [obind] in H. change (find_text function_operators (lit "fma")) with (Some (OP_FMA, 3%nat)) in H. cbv beta iota in H.
  rewrite X in H. cbn [obind] in H. unfold Codegen_Spec.convert in H. rewrite vty_refl in H. cbn [obind] in H. exact H.
Qed.
Lemma fused_infinity n a b c f g x y s o F : NoDup [a; b; c] -> ~ In (lit "pi") [a; b; c] -> ~ In (lit "e") [a; b; c] -> ty_integer n = false ->
  denote o = ECall (lit "fma") [EVar a; EVar b; EVar c] -> denotes n (VFlt f) x -> denotes n (VFlt g) y ->
  compile llvm19 op_fun fsig (TNum n) [(TNum n, a); (TNum n, b); (TNum n, c)] [S_return (Some o)] = Ret F ->
  forall w, exists k0, forall k, (k0 <= k)%nat -> call [VFlt f; VFlt g; VFlt (S754_infinity s)] k F w = Ret (Some (VFlt (S754_infinity s)), w).
Proof.
  intros ND Np Ne I Ho Df Dg HF. destruct (denotes_one _ _ _ Df) as [(z & I' & _)|(f' & _ & _ & Ff & Ef & _)]; [congruence|]. destruct (denotes_one _ _ _ Dg) as [(z & I' & _)|(g' & _ & _ & Fg & Eg & _)]; [congruence|].
  injection Ef as <-. injection Eg as <-. pose proof (fused_return n a b c f g (S754_infinity s) o F ND Np Ne I Ho HF) as H.
  destruct (parts_value f Ff) as (? & ? & ? & Pf & _). destruct (parts_value g Fg) as (? & ? & ? & Pg & _). unfold f_fma in H. rewrite Pf, Pg in H. exact H.
Qed.
Lemma fused_nan n a b c f g h o F : NoDup [a; b; c] -> ~ In (lit "pi") [a; b; c] -> ~ In (lit "e") [a; b; c] -> ty_integer n = false ->
  denote o = ECall (lit "fma") [EVar a; EVar b; EVar c] -> In S754_nan [f; g; h] ->
  compile llvm19 op_fun fsig (TNum n) [(TNum n, a); (TNum n, b); (TNum n, c)] [S_return (Some o)] = Ret F ->
  forall w, exists k0, forall k, (k0 <= k)%nat -> call [VFlt f; VFlt g; VFlt h] k F w = Ret (Some (VFlt S754_nan), w).
Proof.
  intros ND Np Ne I Ho IN HF. pose proof (fused_return n a b c f g h o F ND Np Ne I Ho HF) as H.
  assert (f_fma n f g h = S754_nan) as E.
  { destruct IN as [->|[->|[->|[]]]]; [|destruct f|destruct f, g]; try reflexivity; destruct h; reflexivity. }
  now rewrite E in H.
Qed.
Lemma nan_return n a b f g o F : a <> b -> ~ In (lit "pi") [a; b] -> ~ In (lit "e") [a; b] -> ty_integer n = false ->
  In (denote o) (float_operations (EVar a) (EVar b)) -> f = S754_nan \/ g = S754_nan ->
  compile llvm19 op_fun fsig (TNum n) [(TNum n, a); (TNum n, b)] [S_return (Some o)] = Ret F ->
  forall s, exists k0, forall k, (k0 <= k)%nat -> call [VFlt f; VFlt g] k F s = Ret (Some (VFlt S754_nan), s).
Proof.
  intros N Np Ne I Ho NN HF.
  assert (exists op, In (op, denote o) (combine [OP_PLUS; OP_MINUS; OP_MULTIPLY; OP_DIVIDE; OP_MOD; OP_MAX; OP_MIN] (float_operations (EVar a) (EVar b))) /\ oper op (TNum n) [VFlt f; VFlt g] = Some (VFlt S754_nan)) as (op & IN & E).
  { cbn [Scalar_Model.oper]. rewrite I. cbn [float_operations combine In] in *.
    destruct Ho as [<-|[<-|[<-|[<-|[<-|[<-|[<-|[]]]]]]]];
      [exists OP_PLUS|exists OP_MINUS|exists OP_MULTIPLY|exists OP_DIVIDE|exists OP_MOD|exists OP_MAX|exists OP_MIN];
      (split; [auto 10|]); cbn [flt_binary]; destruct NN as [->| ->]; try destruct f; try destruct g; reflexivity. }
  exact (two_operands n a b f g op _ _ o F N Np Ne I eq_refl IN E HF).
Qed.
Lemma overflow_return n a b v w x y op r o F : a <> b -> ~ In (lit "pi") [a; b] -> ~ In (lit "e") [a; b] -> ty_integer n = false ->
  denote o = EBin op (EVar a) (EVar b) -> denotes n v x -> denotes n w y -> real_op op x y r -> (bpow radix2 (fmt_emax n) <= Rabs (rounded n r))%R ->
  compile llvm19 op_fun fsig (TNum n) [(TNum n, a); (TNum n, b)] [S_return (Some o)] = Ret F ->
  forall s, exists k0, forall k, (k0 <= k)%nat -> call [v; w] k F s = Ret (Some (VFlt (S754_infinity (Rlt_bool r 0))), s).
Proof.
  intros N Np Ne I Ho Dv Dw RO B HF. destruct (denotes_one _ _ _ Dv) as [(z & I' & _)|(f & _ & Vf & Ff & -> & ->)]; [congruence|]. destruct (denotes_one _ _ _ Dw) as [(z & I' & _)|(g & _ & Vg & Fg & -> & ->)]; [congruence|].
  apply (two_floats n a b f g op _ o F N Np Ne I Ho); [|exact HF]. exact (op_overflow _ _ (fmt_prec_pos n) (fmt_prec_lt n) op f g r Vf Ff Vg Fg RO B).
Qed.
Lemma division_return n a b v x z o F : a <> b -> ~ In (lit "pi") [a; b] -> ~ In (lit "e") [a; b] -> ty_integer n = false ->
  denote o = EBin OP_DIVIDE (EVar a) (EVar b) -> denotes n v x ->
  compile llvm19 op_fun fsig (TNum n) [(TNum n, a); (TNum n, b)] [S_return (Some o)] = Ret F ->
  forall s, exists k0, forall k, (k0 <= k)%nat ->
    call [v; VFlt (S754_zero z)] k F s = Ret (Some (VFlt (if Req_bool x 0 then S754_nan else S754_infinity (xorb z (Rlt_bool x 0)))), s).
Proof.
  intros N Np Ne I Ho Dv HF. destruct (denotes_one _ _ _ Dv) as [(k & I' & _)|(f & _ & Vf & Ff & -> & ->)]; [congruence|].
  apply (two_floats n a b f (S754_zero z) OP_DIVIDE _ o F N Np Ne I Ho); [|exact HF]. cbn [machine_op]. f_equal.
  destruct f as [s|s| |s m e]; try discriminate Ff.
  - cbn [SF2R SFdiv]. rewrite Req_bool_true by reflexivity. reflexivity.
  - cbn [SFdiv]. destruct s; cbn [SF2R cond_Zopp].
    + assert (F2R (Float radix2 (- Z.pos m) e) < 0)%R as L by (apply F2R_lt_0; reflexivity). rewrite Req_bool_false by lra. rewrite Rlt_bool_true by exact L. destruct z; reflexivity.
    + assert (0 < F2R (Float radix2 (Z.pos m) e))%R as L by (apply F2R_gt_0; reflexivity). rewrite Req_bool_false by lra. rewrite Rlt_bool_false by lra. destruct z; reflexivity.
Qed.
Lemma wider_floats m n : ty_integer m = false -> ty_integer n = false -> ty_integer (wider m n) = false.
Proof. destruct m, n; intros; try discriminate; reflexivity. Qed.
Lemma convert_flt m n f : ty_integer m = false -> ty_integer n = false -> exists g, Codegen_Spec.convert cast (TNum m, VFlt f) (TNum n) = Ret (VFlt g).
Proof. intros I J. unfold Codegen_Spec.convert. destruct (vty_eqb (TNum m) (TNum n)); [eauto|]. cbn [cast]. rewrite J. cbn [defined]. eauto. Qed.
Lemma value_num n v : some_value (TNum n) v -> ty_integer n = false /\ exists f, v = VFlt f. Proof. intros H. inversion H; subst; eauto. Qed.
Lemma value_bit v : some_value TBit v -> exists b : bool, v = VInt (if b then 1 else 0). Proof. intros H. inversion H; subst; eauto. Qed.
Lemma typed_float v ty n d : build_typed v ty = Ret (CFloat n d) -> ty_integer n = false.
Proof.
  unfold build_typed. destruct (ty_integer ty) eqn:I; intros H; [destruct (to_u64 v); cbn [obind] in H; discriminate H|]. injection H as <- _. exact I.
Qed.
Lemma const_float v ty n d : build_const (v, ty) = Ret (CFloat n d) -> ty_integer n = false.
Proof.
  unfold build_const. cbn [fst snd]. destruct ty as [ty|]; [apply typed_float|]. unfold build_untyped. destruct (to_i64 v) as [iv| | |]; cbn [obind]; intros H; try discriminate H.
  destruct (dbl_eqb (of_i64 iv) v); [now apply typed_float in H|]. injection H as <- _. reflexivity.
Qed.
Definition covers (τ : text -> option numty) (ρ : env) : Prop := forall x n, τ x = Some n -> exists v, some_value (TNum n) v /\ ρ x = Some (TNum n, v).
Lemma total_ok τ ρ : covers τ ρ -> leaves τ ρ -> forall e t, floating τ e t -> exists v, some_value t v /\ forall w, eval ρ w e = Ret (w, (t, v)).
Proof.
  intros A LV. induction 1 as [b|v ty n d BC|x n E|x IN E|a n M IH|a n M IH|fn a n IN M IH|a b c l m n M1 IH1 M2 IH2 M3 IH3|a M IH|op a b IN M1 IH1 M2 IH2|op a b m n IN M1 IH1 M2 IH2|fn a b m n IN M1 IH1 M2 IH2|op a b m n IN M1 IH1 M2 IH2|c a b m n M0 IH0 M1 IH1 M2 IH2|c a b M0 IH0 M1 IH1 M2 IH2].
  - exists (VInt (if b then 1 else 0)). split; [constructor|reflexivity].
  - destruct d as [m e]. eexists. split; [apply sv_flt; apply (const_float _ _ _ _ BC)|]. intros w. cbn [Codegen_Spec.eval]. rewrite BC. reflexivity.
  - destruct (A x n E) as (v & V & EV). exists v. split; [exact V|]. intros w. cbn [Codegen_Spec.eval]. now rewrite EV.
  - destruct IN as [<-|[<-|[]]]; eexists; (split; [apply (sv_flt F64); reflexivity|]); intros w; cbn [Codegen_Spec.eval]; rewrite (LV _ E); reflexivity.
  - destruct IH as (v & V & EV). apply value_num in V as (I & f & ->). exists (VFlt (SFopp f)). split; [now constructor|]. intros w. cbn [Codegen_Spec.eval]. rewrite EV. cbn [obind]. unfold Codegen_Spec.apply_op. cbn [map fst Codegen_Spec.common typed obind].
    change (Codegen_Spec.result_type llvm19 op_fun OP_NEGATIVE (TNum n)) with (Some (TNum n)). cbn [typed obind Codegen_Spec.convert_all]. unfold Codegen_Spec.convert. rewrite vty_refl. reflexivity.
  - destruct IH as (v & V & EV). apply value_num in V as (I & f & ->). exists (VFlt (SFabs f)). split; [now constructor|]. intros w. cbn [Codegen_Spec.eval]. rewrite EV. cbn [obind].
    change (find_text function_operators (lit "abs")) with (Some (OP_ABS, 1%nat)). cbv beta iota. unfold Codegen_Spec.apply_op. cbn [map fst Codegen_Spec.common typed obind].
    change (Codegen_Spec.result_type llvm19 op_fun OP_ABS (TNum n)) with (Some (TNum n)). cbn [typed obind Codegen_Spec.convert_all]. unfold Codegen_Spec.convert. rewrite vty_refl. reflexivity.
  - destruct IH as (v & V & EV). apply value_num in V as (I & f & ->).
    assert (exists op h, find_text function_operators fn = Some (op, 1%nat) /\ In op float_functions /\ oper op (TNum n) [VFlt f] = Some (VFlt h)) as (op & h & FO & IO & E).
    { unfold float_functions. repeat (destruct IN as [<-|IN]; [do 2 eexists; split; [reflexivity|]; split; [cbn; auto 10|reflexivity]|]). destruct IN. }
    exists (VFlt h). split; [now constructor|]. intros w. cbn [Codegen_Spec.eval]. rewrite EV. cbn [obind]. rewrite FO. cbv beta iota. now apply one_float.
  - destruct IH1 as (v1 & V1 & EV1). apply value_num in V1 as (I1 & f & ->). destruct IH2 as (v2 & V2 & EV2). apply value_num in V2 as (I2 & g & ->). destruct IH3 as (v3 & V3 & EV3). apply value_num in V3 as (I3 & h & ->).
    pose proof (wider_floats m n I2 I3) as K0. pose proof (wider_floats l (wider m n) I1 K0) as K.
    destruct (convert_flt l _ f I1 K) as (f' & E1). destruct (convert_flt m _ g I2 K) as (g' & E2). destruct (convert_flt n _ h I3 K) as (h' & E3).
    eexists. split; [apply sv_flt; exact K|]. intros w. cbn [Codegen_Spec.eval]. rewrite EV1. cbn [obind]. rewrite EV2. cbn [obind]. rewrite EV3. cbn [obind].
    change (find_text function_operators (lit "fma")) with (Some (OP_FMA, 3%nat)). cbv beta iota. apply (three_floats l m n _ _ _ f' g' h'); assumption.
  - destruct IH as (v & V & EV). apply value_bit in V as (b & ->). exists (VInt (if negb b then 1 else 0)). split; [constructor|]. intros w. cbn [Codegen_Spec.eval]. rewrite EV. destruct b; reflexivity.
  - destruct IH1 as (v & V & EV). apply value_bit in V as (x & ->). destruct IH2 as (v & V & EV2). apply value_bit in V as (y & ->).
    exists (VInt (if (match op with OP_LOGIC_AND => andb x y | OP_LOGIC_OR => orb x y | _ => xorb x y end) then 1 else 0)). split; [constructor|]. intros w. cbn [Codegen_Spec.eval]. rewrite EV. cbn [obind]. rewrite EV2.
    destruct IN as [<-|[<-|[]]]; destruct x, y; reflexivity.
  - destruct IH1 as (v & V & EV). apply value_num in V as (I & f & ->). destruct IH2 as (v & V & EV2). apply value_num in V as (J & g & ->). pose proof (wider_floats m n I J) as K.
    destruct (convert_flt m (wider m n) f I K) as (f' & E1). destruct (convert_flt n (wider m n) g J K) as (g' & E2).
    assert (exists h, oper op (TNum (wider m n)) [VFlt f'; VFlt g'] = Some (VFlt h) /\ Codegen_Spec.result_type llvm19 op_fun op (TNum (wider m n)) = Some (TNum (wider m n))) as (h & E & RT).
    { cbn [Scalar_Model.oper]. rewrite K. repeat (destruct IN as [<-|IN]; [eexists; split; reflexivity|]). destruct IN. }
    exists (VFlt h). split; [now constructor|]. intros w. cbn [Codegen_Spec.eval]. rewrite EV. cbn [obind]. rewrite EV2. cbn [obind]. unfold Codegen_Spec.apply_op. cbn [map fst]. rewrite common_int. cbn [typed obind]. rewrite RT. cbn [typed obind Codegen_Spec.convert_all]. rewrite E1, E2. cbn [obind]. now rewrite E.
  - destruct IH1 as (v & V & EV). apply value_num in V as (I & f & ->). destruct IH2 as (v & V & EV2). apply value_num in V as (J & g & ->). pose proof (wider_floats m n I J) as K.
    destruct (convert_flt m (wider m n) f I K) as (f' & E1). destruct (convert_flt n (wider m n) g J K) as (g' & E2).
    assert (exists op h, find_text function_operators fn = Some (op, 2%nat) /\ oper op (TNum (wider m n)) [VFlt f'; VFlt g'] = Some (VFlt h) /\ Codegen_Spec.result_type llvm19 op_fun op (TNum (wider m n)) = Some (TNum (wider m n))) as (op & h & FO & E & RT).
    { cbn [Scalar_Model.oper]. rewrite K. destruct IN as [<-|[<-|[]]]; [exists OP_MAX|exists OP_MIN]; cbn [flt_binary]; eexists; (split; [reflexivity|]); (split; [reflexivity|]); destruct (wider m n); try discriminate K; reflexivity. }
    exists (VFlt h). split; [now constructor|]. intros w. cbn [Codegen_Spec.eval]. rewrite EV. cbn [obind]. rewrite EV2. cbn [obind]. rewrite FO. cbv beta iota. unfold Codegen_Spec.apply_op. cbn [map fst]. rewrite common_int. cbn [typed obind]. rewrite RT. cbn [typed obind Codegen_Spec.convert_all]. rewrite E1, E2. cbn [obind]. now rewrite E.
  - destruct IH1 as (v & V & EV). apply value_num in V as (I & f & ->). destruct IH2 as (v & V & EV2). apply value_num in V as (J & g & ->). pose proof (wider_floats m n I J) as K.
    destruct (convert_flt m (wider m n) f I K) as (f' & E1). destruct (convert_flt n (wider m n) g J K) as (g' & E2).
    assert (exists b : bool, oper op (TNum (wider m n)) [VFlt f'; VFlt g'] = Some (VInt (if b then 1 else 0)) /\ Codegen_Spec.result_type llvm19 op_fun op (TNum (wider m n)) = Some TBit) as (b' & E & RT).
    { cbn [Scalar_Model.oper]. rewrite K. repeat (destruct IN as [<-|IN]; [eexists; split; reflexivity|]). destruct IN. }
    exists (VInt (if b' then 1 else 0)). split; [constructor|]. intros w. cbn [Codegen_Spec.eval]. rewrite EV. cbn [obind]. rewrite EV2. cbn [obind]. unfold Codegen_Spec.apply_op. cbn [map fst]. rewrite common_int. cbn [typed obind]. rewrite RT. cbn [typed obind Codegen_Spec.convert_all]. rewrite E1, E2. cbn [obind]. now rewrite E.
  - destruct IH0 as (v & V & EV0). apply value_bit in V as (t & ->). destruct IH1 as (v & V & EV). apply value_num in V as (I & f & ->). destruct IH2 as (v & V & EV2). apply value_num in V as (J & g & ->). pose proof (wider_floats m n I J) as K.
    destruct (convert_flt m (wider m n) f I K) as (f' & E1). destruct (convert_flt n (wider m n) g J K) as (g' & E2). exists (VFlt (if t then f' else g')). split; [now constructor|]. intros w.
    cbn [Codegen_Spec.eval]. rewrite EV0. cbn [obind]. rewrite EV. cbn [obind]. rewrite EV2. cbn [obind]. unfold Codegen_Spec.apply_cond. cbn [fst snd vty_eqb negb]. rewrite common_int. cbn [typed obind].
    change (Codegen_Spec.result_type llvm19 op_fun OP_CONDITIONAL (TNum (wider m n))) with (Some (TNum (wider m n))). cbn [typed obind Codegen_Spec.convert_all]. rewrite E1, E2. cbn [obind]. destruct t; reflexivity.
  - destruct IH0 as (v & V & EV0). apply value_bit in V as (t & ->). destruct IH1 as (v & V & EV). apply value_bit in V as (x & ->). destruct IH2 as (v & V & EV2). apply value_bit in V as (y & ->).
    exists (VInt (if (if t then x else y) then 1 else 0)). split; [constructor|]. intros w. cbn [Codegen_Spec.eval]. rewrite EV0. cbn [obind]. rewrite EV. cbn [obind]. rewrite EV2. destruct t, x, y; reflexivity.
Qed.
Lemma floating_pure τ e t : floating τ e t -> pure e = true.
Proof.
  induction 1 as [b|v ty n d BC|x n E|x IN E|a n M IH|a n M IH|fn a n IN M IH|a b c l m n M1 IH1 M2 IH2 M3 IH3|a M IH|op a b IN M1 IH1 M2 IH2|op a b m n IN M1 IH1 M2 IH2|fn a b m n IN M1 IH1 M2 IH2|op a b m n IN M1 IH1 M2 IH2|c a b m n M0 IH0 M1 IH1 M2 IH2|c a b M0 IH0 M1 IH1 M2 IH2];
    cbn [pure forallb]; rewrite ?IH, ?IH0, ?IH1, ?IH2, ?IH3; try reflexivity.
  all: repeat (destruct IN as [<-|IN]; [reflexivity|]); destruct IN.
Qed.
Lemma start_covers l args : NoDup (map fst l) -> Forall2 (fun p v => some_value (TNum (snd p)) v) l args -> forall ρ, covers (find_text l) (Codegen_Spec.bind_args (float_params l) args ρ).
Proof.
  intros ND F. revert ND. induction F as [|[y q] v l args R F IH]; intros ND ρ x i H; cbn [find_text] in H; [discriminate|]. cbn [map fst] in ND. inversion ND as [|? ? N ND']; subst. cbn [snd] in R.
  change (Codegen_Spec.bind_args (float_params ((y, q) :: l)) (v :: args) ρ) with (Codegen_Spec.bind_args (float_params l) args (set_var ρ y (TNum q) v)).
  destruct (text_eqb y x) eqn:E.
  - apply text_eqb_eq in E. subst y. injection H as <-. exists v. split; [exact R|]. rewrite bind_other by (unfold float_params; rewrite map_map; exact N). unfold set_var. now rewrite text_eqb_refl.
  - apply (IH ND' _ x i H).
Qed.
Lemma float_names l : map snd (float_params l) = map fst l. Proof. unfold float_params. rewrite map_map. reflexivity. Qed.
Lemma start_floats l args : leaves (find_text l) (Codegen_Spec.bind_args (float_params l) args (fun _ => None)).
Proof. intros x H. rewrite bind_other; [reflexivity|]. rewrite float_names. now apply find_none. Qed.
Theorem total_return l args t o F ret : any_floats l args -> floating (find_text l) (denote o) t -> (ret = t \/ exists m n, t = TNum m /\ ret = TNum n /\ ty_integer n = false) ->
  compile llvm19 op_fun fsig ret (float_params l) [S_return (Some o)] = Ret F ->
  exists v, some_value ret v /\ forall w, exists k0, forall k, (k0 <= k)%nat -> call args k F w = Ret (Some v, w).
Proof.
  intros [P1 P2 P3 P4] HI HR HF. assert (NM : map snd (float_params l) = map fst l) by (unfold float_params; rewrite map_map; reflexivity).
  assert (FIT : fits (float_params l) args [S_return (Some o)]).
  { apply Codegen_Results2.return_fits; try rewrite NM; auto. apply Forall_map, Forall_forall; discriminate. unfold float_params. rewrite map_length. clear - P4. induction P4; cbn [length]; congruence. apply (floating_pure _ _ _ HI). }
  destruct (total_ok _ _ (start_covers l args P1 P4 (fun _ => None)) (start_floats l args) _ _ HI) as (v & R & E).
  assert (C : exists u, Codegen_Spec.convert cast (t, v) ret = Ret u /\ some_value ret u /\ ret <> TVoid).
  { destruct HR as [->|(m & n & -> & -> & J)].
    - exists v. unfold Codegen_Spec.convert. rewrite vty_refl. repeat split; auto. intros ->. inversion R.
    - apply value_num in R as (I & f & ->). destruct (convert_flt m n f I J) as (g & E'). exists (VFlt g). repeat split; auto; [now constructor|discriminate]. }
  destruct C as (u & C & Ru & N). exists u. split; [exact Ru|]. intros w.
  pose proof (Codegen_Results2.return_value oper cast ext konst_val truth llvm19 op_fun fsig ret (float_params l) args o F w FIT HF) as H.
  cbn zeta in H. rewrite E in H. cbn [obind] in H. rewrite C in H. cbn [obind] in H. apply vty_eqb_neq in N. rewrite N in H. exact H.
Qed.
Lemma means_has l args e n x : passed l args -> means (find_text l) e (QNum n x) -> has n x.
Proof.
  intros [P1 P2 P3 P4] M. destruct (means_ok _ _ (start_agrees l args P1 P4 (fun _ => None)) (start_leaves l args) _ _ M) as (v & R & _). apply rep_num_inv in R. now exists v.
Qed.
End Eval.

(** ** Instances *)
Lemma in_range_small n x k : ty_integer n = false -> 0 <= k < fmt_emax n -> (Rabs x <= bpow radix2 k)%R -> in_range n x.
Proof.
  intros I K B. split; [exact I|]. apply Rle_lt_trans with (bpow radix2 k); [|apply bpow_lt; lia]. unfold rounded.
  pose proof (@FLT_exp_valid (3 - fmt_emax n - fmt_prec n) (fmt_prec n) (fmt_prec_pos n)) as VE.
  apply (abs_round_le_generic radix2 (FLT_exp (3 - fmt_emax n - fmt_prec n) (fmt_prec n)) ZnearestE x (bpow radix2 k)); [|exact B].
  apply generic_format_bpow. unfold FLT_exp. assert (0 < fmt_prec n) by (destruct n; reflexivity). assert (3 <= fmt_emax n + fmt_prec n) by (destruct n; discriminate). lia.
Qed.
Lemma in_range_exact n m e k : ty_integer n = false -> 0 <= k < fmt_emax n -> (Rabs (F2R (Float radix2 m e)) <= bpow radix2 k)%R -> in_range n (F2R (Float radix2 m e)).
Proof. intros. eapply in_range_small; eauto. Qed.
Lemma has_opp n x : ty_integer n = false -> has n x -> has n (- x).
Proof. intros I (v & D). destruct (denotes_opp n v x D I) as (f & -> & D'). now exists (VFlt (SFopp f)). Qed.
Lemma nearest n x d : ty_integer n = false -> representable n d -> (Rabs (rounded n x - x) <= Rabs (d - x))%R.
Proof.
  intros I H. destruct (rounded_id n d H I) as (E & _). pose proof (@FLT_exp_valid (3 - fmt_emax n - fmt_prec n) (fmt_prec n) (fmt_prec_pos n)) as VE.
  apply (round_N_pt radix2 (FLT_exp (3 - fmt_emax n - fmt_prec n) (fmt_prec n)) (fun x => negb (Z.even x)) x). rewrite <- E. now apply generic_format_round; [|apply valid_rnd_N].
Qed.
Theorem constant_return {W} lib (ext : text -> W -> list val -> W * val) llvm19 op_fun fsig (l : list (text * quantity)) args c x o F : passed l args -> In (c, x) [(lit "pi", PI); (lit "e", exp 1)] -> denote o = EVar c ->
  compile llvm19 op_fun fsig (TNum F64) (typed_params l) [S_return (Some o)] = Ret F ->
  exists v d, denotes F64 v d /\ (forall d', representable F64 d' -> (Rabs (d - x) <= Rabs (d' - x))%R) /\
    forall w, exists k0, forall k, (k0 <= k)%nat -> @Ir_Model.call val W (ir_prim (Scalar_Model.oper lib) cast) (total ext) konst_val truth args k F w = Ret (Some v, w).
Proof.
  intros PA IN Ho HF. assert (N : forall y, ~ In y (map fst l) -> find_text l y = None).
  { clear. induction l as [|[z r] l IH]; intros y H; [reflexivity|]. cbn [find_text]. cbn [map fst] in H. destruct (text_eqb z y) eqn:E; [apply text_eqb_eq in E; subst; exfalso; apply H; now left|]. apply IH. intros I. apply H. now right. }
  assert (M : means (find_text l) (EVar c) (QNum F64 (rounded F64 x))).
  { destruct IN as [E|[E|[]]].
    - assert (c = lit "pi" /\ x = PI) as (-> & ->) by (split; congruence). apply m_pi. apply N. apply (a_pi _ _ PA).
    - assert (c = lit "e" /\ x = exp 1) as (-> & ->) by (split; congruence). apply m_e. apply N. apply (a_e _ _ PA). }
  assert (G : gives (TNum F64) (QNum F64 (rounded F64 x)) (QNum F64 (rounded F64 x))).
  { pose proof (means_has (W:=W) lib ext llvm19 op_fun fsig l args _ _ _ PA M) as H. destruct (rounded_id F64 _ H eq_refl) as (E & B). rewrite <- E at 2. constructor. constructor. split; [reflexivity|]. rewrite E in *. exact B. }
  rewrite <- Ho in M. destruct (float_return lib ext llvm19 op_fun fsig l args _ o F _ _ PA M G HF) as (v & R & E). exists v, (rounded F64 x). split; [|split; [|exact E]].
  - now apply rep_num_inv in R.
  - intros d' H. apply nearest; [reflexivity|exact H].
Qed.
Theorem numbers_of_types n p lo hi x : In (n, p, lo, hi) [(F32, 24, -149, 104); (F64, 53, -1074, 971); (F80, 64, -16445, 16320)] ->
  (representable n x <-> exists m e, Z.abs m < 2 ^ p /\ lo <= e <= hi /\ x = (IZR m * bpow radix2 e)%R).
Proof.
  intros IN. assert (ty_integer n = false /\ fmt_prec n = p /\ 3 - fmt_emax n - fmt_prec n = lo /\ fmt_emax n - fmt_prec n = hi /\ 0 < p /\ lo <= 0 <= hi) as (I & <- & <- & <- & P & LH).
  { repeat (destruct IN as [IN|IN]; [injection IN as <- <- <- <-; repeat split; try reflexivity; discriminate|]). destruct IN. }
  split.
  - intros (v & D). destruct (denotes_one _ _ _ D) as [(z & I' & _)|(f & _ & V & Fi & -> & ->)]; [congruence|]. destruct f as [s|s| |s m e]; try discriminate Fi.
    + exists 0, 0. cbn [SF2R]. split; [apply Z.pow_pos_nonneg; lia|]. split; [exact LH|]. lra.
    + cbn [valid_binary] in V. destruct (bounded_parts _ _ _ _ V) as (A & B). exists (cond_Zopp s (Z.pos m)), e. split; [now destruct s|]. split; [exact B|reflexivity].
  - intros (m & e & A & B & ->). change (IZR m * bpow radix2 e)%R with (F2R (Float radix2 m e)). rewrite <- (rounded_exact n m e A (proj1 B)). exists (VFlt (to_fmt n m e false)). apply to_fmt_rounded; [|exact I].
    rewrite (rounded_exact n m e A (proj1 B)), <- F2R_Zabs. unfold F2R. cbn [Fnum Fexp]. apply Rlt_le_trans with (bpow radix2 (fmt_prec n) * bpow radix2 e)%R.
    + apply Rmult_lt_compat_r; [apply bpow_gt_0|]. rewrite <- IZR_Zpower by lia. now apply IZR_lt.
    + rewrite <- bpow_plus. apply bpow_le. lia.
Qed.
Theorem rounding_nearest n x : in_range n x -> representable n (rounded n x) /\ forall d, representable n d -> (Rabs (rounded n x - x) <= Rabs (d - x))%R.
Proof.
  intros (I & B). split; [|intros d; now apply nearest]. pose proof (@FLT_exp_valid (3 - fmt_emax n - fmt_prec n) (fmt_prec n) (fmt_prec_pos n)) as VE.
  assert (G : generic_format radix2 (FLT_exp (3 - fmt_emax n - fmt_prec n) (fmt_prec n)) (rounded n x)) by (apply generic_format_round; [exact VE|apply valid_rnd_N]).
  pose proof (fmt_prec_pos n) as PP. destruct (@FLT_format_generic radix2 (3 - fmt_emax n - fmt_prec n) (fmt_prec n) PP _ G) as [[m e] E M1 M2]. cbn [Fnum Fexp] in M1, M2.
  rewrite E in *. rewrite <- (rounded_exact n m e M1 M2). exists (VFlt (to_fmt n m e false)). apply to_fmt_rounded; [|exact I]. now rewrite rounded_exact.
Qed.
