(** Proofs for C73: the functions. *)
From Coq Require Import List Bool Arith ZArith Reals Permutation Lia Lra Psatz.
Import ListNotations.
From Flocq Require Import Core BinarySingleNaN.
From Verif Require Import Base Distance_Model Distance_Spec Distance_Proofs DistanceLoop_Proofs.

Section Main.
Variables prec emax : Z.
Context (prec_gt_0_ : Prec_gt_0 prec) (prec_lt_emax_ : Prec_lt_emax prec emax).
Notation F := (binary_float prec emax).
Notation fma := (fma prec emax prec_gt_0_ prec_lt_emax_).
Notation add := (add prec emax prec_gt_0_ prec_lt_emax_).
Notation mul := (mul prec emax prec_gt_0_ prec_lt_emax_).
Notation sub := (sub prec emax prec_gt_0_ prec_lt_emax_).
Notation div := (div prec emax prec_gt_0_ prec_lt_emax_).
Notation fsqrt := (Distance_Model.sqrt prec emax prec_gt_0_ prec_lt_emax_).
Notation zero := (zero prec emax).
Notation size := (size prec emax).
Notation mem := (mem prec emax).
Notation elements := (elements prec emax).
Notation readable := (readable prec emax).
Notation is_int := (is_int prec emax).
Notation ints := (ints prec emax).
Notation value := (value prec emax).
Notation finite := (finite prec emax).
Notation rounded := (rounded prec emax).
Notation fexp := (SpecFloat.fexp prec emax).
Notation u := (unit_roundoff prec).
Notation eta := (smallest prec emax).
Notation pint := (pint prec emax).
Notation near := (near prec emax).
Notation weight := (weight prec emax).
Notation diff := (diff prec emax prec_gt_0_ prec_lt_emax_).
Let fexp_valid : Valid_exp fexp := FLT_exp_valid (3 - emax - prec) prec.
Local Existing Instance fexp_valid.
Variable lanes : nat.
Hypothesis lanes_pos : (0 < lanes)%nat.
Variable mul_add : F -> F -> F -> F.
Hypothesis MA : mul_adds prec emax prec_gt_0_ prec_lt_emax_ mul_add.
Variable reduce_sum : list F -> F.
Hypothesis RS : reduces prec emax prec_gt_0_ prec_lt_emax_ lanes reduce_sum.
Variable dot_compute : list F -> list F -> F.
Variable extra : nat.
Hypothesis DC : dots prec emax prec_gt_0_ prec_lt_emax_ extra dot_compute.
Notation vector_dot := (vector_dot prec emax lanes dot_compute).
Notation vector_l2_distance := (vector_l2_distance prec emax prec_gt_0_ prec_lt_emax_ lanes mul_add reduce_sum).
Notation vector_cosine_distance := (vector_cosine_distance prec emax prec_gt_0_ prec_lt_emax_ lanes mul_add reduce_sum).
Notation vector_fsum := (vector_fsum prec emax prec_gt_0_ prec_lt_emax_ lanes reduce_sum).
Notation vector_favg := (vector_favg prec emax prec_gt_0_ prec_lt_emax_ lanes reduce_sum).
Notation dp := (depth lanes).
Notation products := (products prec emax).
Notation squares := (squares prec emax).
Notation bound := (bound prec emax).
Notation cosine_value := (cosine_value prec emax).

Lemma sqrt_nonneg x : finite x -> (0 <= value x)%R -> finite (fsqrt x) /\ value (fsqrt x) = rounded (R_sqrt.sqrt (value x)).
Proof.
  intros Fx Hn. unfold Distance_Spec.value, Distance_Spec.finite in *. destruct (Bsqrt_correct prec emax _ _ mode_NE x) as (V & Fi & _). split.
  - unfold Distance_Model.sqrt. rewrite Fi. destruct x as [s|s| |s m e B]; try discriminate Fx; [reflexivity|]. destruct s; [|reflexivity].
    exfalso. cbn [B2R SpecFloat.cond_Zopp] in Hn.
    apply (Rlt_irrefl 0). apply Rle_lt_trans with (1 := Hn). apply F2R_lt_0. reflexivity.
  - unfold Distance_Model.sqrt. rewrite V. reflexivity.
Qed.
Lemma sqrt_int x n : is_int x n -> (0 <= n)%Z -> finite (fsqrt x) /\ value (fsqrt x) = rounded (R_sqrt.sqrt (IZR n)).
Proof. intros [Fx Vx] Hn. rewrite <- Vx. apply sqrt_nonneg; [exact Fx|]. rewrite Vx. apply (IZR_le 0). exact Hn. Qed.

(* -- integers -- *)
Lemma pairs_int l r a b : Forall2 is_int l a -> Forall2 is_int r b -> length l = length r -> Forall2 pint (combine l r) (combine a b).
Proof.
  intros H. revert r b. induction H as [|x n l a Hx _ IH]; intros r b Hr Hlen; [constructor|]. destruct r as [|y r]; [discriminate|].
  inversion Hr as [|y' m r' b' Hy Hr']; subst. cbn. constructor; [split; assumption|]. apply IH; [exact Hr'|]. cbn in Hlen. lia.
Qed.
Lemma pads_int l z k : Forall2 pint l z -> Forall2 pint (l ++ repeat (zero, zero) k) (z ++ repeat (0, 0)%Z k).
Proof. intros H. apply Forall2_app; [exact H|]. induction k; cbn; constructor; [split; apply int_zero|assumption]. Qed.
Lemma zsum_pads (f : Z * Z -> Z) z k : f (0, 0)%Z = 0%Z -> zsum (map f (z ++ repeat (0, 0)%Z k)) = zsum (map f z).
Proof. intros H. rewrite map_app, zsum_app. replace (zsum (map f (repeat (0, 0)%Z k))) with 0%Z; [lia|]. induction k as [|k IH]; cbn; [reflexivity|]. unfold zsum in IH. rewrite H, <- IH. reflexivity. Qed.
Notation zabs l := (zsum (map Z.abs l)).
Lemma zabs_pads (f : Z * Z -> Z) z k : f (0, 0)%Z = 0%Z -> zabs (map f (z ++ repeat (0, 0)%Z k)) = zabs (map f z).
Proof. intros H. rewrite !map_map. apply (zsum_pads (fun p => Z.abs (f p))). rewrite H. reflexivity. Qed.
Lemma elements_len v : readable v -> length (elements v) = size v.
Proof. intros H. unfold Distance_Spec.elements, Distance_Spec.readable in *. rewrite firstn_length. lia. Qed.
Lemma ints_len v a : ints v a -> length a = size v.
Proof. intros [R H]. rewrite <- (F2len _ _ _ H). apply elements_len. exact R. Qed.
Lemma zdot_alt a b : zdot a b = zsum (map zprod (combine a b)).
Proof. reflexivity. Qed.

Lemma dot_exact l r a b : ints l a -> ints r b -> size l = size r -> (lanes <= size l \/ lanes <= length (mem l) /\ lanes <= length (mem r))%nat ->
  (zsum (map (fun p => Z.abs (fst p * snd p)) (combine a b)) <= 2 ^ prec)%Z ->
  exists x, vector_dot l r = Ret x /\ is_int x (zdot a b).
Proof.
  intros [Rl Hl] [Rr Hr] E Hm HB. unfold Distance_Spec.readable in *. unfold Distance_Model.vector_dot. rewrite <- E, Nat.eqb_refl. cbn [negb].
  assert (R0 : exists x, Ret (dot_compute (firstn (size l) (mem l)) (firstn (size l) (mem r))) = Ret x /\ is_int x (zdot a b)).
  { eexists. split; [reflexivity|]. rewrite zdot_alt. rewrite E at 2. fold (elements l). fold (elements r).
    assert (EL : length (elements l) = length (elements r)) by (rewrite !elements_len by assumption; exact E).
    apply (dotted_int _ _ _ _ _ _ _ (DC _ _ EL)).
    - apply pairs_int; assumption.
    - rewrite map_map. exact HB. }
  destruct (Nat.leb_spec lanes (size l)) as [H|H].
  - destruct (Nat.leb_spec (size l) (length (mem l))); [|lia]. destruct (Nat.leb_spec (size l) (length (mem r))); [|lia]. exact R0.
  - destruct (Nat.eqb_spec (size l) 0) as [e|ne].
    + rewrite e in R0. exact R0.
    + destruct (Nat.leb_spec lanes (length (mem l))); [|lia]. destruct (Nat.leb_spec lanes (length (mem r))); [|lia]. exact R0.
Qed.

Definition zdiff (p : Z * Z) : Z * Z := (Z.abs (fst p - snd p), Z.abs (fst p - snd p)).
Lemma zdiff_prod p : zprod (zdiff p) = ((fst p - snd p) * (fst p - snd p))%Z.
Proof. unfold zprod, zdiff. cbn. rewrite <- Z.abs_mul. apply Z.abs_eq, Z.square_nonneg. Qed.
Lemma zsum_nonneg l : Forall (fun z => 0 <= z)%Z l -> (0 <= zsum l)%Z.
Proof. unfold zsum. induction 1; cbn; lia. Qed.
Lemma squares_nonneg (f : Z * Z -> Z) z : Forall (fun x => 0 <= x)%Z (map (fun p => f p * f p)%Z z).
Proof. apply Forall_forall. intros x H. apply in_map_iff in H. destruct H as (p & <- & _). apply Z.square_nonneg. Qed.
Lemma zabs_squares (f : Z * Z -> Z) z : zabs (map (fun p => f p * f p)%Z z) = zsum (map (fun p => f p * f p)%Z z).
Proof. rewrite map_map. f_equal. apply map_ext. intros p. apply Z.abs_eq, Z.square_nonneg. Qed.

Lemma diff_int p z : pint p z -> ((fst z - snd z) * (fst z - snd z) <= 2 ^ prec)%Z -> pint (diff p) (zdiff z).
Proof.
  intros [H1 H2] HB. assert (is_int (Babs (sub (fst p) (snd p))) (Z.abs (fst z - snd z))) by (apply int_abs, int_sub; [exact H1|exact H2|nia]). split; assumption.
Qed.
Lemma diffs_int l z : Forall2 pint l z -> (zsum (map (fun p => (fst p - snd p) * (fst p - snd p))%Z z) <= 2 ^ prec)%Z -> Forall2 pint (map diff l) (map zdiff z).
Proof.
  induction 1 as [|p q l z Hp Hl IH]; intros HB; cbn in *; constructor.
  - apply diff_int; [exact Hp|]. pose proof (zsum_nonneg _ (squares_nonneg (fun p => fst p - snd p)%Z z)) as N. unfold zsum in N. lia.
  - apply IH. pose proof (Z.square_nonneg (fst q - snd q)). unfold zsum in *. lia.
Qed.
Lemma l2_exact l r a b : ints l a -> ints r b -> size l = size r -> (zsq a b <= 2 ^ prec)%Z ->
  exists x, vector_l2_distance l r = Ret x /\ finite x /\ value x = rounded (R_sqrt.sqrt (IZR (zsq a b))).
Proof.
  intros [Rl Hl] [Rr Hr] E HB. unfold Distance_Model.vector_l2_distance. rewrite E, Nat.eqb_refl. cbn [negb].
  destruct (l2_run prec emax _ _ lanes lanes_pos mul_add MA reduce_sum RS l r Rl Rr E) as (acc & pad & _ & EA & D).
  rewrite EA. cbn [obind]. eexists. split; [reflexivity|].
  assert (HP : Forall2 pint (combine (elements l) (elements r) ++ repeat (zero, zero) pad) (combine a b ++ repeat (0, 0)%Z pad)).
  { apply pads_int, pairs_int; [exact Hl|exact Hr|]. rewrite !elements_len by assumption. exact E. }
  assert (S1 : zsum (map (fun p => (fst p - snd p) * (fst p - snd p))%Z (combine a b ++ repeat (0, 0)%Z pad)) = zsq a b) by (apply (zsum_pads (fun p => (fst p - snd p) * (fst p - snd p))%Z); reflexivity).
  assert (S2 : map zprod (map zdiff (combine a b ++ repeat (0, 0)%Z pad)) = map (fun p => (fst p - snd p) * (fst p - snd p))%Z (combine a b ++ repeat (0, 0)%Z pad)).
  { rewrite map_map. apply map_ext. intros p. apply zdiff_prod. }
  assert (I : is_int (reduce_sum acc) (zsq a b)).
  { rewrite <- S1, <- S2. apply (dotted_int _ _ _ _ _ _ _ D).
    - apply diffs_int; [exact HP|]. rewrite S1. exact HB.
    - rewrite S2, (zabs_squares (fun p => fst p - snd p)%Z), S1. exact HB. }
  apply sqrt_int; [exact I|]. rewrite <- S1. apply zsum_nonneg, (squares_nonneg (fun p => fst p - snd p)%Z).
Qed.

Lemma mult_small x y : (Rabs (rounded (value x * value y)) < bpow radix2 emax)%R -> finite x -> finite y -> finite (mul x y) /\ value (mul x y) = rounded (value x * value y).
Proof.
  intros H Fx Fy. pose proof (Bmult_correct prec emax _ _ mode_NE x y) as C.
  change (round radix2 fexp (round_mode mode_NE) (B2R x * B2R y)) with (rounded (value x * value y)) in C. rewrite Rlt_bool_true in C by exact H.
  destruct C as (V & Fi & _). rewrite Fx, Fy in Fi. split; [exact Fi|exact V].
Qed.
Lemma div_small x y : (Rabs (rounded (value x / value y)) < bpow radix2 emax)%R -> finite x -> value y <> 0%R -> finite (div x y) /\ value (div x y) = rounded (value x / value y).
Proof.
  intros H Fx Ny. pose proof (Bdiv_correct prec emax _ _ mode_NE x y Ny) as C.
  change (round radix2 fexp (round_mode mode_NE) (B2R x / B2R y)) with (rounded (value x / value y)) in C. rewrite Rlt_bool_true in C by exact H.
  destruct C as (V & Fi & _). rewrite Fx in Fi. split; [exact Fi|exact V].
Qed.
Lemma sub_small x y : (Rabs (rounded (value x - value y)) < bpow radix2 emax)%R -> finite x -> finite y -> finite (sub x y) /\ value (sub x y) = rounded (value x - value y).
Proof.
  intros H Fx Fy. pose proof (Bminus_correct prec emax _ _ mode_NE x y Fx Fy) as C.
  change (round radix2 fexp (round_mode mode_NE) (B2R x - B2R y)) with (rounded (value x - value y)) in C. rewrite Rlt_bool_true in C by exact H.
  destruct C as (V & Fi & _). split; [exact Fi|exact V].
Qed.
(** Rounding keeps a value between powers of two. *)
Lemma bpow_format e : (3 - emax - prec <= e)%Z -> generic_format radix2 fexp (bpow radix2 e).
Proof. intros H. apply generic_format_bpow. unfold SpecFloat.fexp, SpecFloat.emin. pose proof prec_gt_0_ as P. unfold Prec_gt_0 in P. lia. Qed.
Lemma rounded_le x e : (3 - emax - prec <= e)%Z -> (Rabs x <= bpow radix2 e)%R -> (Rabs (rounded x) <= bpow radix2 e)%R.
Proof. intros He H. apply abs_round_le_generic; [apply fexp_valid|apply valid_rnd_N|apply bpow_format; exact He|exact H]. Qed.
Lemma rounded_ge x : (1 <= x)%R -> (1 <= rounded x)%R.
Proof. intros H. change 1%R with (bpow radix2 0). apply round_ge_generic; [apply fexp_valid|apply valid_rnd_N| |exact H]. apply bpow_format. apply emin_le; assumption. Qed.
Lemma eqb_zero x : finite x -> Beqb x zero = true <-> value x = 0%R.
Proof.
  intros Fx. unfold Distance_Spec.value. pose proof (Beqb_correct prec emax x zero Fx eq_refl) as B. rewrite B. change (B2R zero) with 0%R. destruct (Req_bool_spec (B2R x) 0) as [e|ne]; split; intros H; [exact e|reflexivity|discriminate H|contradiction].
Qed.

Lemma is_int_zsum f z x : is_int x (zsum (map zprod (map (fun p : Z * Z => (f p, f p)) z))) -> is_int x (zsum (map (fun p => f p * f p)%Z z)).
Proof. rewrite map_map. exact (fun H => H). Qed.
Lemma fst2_int l z : Forall2 pint l z -> Forall2 pint (map (fst2 prec emax) l) (map (fun p => (fst p, fst p)) z).
Proof. induction 1 as [|p q l z [H1 H2] _ IH]; cbn; constructor; [split; exact H1|exact IH]. Qed.
Lemma snd2_int l z : Forall2 pint l z -> Forall2 pint (map (snd2 prec emax) l) (map (fun p => (snd p, snd p)) z).
Proof. induction 1 as [|p q l z [H1 H2] _ IH]; cbn; constructor; [split; exact H2|exact IH]. Qed.
Lemma combine_fst_map {A B C} (f : A -> C) (a : list A) (b : list B) : length a = length b -> map (fun p => f (fst p)) (combine a b) = map f a.
Proof. revert b. induction a as [|x a IH]; intros [|y b] H; cbn in *; try discriminate; [reflexivity|]. rewrite IH by lia. reflexivity. Qed.
Lemma combine_snd_map {A B C} (f : B -> C) (a : list A) (b : list B) : length a = length b -> map (fun p => f (snd p)) (combine a b) = map f b.
Proof. revert b. induction a as [|x a IH]; intros [|y b] H; cbn in *; try discriminate; [reflexivity|]. rewrite IH by lia. reflexivity. Qed.
Lemma combine_self {A C} (f : A * A -> C) (a : list A) : map f (combine a a) = map (fun x => f (x, x)) a.
Proof. induction a as [|x a IH]; cbn; [reflexivity|]. rewrite IH. reflexivity. Qed.

Lemma sqrt_ge1 n : (1 <= n)%Z -> (1 <= rounded (R_sqrt.sqrt (IZR n)))%R.
Proof. intros H. apply rounded_ge. rewrite <- sqrt_1. apply sqrt_le_1_alt. apply (IZR_le 1). exact H. Qed.
Lemma sqrt_le_self n : (1 <= n <= 2 ^ prec)%Z -> (Rabs (rounded (R_sqrt.sqrt (IZR n))) <= bpow radix2 prec)%R.
Proof.
  intros [H1 H2]. pose proof prec_gt_0_ as P. unfold Prec_gt_0 in P. pose proof prec_lt_emax_ as Q. unfold Prec_lt_emax in Q.
  apply rounded_le; [lia|]. assert (N : (1 <= IZR n)%R) by (apply (IZR_le 1); exact H1).
  rewrite Rabs_pos_eq by apply sqrt_pos. rewrite <- (pow_bpow prec) by assumption. apply Rle_trans with (IZR n); [|apply IZR_le; exact H2].
  rewrite <- (sqrt_square (IZR n)) at 2 by lra. apply sqrt_le_1_alt. nra.
Qed.
Lemma cosine_arith d l r x nl nr : (2 * prec < emax)%Z -> is_int x d -> (Z.abs d <= 2 ^ prec)%Z -> (1 <= l <= 2 ^ prec)%Z -> (1 <= r <= 2 ^ prec)%Z ->
  finite nl -> value nl = rounded (R_sqrt.sqrt (IZR l)) -> finite nr -> value nr = rounded (R_sqrt.sqrt (IZR r)) ->
  finite (sub Bone (div x (mul nl nr))) /\ value (sub Bone (div x (mul nl nr))) = cosine_value d l r.
Proof.
  intros W [Fx Vx] Hd Hl Hr Fl Vl Fr Vr. pose proof prec_gt_0_ as P. unfold Prec_gt_0 in P.
  pose proof (sqrt_ge1 l (proj1 Hl)) as L1. pose proof (sqrt_ge1 r (proj1 Hr)) as R1. pose proof (sqrt_le_self l Hl) as L2. pose proof (sqrt_le_self r Hr) as R2.
  rewrite <- Vl in L1, L2. rewrite <- Vr in R1, R2.
  destruct (mult_small nl nr) as [Fm Vm]; [|exact Fl|exact Fr|].
  { apply Rle_lt_trans with (bpow radix2 (prec + prec)); [|apply bpow_lt; lia]. apply rounded_le; [lia|]. rewrite Rabs_mult, bpow_plus.
    apply Rmult_le_compat; try apply Rabs_pos; assumption. }
  assert (M1 : (1 <= value (mul nl nr))%R) by (rewrite Vm; apply rounded_ge; nra).
  assert (DB : (Rabs (value x) <= bpow radix2 prec)%R) by (rewrite Vx, <- abs_IZR, <- (pow_bpow prec) by assumption; apply IZR_le; exact Hd).
  assert (Q : (Rabs (value x / value (mul nl nr)) <= bpow radix2 prec)%R).
  { unfold Rdiv. rewrite Rabs_mult, Rabs_inv. rewrite (Rabs_pos_eq (value (mul nl nr))) by lra.
    apply Rle_trans with (Rabs (value x) * 1)%R; [|lra]. apply Rmult_le_compat_l; [apply Rabs_pos|]. rewrite <- Rinv_1. apply Rinv_le; lra. }
  assert (Q' : (Rabs (rounded (value x / value (mul nl nr))) <= bpow radix2 prec)%R) by (apply rounded_le; [lia|exact Q]).
  destruct (div_small x (mul nl nr)) as [Fq Vq]; [|exact Fx|lra|].
  { apply Rle_lt_trans with (1 := Q'). apply bpow_lt. lia. }
  assert (O : value Bone = 1%R) by apply Bone_correct. assert (FO : finite Bone) by apply is_finite_Bone.
  destruct (sub_small Bone (div x (mul nl nr))) as [Fs Vs]; [|exact FO|exact Fq|].
  { apply Rle_lt_trans with (bpow radix2 (prec + 1)); [|apply bpow_lt; lia]. apply rounded_le; [lia|]. rewrite O, Vq.
    unfold Rminus. eapply Rle_trans; [apply Rabs_triang|]. rewrite Rabs_Ropp, Rabs_R1, bpow_plus, bpow_1. change (IZR radix2) with 2%R.
    assert (1 <= bpow radix2 prec)%R by (change 1%R with (bpow radix2 0); apply bpow_le; lia). lra. }
  split; [exact Fs|]. rewrite Vs, O, Vq, Vm, Vx, Vl, Vr. reflexivity.
Qed.
Lemma cosine_exact l r a b : (2 * prec < emax)%Z -> ints l a -> ints r b -> size l = size r ->
  (zsum (map (fun p => Z.abs (fst p * snd p)) (combine a b)) <= 2 ^ prec)%Z -> (zdot a a <= 2 ^ prec)%Z -> (zdot b b <= 2 ^ prec)%Z ->
  exists x, vector_cosine_distance l r = Ret x
    /\ ((zdot a a = 0%Z \/ zdot b b = 0%Z) -> x = B754_nan)
    /\ (zdot a a <> 0%Z -> zdot b b <> 0%Z -> finite x /\ value x = cosine_value (zdot a b) (zdot a a) (zdot b b)).
Proof.
  intros W HL HR E HB Ha Hb. pose proof (ints_len _ _ HL) as La. pose proof (ints_len _ _ HR) as Lb. destruct HL as [Rl Hl]. destruct HR as [Rr Hr].
  unfold Distance_Model.vector_cosine_distance. rewrite E, Nat.eqb_refl. cbn [negb].
  destruct (cos_run prec emax _ _ lanes lanes_pos mul_add MA reduce_sum RS l r Rl Rr E) as (da & db & dc & pad & _ & EA & D1 & D2 & D3).
  rewrite EA. cbn [obind].
  exists (if Beqb (fsqrt (reduce_sum db)) zero || Beqb (fsqrt (reduce_sum dc)) zero then B754_nan else sub Bone (div (reduce_sum da) (mul (fsqrt (reduce_sum db)) (fsqrt (reduce_sum dc))))).
  split; [destruct (_ || _)%bool; reflexivity|].
  set (z := combine a b ++ repeat (0, 0)%Z pad).
  assert (HP : Forall2 pint (combine (elements l) (elements r) ++ repeat (zero, zero) pad) z).
  { apply pads_int, pairs_int; [exact Hl|exact Hr|]. rewrite !elements_len by assumption. exact E. }
  assert (SA : zsum (map (fun p => fst p * fst p)%Z z) = zdot a a).
  { unfold z. rewrite zsum_pads by reflexivity. rewrite (combine_fst_map (fun x => x * x)%Z) by lia. unfold zdot. rewrite combine_self. reflexivity. }
  assert (SB : zsum (map (fun p => snd p * snd p)%Z z) = zdot b b).
  { unfold z. rewrite zsum_pads by reflexivity. rewrite (combine_snd_map (fun x => x * x)%Z) by lia. unfold zdot. rewrite combine_self. reflexivity. }
  assert (ID : is_int (reduce_sum da) (zdot a b)).
  { replace (zdot a b) with (zsum (map zprod z)) by (unfold z; rewrite zsum_pads by reflexivity; reflexivity).
    apply (dotted_int _ _ _ _ _ _ _ D1); [exact HP|]. unfold z. rewrite zabs_pads by reflexivity. rewrite map_map. exact HB. }
  assert (IA : is_int (reduce_sum db) (zdot a a)).
  { rewrite <- SA. apply is_int_zsum. apply (dotted_int _ _ _ _ _ _ _ D2); [apply fst2_int; exact HP|]. rewrite (map_map _ zprod). unfold zprod. cbn [fst snd].
    rewrite (zabs_squares fst), SA. exact Ha. }
  assert (IB : is_int (reduce_sum dc) (zdot b b)).
  { rewrite <- SB. apply is_int_zsum. apply (dotted_int _ _ _ _ _ _ _ D3); [apply snd2_int; exact HP|]. rewrite (map_map _ zprod). unfold zprod. cbn [fst snd].
    rewrite (zabs_squares snd), SB. exact Hb. }
  assert (NA : (0 <= zdot a a)%Z) by (rewrite <- SA; apply zsum_nonneg, squares_nonneg).
  assert (NB : (0 <= zdot b b)%Z) by (rewrite <- SB; apply zsum_nonneg, squares_nonneg).
  destruct (sqrt_int _ _ IA NA) as [FA VA]. destruct (sqrt_int _ _ IB NB) as [FB VB].
  assert (R00 : rounded (R_sqrt.sqrt 0) = 0%R) by (rewrite sqrt_0; apply round_0, valid_rnd_N).
  assert (KA : zdot a a = 0%Z -> Beqb (fsqrt (reduce_sum db)) zero = true) by (intros e; apply eqb_zero; [exact FA|]; rewrite VA, e; exact R00).
  assert (KB : zdot b b = 0%Z -> Beqb (fsqrt (reduce_sum dc)) zero = true) by (intros e; apply eqb_zero; [exact FB|]; rewrite VB, e; exact R00).
  assert (KA' : zdot a a <> 0%Z -> Beqb (fsqrt (reduce_sum db)) zero = false).
  { intros ne. apply not_true_is_false. intros T. apply eqb_zero in T; [|exact FA]. rewrite VA in T. assert (1 <= zdot a a)%Z as H1 by lia. pose proof (sqrt_ge1 _ H1). lra. }
  assert (KB' : zdot b b <> 0%Z -> Beqb (fsqrt (reduce_sum dc)) zero = false).
  { intros ne. apply not_true_is_false. intros T. apply eqb_zero in T; [|exact FB]. rewrite VB in T. assert (1 <= zdot b b)%Z as H1 by lia. pose proof (sqrt_ge1 _ H1). lra. }
  split.
  - intros [e|e]; [rewrite (KA e); reflexivity|rewrite (KB e), orb_true_r; reflexivity].
  - intros n1 n2. rewrite (KA' n1), (KB' n2). cbn [orb]. apply cosine_arith; try assumption; try lia.
    eapply Z.le_trans; [|exact HB]. pose proof (zabs_bound (map zprod (combine a b))) as B. rewrite map_map in B. exact B.
Qed.

(* -- sum -- *)
Lemma sum_exact v a : ints v a -> (zsum (map Z.abs a) <= 2 ^ prec)%Z -> exists x, vector_fsum v = Ret x /\ is_int x (zsum a).
Proof.
  intros [R H] HB. destruct (fsum_run prec emax _ _ lanes lanes_pos reduce_sum RS v R) as (x & EX & SX).
  exists x. split; [exact EX|]. change (zsum a) with (zsum (0%Z :: a)).
  apply (summed_int _ _ _ _ _ _ _ SX); [constructor; [apply int_zero|exact H]|exact HB].
Qed.
Lemma size_int n : (Z.of_nat n <= 2 ^ prec)%Z -> is_int (of_size prec emax prec_gt_0_ prec_lt_emax_ n) (Z.of_nat n).
Proof.
  intros H. pose proof (binary_normalize_correct prec emax _ _ mode_NE (Z.of_nat n) 0 false) as C. cbv zeta in C.
  replace (F2R {| Fnum := Z.of_nat n; Fexp := 0 |}) with (IZR (Z.of_nat n)) in C by (unfold F2R; cbn; lra).
  change (round radix2 fexp (round_mode mode_NE) (IZR (Z.of_nat n))) with (rounded (IZR (Z.of_nat n))) in C.
  rewrite lt_bool, round_int in C by (try assumption; lia). destruct C as (V & Fi & _). split; [exact Fi|exact V].
Qed.
Lemma avg_exact v a : ints v a -> (zsum (map Z.abs a) <= 2 ^ prec)%Z -> (Z.of_nat (size v) <= 2 ^ prec)%Z -> size v <> 0%nat ->
  exists x, vector_favg v = Ret x /\ finite x /\ value x = rounded (IZR (zsum a) / IZR (Z.of_nat (size v))).
Proof.
  intros H HB HN N0. destruct (sum_exact v a H HB) as (s & ES & [Fs Vs]). unfold Distance_Model.vector_favg. destruct (Nat.eqb_spec (size v) 0) as [e|_]; [contradiction|].
  rewrite ES. cbn [obind]. eexists. split; [reflexivity|]. destruct (size_int (size v) HN) as [Fn Vn]. pose proof prec_gt_0_ as P. unfold Prec_gt_0 in P. pose proof prec_lt_emax_ as P'. unfold Prec_lt_emax in P'.
  assert (N1 : (1 <= IZR (Z.of_nat (size v)))%R) by (apply (IZR_le 1); lia).
  assert (SB : (Rabs (value s) <= bpow radix2 prec)%R).
  { rewrite Vs, <- abs_IZR, <- (pow_bpow prec) by assumption. apply IZR_le. pose proof (zabs_bound a). lia. }
  destruct (div_small s (of_size prec emax prec_gt_0_ prec_lt_emax_ (size v))) as [Fq Vq]; [|exact Fs|rewrite Vn; lra|].
  - apply Rle_lt_trans with (bpow radix2 prec); [|apply bpow_lt; exact prec_lt_emax_]. apply rounded_le; [lia|]. rewrite Vn.
    unfold Rdiv. rewrite Rabs_mult, Rabs_inv. rewrite (Rabs_pos_eq (IZR _)) by lra.
    apply Rle_trans with (Rabs (value s) * 1)%R; [|lra]. apply Rmult_le_compat_l; [apply Rabs_pos|]. rewrite <- Rinv_1. apply Rinv_le; lra.
  - split; [exact Fq|]. rewrite Vq, Vs, Vn. reflexivity.
Qed.

(* -- any values -- *)
Local Open Scope R_scope.
Lemma sum_error v : readable v -> Forall finite (elements v) ->
  let d := (lanes + size v / lanes + size v mod lanes)%nat in
  (1 + u) ^ d * rsum (map Rabs (map value (elements v))) < bpow radix2 emax ->
  exists x, vector_fsum v = Ret x /\ finite x /\ Rabs (value x - rsum (map value (elements v))) <= ((1 + u) ^ d - 1) * rsum (map Rabs (map value (elements v))).
Proof.
  intros R H d HB. destruct (fsum_run prec emax _ _ lanes lanes_pos reduce_sum RS v R) as (x & EX & SX). exists x. split; [exact EX|].
  assert (S0 : rsum (map value (zero :: elements v)) = rsum (map value (elements v))) by (unfold rsum; cbn [map fold_right]; change (value zero) with 0; lra).
  assert (A0 : rsum (map Rabs (map value (zero :: elements v))) = rsum (map Rabs (map value (elements v)))) by (unfold rsum; cbn [map fold_right]; change (value zero) with 0; rewrite Rabs_R0; lra).
  rewrite <- S0, <- A0. apply (summed_err _ _ _ _ _ _ _ SX); [constructor; [reflexivity|exact H]|]. rewrite A0. exact HB.
Qed.
Lemma weight_sum g0 ts : weight g0 ts = g0 * rsum (map Rabs ts) + INR (length ts) * eta.
Proof.
  unfold Distance_Proofs.weight. induction ts as [|t ts IH]; [cbn; lra|].
  cbn [map length]. rewrite S_INR. unfold rsum in *. cbn [fold_right]. rewrite IH. lra.
Qed.
Lemma pairs_near l r : Forall finite l -> Forall finite r -> Forall2 (near 1) (combine l r) (map (fun p => value (fst p) * value (snd p)) (combine l r)).
Proof.
  intros H. revert r. induction H as [|x l Hx _ IH]; intros r Hr; [constructor|]. destruct r as [|y r]; [constructor|]. inversion Hr; subst. cbn. constructor; [|apply IH; assumption].
  split; [assumption|]. split; [assumption|]. cbn. rewrite Rminus_eq_0, Rabs_R0. lra.
Qed.
Lemma dot_error l r : readable l -> readable r -> size l = size r -> (lanes <= size l \/ lanes <= length (mem l) /\ lanes <= length (mem r))%nat ->
  Forall finite (elements l) -> Forall finite (elements r) ->
  let B := bound (size l + extra) 1 (products l r) (size l) in
  B < bpow radix2 emax ->
  exists x, vector_dot l r = Ret x /\ finite x /\ Rabs (value x - rsum (products l r)) <= B - rsum (map Rabs (products l r)).
Proof.
  intros Rl Rr E Hm Fl Fr B HB. unfold Distance_Spec.readable in *. unfold Distance_Model.vector_dot. rewrite <- E, Nat.eqb_refl. cbn [negb].
  assert (LP : length (products l r) = size l) by (unfold Distance_Spec.products; rewrite map_length, combine_length, !elements_len by assumption; lia).
  assert (R0 : exists x, Ret (dot_compute (firstn (size l) (mem l)) (firstn (size l) (mem r))) = Ret x /\ finite x /\ Rabs (value x - rsum (products l r)) <= B - rsum (map Rabs (products l r))).
  { eexists. split; [reflexivity|]. rewrite E at 2. replace (firstn (size l) (mem r)) with (elements r) by (unfold Distance_Spec.elements; rewrite E; reflexivity). fold (elements l).
    assert (EL : length (elements l) = length (elements r)) by (rewrite !elements_len by assumption; exact E).
    pose proof (DC _ _ EL) as D. rewrite (elements_len l Rl) in D.
    assert (WB : (1 + u) ^ (size l + extra) * weight 1 (products l r) = B) by (rewrite weight_sum, LP; reflexivity).
    rewrite <- WB in *. destruct (dotted_err prec emax _ _ 1 (Rle_refl 1) _ _ _ D _ (pairs_near _ _ Fl Fr) HB) as (Fx & Ex & _). split; assumption. }
  destruct (Nat.leb_spec lanes (size l)) as [H|H].
  - destruct (Nat.leb_spec (size l) (length (mem l))); [|lia]. destruct (Nat.leb_spec (size l) (length (mem r))); [|lia]. exact R0.
  - destruct (Nat.eqb_spec (size l) 0) as [e|ne].
    + rewrite e in R0. exact R0.
    + destruct (Nat.leb_spec lanes (length (mem l))); [|lia]. destruct (Nat.leb_spec lanes (length (mem r))); [|lia]. exact R0.
Qed.

(** The lanes beyond the end are zero. *)
Lemma pads_near g0 l ts k : 1 <= g0 -> Forall2 (near g0) l ts -> Forall2 (near g0) (l ++ repeat (zero, zero) k) (ts ++ repeat 0 k).
Proof.
  intros G H. apply Forall2_app; [exact H|]. induction k; cbn; constructor; [|assumption]. split; [reflexivity|]. split; [reflexivity|]. cbn.
  rewrite Rmult_0_l, Rminus_0_r, Rabs_R0. lra.
Qed.
Lemma rsum_zeros ts k : rsum (ts ++ repeat 0 k) = rsum ts.
Proof. rewrite rsum_app. assert (Z0 : rsum (repeat 0 k) = 0) by (unfold rsum; induction k; cbn; lra). lra. Qed.
Lemma rabs_zeros ts k : rsum (map Rabs (ts ++ repeat 0 k)) = rsum (map Rabs ts).
Proof. rewrite map_app. assert (M : map Rabs (repeat 0 k) = repeat 0 k) by (induction k; cbn; [reflexivity|rewrite Rabs_R0, IHk; reflexivity]). rewrite M. apply rsum_zeros. Qed.
Lemma rabs_nonneg' ts : 0 <= rsum (map Rabs ts).
Proof. unfold rsum. induction ts as [|t ts IH]; cbn; [lra|]. pose proof (Rabs_pos t). lra. Qed.
(** A sum of products in lanes *)
Lemma lanes_error g0 d ps ts pad x n : 1 <= g0 -> Forall2 (near g0) ps ts -> length ts = n -> (pad <= lanes)%nat ->
  dotted prec emax prec_gt_0_ prec_lt_emax_ d (ps ++ repeat (zero, zero) pad) x ->
  bound d g0 ts (n + lanes) < bpow radix2 emax ->
  finite x /\ Rabs (value x - rsum ts) <= bound d g0 ts (n + lanes) - rsum (map Rabs ts) /\ (Forall (fun p => 0 <= value (fst p) * value (snd p)) ps -> 0 <= value x).
Proof.
  intros G HN Hn Hp D HB.
  assert (W : (1 + u) ^ d * weight g0 (ts ++ repeat 0 pad) <= bound d g0 ts (n + lanes)).
  { rewrite weight_sum, rabs_zeros, app_length, repeat_length, Hn. unfold Distance_Spec.bound. pose proof (pow_ge1 prec d).
    apply Rmult_le_compat_l; [lra|]. apply Rplus_le_compat_l. apply Rmult_le_compat_r; [apply eta_pos|]. apply le_INR. lia. }
  destruct (dotted_err prec emax _ _ g0 G _ _ _ D _ (pads_near g0 ps ts pad G HN)) as (Fx & Ex & Nx); [lra|].
  split; [exact Fx|]. rewrite rsum_zeros, rabs_zeros in Ex. split; [lra|]. intros FN. apply Nx. apply Forall_app. split; [exact FN|].
  apply Forall_forall. intros p Hp'. apply repeat_spec in Hp'. subst p. cbn. lra.
Qed.
Lemma u_le : u <= / 2.
Proof. unfold unit_roundoff. change (/ 2) with (bpow radix2 (-1)). apply bpow_le. pose proof prec_gt_0_ as P. unfold Prec_gt_0 in P. lia. Qed.
Lemma diff_near x y : finite x -> finite y -> (1 + u) * ((1 + u) * ((value x - value y) * (value x - value y))) < bpow radix2 emax ->
  near ((1 + u) * (1 + u)) (diff (x, y)) ((value x - value y) * (value x - value y)).
Proof.
  intros Fx Fy HB. set (t := value x - value y) in *. pose proof u_le as U2. pose proof (u_pos prec) as U.
  assert (M : (1 + u) * Rabs t < bpow radix2 emax).
  { destruct (Rle_lt_dec 1 (Rabs t)) as [H|H].
    - assert (Rabs t <= t * t) by (rewrite <- (Rabs_pos_eq (t * t)) by nra; rewrite Rabs_mult; nra). assert (0 <= t * t) by nra. nra.
    - apply Rlt_le_trans with (bpow radix2 1); [rewrite bpow_1; change (IZR radix2) with 2; nra|].
      apply bpow_le. pose proof prec_gt_0_ as P. pose proof prec_lt_emax_ as Q. unfold Prec_gt_0, Prec_lt_emax in *. lia. }
  destruct (sub_err prec emax _ _ x y _ Fx Fy (Rle_refl _) M) as [Fs Es]. fold t in Es.
  unfold DistanceLoop_Proofs.diff. cbn [fst snd].
  assert (FA : finite (Babs (sub x y))) by (unfold Distance_Spec.finite; rewrite is_finite_Babs; exact Fs).
  split; [exact FA|]. split; [exact FA|]. cbn [fst snd]. unfold Distance_Spec.value at 1 2. rewrite B2R_Babs. fold (value (sub x y)). set (s := value (sub x y)) in *.
  rewrite <- Rabs_mult. rewrite (Rabs_pos_eq (s * s)) by nra. rewrite (Rabs_pos_eq (t * t)) by nra.
  replace (s * s - t * t) with ((s - t) * ((s - t) + 2 * t)) by ring. rewrite Rabs_mult.
  assert (E2 : Rabs (s - t + 2 * t) <= (2 + u) * Rabs t).
  { eapply Rle_trans; [apply Rabs_triang|]. rewrite Rabs_mult, (Rabs_pos_eq 2) by lra. lra. }
  assert (T2 : t * t = Rabs t * Rabs t) by (rewrite <- Rabs_mult, Rabs_pos_eq by nra; reflexivity). rewrite T2.
  apply Rle_trans with ((u * Rabs t) * ((2 + u) * Rabs t)); [|nra].
  apply Rmult_le_compat; try apply Rabs_pos; assumption.
Qed.
Lemma sum_member l z : Forall (fun z => 0 <= z) l -> In z l -> z <= rsum l.
Proof.
  unfold rsum. intros H. induction H as [|y l Hy Hl IH]; intros I; [destruct I|]. cbn. assert (N : 0 <= fold_right Rplus 0 l) by (clear IH I; induction Hl; cbn; lra).
  destruct I as [ -> | I]; [lra|]. specialize (IH I). lra.
Qed.
Lemma diffs_near l r d n : Forall finite l -> Forall finite r ->
  (1 + u) ^ d * ((1 + u) * (1 + u) * rsum (map Rabs (map (fun p => (value (fst p) - value (snd p)) * (value (fst p) - value (snd p))) (combine l r))) + INR n * eta) < bpow radix2 emax ->
  Forall2 (near ((1 + u) * (1 + u))) (map diff (combine l r)) (map (fun p => (value (fst p) - value (snd p)) * (value (fst p) - value (snd p))) (combine l r)).
Proof.
  intros Hl Hr HB. apply Forall2_combine_map. intros [x y] HI. cbn [fst snd].
  pose proof (in_combine_l _ _ _ _ HI) as Ix. pose proof (in_combine_r _ _ _ _ HI) as Iy. rewrite Forall_forall in Hl, Hr.
  apply diff_near; [apply Hl; exact Ix|apply Hr; exact Iy|].
  match type of HB with context [rsum ?L] => set (ls := L) in * end.
  assert (M : (value x - value y) * (value x - value y) <= rsum ls).
  { apply sum_member.
    - apply Forall_forall. intros z Hz. unfold ls in Hz. apply in_map_iff in Hz. destruct Hz as (w & <- & _). apply Rabs_pos.
    - unfold ls. rewrite map_map. apply in_map_iff. exists (x, y). split; [|exact HI]. cbn [fst snd]. apply Rabs_pos_eq, Rle_0_sqr. }
  pose proof (pow_ge1 prec d) as G. pose proof (u_pos prec) as U. pose proof (pos_INR n) as N. pose proof (eta_pos prec emax) as ET.
  apply Rle_lt_trans with (2 := HB).
  assert (0 <= (value x - value y) * (value x - value y)) by apply Rle_0_sqr. assert (0 <= INR n * eta) by nra.
  assert (K : (1 + u) * (1 + u) * ((value x - value y) * (value x - value y)) <= (1 + u) * (1 + u) * rsum ls) by (apply Rmult_le_compat_l; nra).
  assert (0 <= (1 + u) * (1 + u) * rsum ls) by nra.
  set (q := (1 + u) * (1 + u) * rsum ls) in *. nra.
Qed.
Lemma l2_error l r : readable l -> readable r -> size l = size r -> Forall finite (elements l) -> Forall finite (elements r) ->
  let B := bound (dp (size l)) ((1 + u) * (1 + u)) (squares l r) (size l + lanes) in
  B < bpow radix2 emax ->
  exists x s, vector_l2_distance l r = Ret x /\ 0 <= s /\ Rabs (s - rsum (squares l r)) <= B - rsum (map Rabs (squares l r))
    /\ finite x /\ value x = rounded (R_sqrt.sqrt s).
Proof.
  intros Rl Rr E Fl Fr B HB. unfold Distance_Model.vector_l2_distance. rewrite E, Nat.eqb_refl. cbn [negb].
  destruct (l2_run prec emax _ _ lanes lanes_pos mul_add MA reduce_sum RS l r Rl Rr E) as (acc & pad & PL & EA & D).
  rewrite EA. cbn [obind].
  assert (DZ : map diff (repeat (zero, zero) pad) = repeat (zero, zero) pad) by (clear; induction pad; cbn; [reflexivity|rewrite IHpad; reflexivity]).
  rewrite map_app, DZ in D. pose proof (u_pos prec) as U.
  assert (LS : length (squares l r) = size l) by (unfold Distance_Spec.squares; rewrite map_length, combine_length, !elements_len by assumption; lia).
  assert (G1 : 1 <= (1 + u) * (1 + u)) by nra.
  destruct (lanes_error ((1 + u) * (1 + u)) _ _ (squares l r) pad _ (size l) G1 (diffs_near _ _ _ _ Fl Fr HB) LS PL D HB) as (Fx & Ex & Nx).
  assert (N0 : 0 <= value (reduce_sum acc)).
  { apply Nx. apply Forall_forall. intros p Hp. apply in_map_iff in Hp. destruct Hp as (q & <- & _). unfold DistanceLoop_Proofs.diff. cbn [fst snd]. apply Rle_0_sqr. }
  exists (fsqrt (reduce_sum acc)), (value (reduce_sum acc)). split; [reflexivity|]. split; [exact N0|]. split; [exact Ex|]. apply sqrt_nonneg; assumption.
Qed.
Lemma bound_mono d g0 ts n m : 1 <= g0 -> (n <= m)%nat -> bound d g0 ts n <= bound d g0 ts m.
Proof.
  intros G H. unfold Distance_Spec.bound. pose proof (pow_ge1 prec d). apply Rmult_le_compat_l; [lra|]. apply Rplus_le_compat_l, Rmult_le_compat_r; [apply eta_pos|]. apply le_INR. exact H.
Qed.
Lemma cosine_error l r : readable l -> readable r -> size l = size r -> Forall finite (elements l) -> Forall finite (elements r) ->
  let B := fun ts => bound (dp (size l)) 1 ts (size l + lanes) in
  B (products l r) < bpow radix2 emax -> B (products l l) < bpow radix2 emax -> B (products r r) < bpow radix2 emax ->
  exists dot nl nr,
    vector_cosine_distance l r = Ret (if Beqb (fsqrt nl) zero || Beqb (fsqrt nr) zero then B754_nan else sub Bone (div dot (mul (fsqrt nl) (fsqrt nr))))
    /\ (finite dot /\ Rabs (value dot - rsum (products l r)) <= B (products l r) - rsum (map Rabs (products l r)))
    /\ (finite nl /\ 0 <= value nl /\ Rabs (value nl - rsum (products l l)) <= B (products l l) - rsum (map Rabs (products l l)))
    /\ (finite nr /\ 0 <= value nr /\ Rabs (value nr - rsum (products r r)) <= B (products r r) - rsum (map Rabs (products r r))).
Proof.
  intros Rl Rr E Fl Fr B H1 H2 H3. unfold Distance_Model.vector_cosine_distance. rewrite E, Nat.eqb_refl. cbn [negb].
  destruct (cos_run prec emax _ _ lanes lanes_pos mul_add MA reduce_sum RS l r Rl Rr E) as (da & db & dc & pad & PL & EA & D1 & D2 & D3).
  rewrite EA. cbn [obind]. exists (reduce_sum da), (reduce_sum db), (reduce_sum dc).
  split; [destruct (_ || _)%bool; reflexivity|].
  assert (EL : length (elements l) = length (elements r)) by (rewrite !elements_len by assumption; exact E).
  assert (SELF : forall v : list F, map (fun x => (x, x)) v = combine v v) by (clear; induction v; cbn; [reflexivity|rewrite IHv; reflexivity]).
  rewrite map_app in D2, D3.
  assert (PD2 : map (fst2 prec emax) (repeat (zero, zero) pad) = repeat (zero, zero) pad) by (clear; induction pad; cbn; [reflexivity|rewrite IHpad; reflexivity]). rewrite PD2 in D2.
  assert (PD3 : map (snd2 prec emax) (repeat (zero, zero) pad) = repeat (zero, zero) pad) by (clear; induction pad; cbn; [reflexivity|rewrite IHpad; reflexivity]). rewrite PD3 in D3.
  unfold fst2 in D2. unfold snd2 in D3. rewrite (combine_fst_map (fun x => (x, x))) in D2 by exact EL. rewrite (combine_snd_map (fun x => (x, x))) in D3 by exact EL. rewrite SELF in D2, D3.
  assert (L1 : length (products l r) = size l) by (unfold Distance_Spec.products; rewrite map_length, combine_length, !elements_len by assumption; lia).
  assert (L2 : length (products l l) = size l) by (unfold Distance_Spec.products; rewrite map_length, combine_length, !elements_len by assumption; lia).
  assert (L3 : length (products r r) = size l) by (unfold Distance_Spec.products; rewrite map_length, combine_length, !elements_len by assumption; lia).
  destruct (lanes_error 1 _ _ _ pad _ _ (Rle_refl 1) (pairs_near _ _ Fl Fr) L1 PL D1 H1) as (F1 & E1 & _).
  destruct (lanes_error 1 _ _ _ pad _ _ (Rle_refl 1) (pairs_near _ _ Fl Fl) L2 PL D2 H2) as (F2 & E2 & N2).
  destruct (lanes_error 1 _ _ _ pad _ _ (Rle_refl 1) (pairs_near _ _ Fr Fr) L3 PL D3 H3) as (F3 & E3 & N3).
  assert (SQ : forall v : list F, Forall (fun p => 0 <= value (fst p) * value (snd p)) (combine v v)).
  { intros v. rewrite <- SELF. apply Forall_forall. intros p Hp. apply in_map_iff in Hp. destruct Hp as (x & <- & _). cbn. apply Rle_0_sqr. }
  repeat split; try assumption; [apply N2, SQ|apply N3, SQ].
Qed.

(* -- refused, and read past the end -- *)
Lemma mismatch l r : size l <> size r -> vector_dot l r = Err /\ vector_cosine_distance l r = Err /\ vector_l2_distance l r = Err.
Proof.
  intros H. unfold Distance_Model.vector_dot, Distance_Model.vector_cosine_distance, Distance_Model.vector_l2_distance.
  destruct (Nat.eqb_spec (size l) (size r)); [contradiction|]. repeat split; reflexivity.
Qed.
Lemma dot_short l r : size l = size r -> (0 < size l < lanes)%nat -> length (mem l) = size l -> vector_dot l r = UB.
Proof.
  intros E H M. unfold Distance_Model.vector_dot. rewrite <- E, Nat.eqb_refl. cbn [negb]. destruct (Nat.leb_spec lanes (size l)); [lia|].
  destruct (Nat.eqb_spec (size l) 0); [lia|]. rewrite M. destruct (Nat.leb_spec lanes (size l)); [lia|]. reflexivity.
Qed.
(** Not a number *)
Lemma avg_empty v : size v = 0%nat -> vector_favg v = Ret zero.
Proof. intros H. unfold Distance_Model.vector_favg. rewrite H. reflexivity. Qed.
End Main.
