(** Proofs for C77. *)
From Coq Require Import List Bool Arith ZArith Reals Floats.SpecFloat Lia Lra.
Import ListNotations.
From Flocq Require Import Core BinarySingleNaN.
From Verif Require Import Base Lexer_Model Op_Model Number_Model MathFn_Model MathFn_Spec.

(** ** Kernels *)
Section K.
Context {A : Type}.
Lemma nth_error_firstn (l : list A) n i : i < n -> nth_error (firstn n l) i = nth_error l i.
Proof. revert n i. induction l as [|x l IH]; intros [|n] [|i] H; try lia; cbn; try reflexivity. apply IH. lia. Qed.
Lemma nth_error_skipn (l : list A) n i : nth_error (skipn n l) i = nth_error l (n + i).
Proof. revert n. induction l as [|x l IH]; intros [|n]; cbn; try reflexivity; [destruct i; reflexivity|apply IH]. Qed.
Lemma storeU_ok (v out : list A) i : i + length v <= length out ->
  exists out', storeU v out i = Ret out' /\ length out' = length out
    /\ (forall j, j < i -> nth_error out' j = nth_error out j)
    /\ (forall j, j < length v -> nth_error out' (i + j) = nth_error v j)
    /\ (forall j, i + length v <= j -> nth_error out' j = nth_error out j).
Proof.
  intros H. unfold storeU. rewrite (proj2 (Nat.leb_le _ _) H). eexists. split; [reflexivity|].
  assert (HF : length (firstn i out) = i) by (rewrite firstn_length; lia).
  repeat split.
  - rewrite !app_length, HF, skipn_length. lia.
  - intros j Hj. rewrite nth_error_app1 by lia. apply nth_error_firstn. exact Hj.
  - intros j Hj. rewrite nth_error_app2 by lia. rewrite HF, nth_error_app1 by lia. f_equal. lia.
  - intros j Hj. rewrite nth_error_app2 by lia. rewrite HF, nth_error_app2 by lia. rewrite nth_error_skipn. f_equal. lia.
Qed.
Lemma loadU_ok (p : list A) n i : i + n <= length p -> exists v, loadU n p i = Ret v /\ length v = n /\ forall j, j < n -> nth_error v j = nth_error p (i + j).
Proof.
  intros H. unfold loadU. rewrite (proj2 (Nat.leb_le _ _) H). eexists. split; [reflexivity|]. split.
  - rewrite firstn_length, skipn_length. lia.
  - intros j Hj. rewrite nth_error_firstn by exact Hj. apply nth_error_skipn.
Qed.
Lemma units_ok n body (P : nat -> A -> Prop) : 0 < n -> Nat.divide n 64 ->
  (forall idx, idx < 64 -> Nat.divide n idx -> exists v, body idx = Ret v /\ length v = n /\ forall j x, j < n -> nth_error v j = Some x -> P (idx + j) x) ->
  forall fuel idx out, Nat.divide n idx -> idx <= 64 -> 64 <= idx + fuel -> 64 <= length out ->
  (forall j x, j < idx -> nth_error out j = Some x -> P j x) ->
  exists out', units n body fuel idx out = Ret out' /\ unit_replaced out out' P.
Proof.
  intros Hn HD HB. induction fuel as [|fuel IH]; intros idx out Hi Hle Hf Hl HP; cbn [units]; unfold unit_size.
  - destruct (Nat.ltb_spec idx 64); [lia|]. exists out. split; [reflexivity|]. repeat split.
    intros i x Hix. apply HP. lia.
  - destruct (Nat.ltb_spec idx 64) as [Hlt|Hge].
    2:{ exists out. split; [reflexivity|]. repeat split. intros i x Hix. apply HP. lia. }
    destruct (HB idx Hlt Hi) as (v & -> & Lv & Pv). cbn [obind].
    assert (HS : idx + n <= 64).
    { destruct Hi as [a ->], HD as [b Hb]. assert (a < b) by nia. nia. }
    destruct (storeU_ok v out idx) as (o1 & -> & L1 & A1 & B1 & C1); [lia|]. cbn [obind].
    destruct (IH (idx + n) o1) as (o2 & -> & L2 & A2 & C2).
    + destruct Hi as [a ->]. exists (a + 1). lia.
    + lia.
    + lia.
    + lia.
    + intros j x Hj Hx. destruct (Nat.lt_ge_cases j idx) as [H|H].
      * apply HP; [exact H|]. rewrite <- A1 by exact H. exact Hx.
      * replace j with (idx + (j - idx)) by lia. apply Pv; [lia|]. rewrite <- B1 by lia. rewrite <- Hx. f_equal. lia.
    + exists o2. split; [reflexivity|]. split; [lia|]. split; [exact A2|]. intros i Hi2. rewrite C2 by exact Hi2. apply C1. lia.
Qed.
Lemma nth_error_combine {B} (l : list A) (r : list B) i p : nth_error (combine l r) i = Some p -> nth_error l i = Some (fst p) /\ nth_error r i = Some (snd p).
Proof.
  revert r i. induction l as [|x l IH]; intros [|y r] [|i] H; try discriminate; cbn in *.
  - injection H as <-. split; reflexivity.
  - apply IH. exact H.
Qed.
Lemma unary_ok n (f : A -> A) a out : 0 < n -> Nat.divide n 64 -> 64 <= length a -> 64 <= length out ->
  exists out', unary_kernel n f a out = Ret out' /\ unit_replaced out out' (fun i x => exists u, nth_error a i = Some u /\ x = f u).
Proof.
  intros Hn HD La Lo. apply (units_ok n); try lia; try exact Hn; try exact HD.
  - intros idx Hi Hd. assert (HS : idx + n <= 64) by (destruct Hd as [k ->], HD as [b Hb]; assert (k < b) by nia; nia).
    destruct (loadU_ok a n idx) as (v & -> & Lv & Pv); [lia|]. eexists. split; [reflexivity|]. split; [rewrite map_length; exact Lv|].
    intros j x Hj H. rewrite nth_error_map in H. destruct (nth_error v j) as [u|] eqn:E; [|discriminate]. injection H as <-.
    exists u. split; [|reflexivity]. rewrite <- Pv by exact Hj. exact E.
  - exists 0. reflexivity.
  - unfold unit_size. lia.
Qed.
Lemma binary_ok n (f : A -> A -> A) a b out : 0 < n -> Nat.divide n 64 -> 64 <= length a -> 64 <= length b -> 64 <= length out ->
  exists out', binary_kernel n f a b out = Ret out' /\ unit_replaced out out' (fun i x => exists u v, nth_error a i = Some u /\ nth_error b i = Some v /\ x = f u v).
Proof.
  intros Hn HD La Lb Lo. apply (units_ok n); try lia; try exact Hn; try exact HD.
  - intros idx Hi Hd. assert (HS : idx + n <= 64) by (destruct Hd as [k ->], HD as [c Hb]; assert (k < c) by nia; nia).
    destruct (loadU_ok a n idx) as (v & -> & Lv & Pv); [lia|]. destruct (loadU_ok b n idx) as (w & -> & Lw & Pw); [lia|]. cbn [obind].
    eexists. split; [reflexivity|]. split; [rewrite map_length, combine_length; lia|].
    intros j x Hj H. rewrite nth_error_map in H. destruct (nth_error (combine v w) j) as [p|] eqn:E; [|discriminate]. injection H as <-.
    apply nth_error_combine in E. destruct E as [E1 E2]. exists (fst p), (snd p). rewrite <- Pv, <- Pw by exact Hj. auto.
  - exists 0. reflexivity.
  - unfold unit_size. lia.
Qed.
Lemma ternary_ok n (f : A -> A -> A -> A) a b c out : 0 < n -> Nat.divide n 64 -> 64 <= length a -> 64 <= length b -> 64 <= length c -> 64 <= length out ->
  exists out', ternary_kernel n f a b c out = Ret out'
    /\ unit_replaced out out' (fun i x => exists u v w, nth_error a i = Some u /\ nth_error b i = Some v /\ nth_error c i = Some w /\ x = f u v w).
Proof.
  intros Hn HD La Lb Lc Lo. apply (units_ok n); try lia; try exact Hn; try exact HD.
  - intros idx Hi Hd. assert (HS : idx + n <= 64) by (destruct Hd as [k ->], HD as [e Hb]; assert (k < e) by nia; nia).
    destruct (loadU_ok a n idx) as (v & -> & Lv & Pv); [lia|]. destruct (loadU_ok b n idx) as (w & -> & Lw & Pw); [lia|].
    destruct (loadU_ok c n idx) as (z & -> & Lz & Pz); [lia|]. cbn [obind].
    eexists. split; [reflexivity|]. split; [rewrite map_length, !combine_length; lia|].
    intros j x Hj H. rewrite nth_error_map in H. destruct (nth_error (combine v (combine w z)) j) as [p|] eqn:E; [|discriminate]. injection H as <-.
    apply nth_error_combine in E. destruct E as [E1 E2]. apply nth_error_combine in E2. destruct E2 as [E2 E3].
    exists (fst p), (fst (snd p)), (snd (snd p)). rewrite <- Pv, <- Pw, <- Pz by exact Hj. auto.
  - exists 0. reflexivity.
  - unfold unit_size. lia.
Qed.
End K.

(** ** Floats *)
Section Floats.
Variables prec emax : Z.
Context (prec_gt_0_ : Prec_gt_0 prec) (prec_lt_emax_ : Prec_lt_emax prec emax).
Notation F := (binary_float prec emax).
Notation add := (Bplus mode_NE). Notation sub := (Bminus mode_NE). Notation mul := (Bmult mode_NE). Notation fma := (Bfma mode_NE).
Implicit Types x y a b c v lo hi : F.

Lemma nearby_value md x : B2R (Bnearbyint md x) = IZR (round_mode md (B2R x)).
Proof. destruct (Bnearbyint_correct prec emax prec_lt_emax_ md x) as (H & _). rewrite H. apply round_FIX_IZR. Qed.
Lemma nearby_finite md x : is_finite (Bnearbyint md x) = is_finite x.
Proof. destruct (Bnearbyint_correct prec emax prec_lt_emax_ md x) as (_ & H & _). exact H. Qed.
Lemma finite_nan x : is_finite x = true -> is_nan x = false.
Proof. destruct x; easy. Qed.
Lemma nearby_eq m1 m2 x : is_finite x = true -> Bnearbyint m1 x = Bnearbyint m2 x <-> round_mode m1 (B2R x) = round_mode m2 (B2R x).
Proof.
  intros H. split; intros E.
  - apply eq_IZR. rewrite <- !nearby_value. now rewrite E.
  - apply B2R_Bsign_inj.
    + now rewrite nearby_finite.
    + now rewrite nearby_finite.
    + rewrite !nearby_value. now rewrite E.
    + destruct (Bnearbyint_correct prec emax prec_lt_emax_ m1 x) as (_ & F1 & S1).
      destruct (Bnearbyint_correct prec emax prec_lt_emax_ m2 x) as (_ & F2 & S2).
      rewrite S1, S2; [reflexivity| |]; apply finite_nan; congruence.
Qed.
(** Ties *)
Lemma floor_half n r : r = (IZR n + / 2)%R -> Zfloor r = n /\ Zceil r = (n + 1)%Z.
Proof.
  intros ->. split.
  - apply Zfloor_imp. rewrite plus_IZR. lra.
  - apply Zceil_imp. replace (n + 1 - 1)%Z with n by lia. rewrite plus_IZR. lra.
Qed.
Lemma znearest_half ch n r : r = (IZR n + / 2)%R -> Znearest ch r = if ch n then (n + 1)%Z else n.
Proof.
  intros E. destruct (floor_half n r E) as [F1 C1]. unfold Znearest. rewrite F1, C1. rewrite Rcompare_Eq; [reflexivity|]. lra.
Qed.
Lemma nearest_differ r : ZnearestA r <> ZnearestE r <-> exists k, (0 <= k)%Z /\ Z.even k = true /\ Rabs r = (IZR k + / 2)%R.
Proof.
  split.
  - intros H. set (n := Zfloor r).
    destruct (Req_dec (r - IZR n) (/ 2)) as [E|E].
    2:{ exfalso. apply H. unfold Znearest. fold n. destruct (Rcompare_spec (r - IZR n) (/ 2)); [reflexivity|contradiction|reflexivity]. }
    assert (Er : r = (IZR n + / 2)%R) by lra. rewrite !(znearest_half _ n r Er) in H.
    destruct (Zle_bool 0 n) eqn:L.
    + apply Z.leb_le in L. exists n. split; [exact L|]. split; [destruct (Z.even n); [reflexivity|exfalso; apply H; reflexivity]|].
      apply IZR_le in L. rewrite Rabs_pos_eq; lra.
    + apply Z.leb_gt in L. exists (- n - 1)%Z. split; [lia|]. split.
      * destruct (Z.even n) eqn:V; [exfalso; apply H; reflexivity|].
        replace (- n - 1)%Z with (- (n + 1))%Z by lia. rewrite Z.even_opp, Z.add_1_r, Z.even_succ, <- Z.negb_even, V. reflexivity.
      * assert (L1 : (n <= -1)%Z) by lia. apply IZR_le in L1. rewrite minus_IZR, opp_IZR. rewrite Rabs_left1; lra.
  - intros (k & Hk & Ev & E). assert (Hk0 : (0 <= IZR k)%R) by (apply IZR_le; exact Hk).
    destruct (Rle_dec 0 r) as [P|P].
    + rewrite Rabs_pos_eq in E by exact P. rewrite !(znearest_half _ k r E). rewrite Ev, (proj2 (Z.leb_le _ _) Hk). cbn. lia.
    + rewrite Rabs_left in E by lra.
      assert (E' : r = (IZR (- k - 1) + / 2)%R) by (rewrite minus_IZR, opp_IZR; lra).
      rewrite !(znearest_half _ _ r E'). replace (- k - 1)%Z with (- (k + 1))%Z by lia.
      rewrite Z.even_opp, Z.add_1_r, Z.even_succ, <- Z.negb_even, Ev. cbn.
      destruct (Z.leb_spec 0 (- Z.succ k)); lia.
Qed.
Lemma unary_agree op x : finite prec emax x ->
  v_unary prec emax prec_gt_0_ prec_lt_emax_ op x = s_unary prec emax prec_gt_0_ prec_lt_emax_ op x
  <-> ~ (op = OP_ROUND /\ exists k, halfway prec emax x k /\ Z.even k = true).
Proof.
  intros Hx. unfold halfway, value. destruct (nearest_differ (B2R x)) as [N1 N2].
  destruct op; cbn [v_unary s_unary]; try (split; [intros _ [H _]; discriminate H|reflexivity]).
  split.
  - intros E [_ (k & (Hk & Er) & Ev)]. injection E as E. apply (nearby_eq _ _ x Hx) in E. cbn [round_mode] in E.
    apply N2; [exists k; auto|]. symmetry. exact E.
  - intros H. f_equal. apply (nearby_eq _ _ x Hx). cbn [round_mode]. destruct (Z.eq_dec (ZnearestA (B2R x)) (ZnearestE (B2R x))) as [E|E]; [symmetry; exact E|].
    exfalso. apply H. split; [reflexivity|]. destruct (N1 E) as (k & A1 & A2 & A3). exists k. auto.
Qed.
Lemma unary_agree_all op x :
  v_unary prec emax prec_gt_0_ prec_lt_emax_ op x = s_unary prec emax prec_gt_0_ prec_lt_emax_ op x
  <-> ~ (op = OP_ROUND /\ exists k, halfway prec emax x k /\ Z.even k = true).
Proof.
  destruct (is_finite x) eqn:Hx; [apply unary_agree; exact Hx|]. split.
  - intros _ [_ (k & (Hk & E) & _)]. unfold value in E.
    assert (B2R x = 0%R) as Z by (destruct x; try discriminate; reflexivity). rewrite Z, Rabs_R0 in E. apply IZR_le in Hk. lra.
  - intros _. destruct op; try reflexivity. destruct x; try discriminate; reflexivity.
Qed.
Lemma abs_half_nearest (ch : Z -> bool) r k : (0 <= k)%Z -> Rabs r = (IZR k + / 2)%R ->
  (0 <= r /\ Znearest ch r = if ch k then (k + 1)%Z else k)%R \/ (r < 0 /\ Znearest ch r = if ch (- k - 1)%Z then (- k)%Z else (- k - 1)%Z)%R.
Proof.
  intros Hk E. assert (Hk0 : (0 <= IZR k)%R) by (apply IZR_le; exact Hk).
  destruct (Rle_dec 0 r) as [P|P].
  - left. split; [exact P|]. rewrite Rabs_pos_eq in E by exact P. apply znearest_half. exact E.
  - right. split; [lra|]. rewrite Rabs_left in E by lra.
    rewrite (znearest_half ch (- k - 1)) by (rewrite minus_IZR, opp_IZR; lra).
    destruct (ch _); lia.
Qed.
Lemma round_ties x k : finite prec emax x -> halfway prec emax x k -> Z.even k = true ->
  exists s v, s_unary prec emax prec_gt_0_ prec_lt_emax_ OP_ROUND x = Ret s /\ Rabs (value _ _ s) = IZR (k + 1)
    /\ v_unary prec emax prec_gt_0_ prec_lt_emax_ OP_ROUND x = Ret v /\ Rabs (value _ _ v) = IZR k.
Proof.
  intros Hx [Hk E] Ev. eexists. eexists. split; [reflexivity|]. split; [|split; [reflexivity|]].
  - unfold value in *. rewrite nearby_value, <- abs_IZR. f_equal. cbn [round_mode].
    destruct (abs_half_nearest (Zle_bool 0) _ k Hk E) as [[P ->]|[P ->]].
    + rewrite (proj2 (Z.leb_le _ _) Hk). lia.
    + rewrite (proj2 (Z.leb_gt _ _)) by lia. lia.
  - unfold value in *. rewrite nearby_value, <- abs_IZR. f_equal. cbn [round_mode].
    destruct (abs_half_nearest (fun z => negb (Z.even z)) _ k Hk E) as [[P ->]|[P ->]].
    + rewrite Ev. cbn. lia.
    + replace (- k - 1)%Z with (- (k + 1))%Z by lia.
      rewrite Z.even_opp, Z.add_1_r, Z.even_succ, <- Z.negb_even, Ev. cbn. lia.
Qed.
Lemma round_nearest x : finite prec emax x ->
  exists s, s_unary prec emax prec_gt_0_ prec_lt_emax_ OP_ROUND x = Ret s /\ finite prec emax s /\ nearest_away prec emax x s.
Proof.
  intros Hx. eexists. split; [reflexivity|]. split; [unfold finite; rewrite nearby_finite; exact Hx|].
  exists (ZnearestA (B2R x)). unfold value. rewrite nearby_value. split; [reflexivity|].
  split; [apply Znearest_half|]. set (r := B2R x). intros E.
  set (n := Zfloor r). pose proof (Zfloor_lb r) as H1. pose proof (Zfloor_ub r) as H2. fold n in H1, H2.
  assert (T : (r = IZR n + / 2)%R).
  { destruct (Rcompare_spec (r - IZR n) (/ 2)) as [C|C|C]; [|lra|].
    - exfalso. unfold Znearest in E. fold n in E. rewrite Rcompare_Lt in E by exact C. rewrite Rabs_pos_eq in E by lra. lra.
    - exfalso. unfold Znearest in E. fold n in E. rewrite Rcompare_Gt in E by exact C.
      assert (Zceil r = n + 1)%Z as HC.
      { apply Zceil_imp. replace (n + 1 - 1)%Z with n by lia. rewrite plus_IZR. lra. }
      rewrite HC, plus_IZR in E. rewrite Rabs_left in E by lra. lra. }
  rewrite (znearest_half _ n r T). destruct (Zle_bool 0 n) eqn:L.
  - apply Z.leb_le, IZR_le in L. rewrite plus_IZR, !Rabs_pos_eq by lra. lra.
  - apply Z.leb_gt in L. assert (L1 : (n <= -1)%Z) by lia. apply IZR_le in L1. rewrite !Rabs_left by lra. lra.
Qed.

(** ** Clamp: numbers with the infinities as reals *)
Definition ext x : R := match x with B754_infinity s => if s then - bpow radix2 emax else bpow radix2 emax | _ => B2R x end.
Lemma ext_compare x y : is_nan x = false -> is_nan y = false -> Bcompare x y = Some (Rcompare (ext x) (ext y)).
Proof.
  intros Hx Hy. pose proof (bpow_gt_0 radix2 emax) as Hb.
  destruct (is_finite x) eqn:Fx, (is_finite y) eqn:Fy.
  - rewrite Bcompare_correct by assumption. destruct x, y; try discriminate; reflexivity.
  - pose proof (abs_B2R_lt_emax prec emax x) as L. apply Rabs_lt_inv in L.
    destruct y as [|s| |]; try discriminate.
    assert (ext x = B2R x) as -> by (destruct x; try discriminate; reflexivity).
    destruct s; cbn [ext].
    + rewrite Rcompare_Gt by lra. destruct x as [| | |[|]]; try discriminate; reflexivity.
    + rewrite Rcompare_Lt by lra. destruct x as [| | |[|]]; try discriminate; reflexivity.
  - pose proof (abs_B2R_lt_emax prec emax y) as L. apply Rabs_lt_inv in L.
    destruct x as [|s| |]; try discriminate.
    assert (ext y = B2R y) as -> by (destruct y; try discriminate; reflexivity).
    destruct s; cbn [ext].
    + rewrite Rcompare_Lt by lra. destruct y as [| | |[|]]; try discriminate; reflexivity.
    + rewrite Rcompare_Gt by lra. destruct y as [| | |[|]]; try discriminate; reflexivity.
  - destruct x as [|s| |]; try discriminate. destruct y as [|t| |]; try discriminate.
    destruct s, t; cbn [ext].
    + rewrite Rcompare_Eq by lra. reflexivity.
    + rewrite Rcompare_Lt by lra. reflexivity.
    + rewrite Rcompare_Gt by lra. reflexivity.
    + rewrite Rcompare_Eq by lra. reflexivity.
Qed.
Lemma less_ext x y : is_nan x = false -> is_nan y = false -> less prec emax x y <-> (ext x < ext y)%R.
Proof.
  intros Hx Hy. unfold less. rewrite ext_compare by assumption. destruct (Rcompare_spec (ext x) (ext y)); split; intros; try lra; try discriminate; reflexivity.
Qed.
Lemma same_ext x y : is_nan x = false -> is_nan y = false -> same_number prec emax x y <-> ext x = ext y.
Proof.
  intros Hx Hy. unfold same_number. rewrite ext_compare by assumption. destruct (Rcompare_spec (ext x) (ext y)); split; intros; try lra; try discriminate; reflexivity.
Qed.
Lemma ltb_ext x y : is_nan x = false -> is_nan y = false -> Bltb x y = true <-> (ext x < ext y)%R.
Proof.
  intros Hx Hy. rewrite <- less_ext by assumption. unfold less, Bltb, SFltb, Bcompare. destruct (SFcompare (B2SF x) (B2SF y)) as [[]|]; split; intros; try discriminate; reflexivity.
Qed.
Lemma ltb_ext_false x y : is_nan x = false -> is_nan y = false -> Bltb x y = false <-> (ext y <= ext x)%R.
Proof.
  intros Hx Hy. pose proof (ltb_ext x y Hx Hy) as [H1 H2]. destruct (Bltb x y); split; intros; try discriminate; try reflexivity.
  - specialize (H1 eq_refl). lra.
  - destruct (Rle_dec (ext y) (ext x)); [assumption|]. assert (false = true) by (apply H2; lra). discriminate.
Qed.
Variables vmax vmin : F -> F -> F.
Hypothesis HMax : maxes prec emax vmax.
Hypothesis HMin : mins prec emax vmin.
Lemma max_ext x y : is_nan x = false -> is_nan y = false -> is_nan (vmax x y) = false /\ ext (vmax x y) = Rmax (ext x) (ext y).
Proof.
  intros Hx Hy. destruct (HMax x y Hx Hy) as (HE & L1 & L2).
  assert (HN : is_nan (vmax x y) = false) by (destruct HE as [-> | ->]; assumption).
  split; [exact HN|]. rewrite less_ext in L1, L2 by assumption.
  destruct HE as [E|E]; rewrite E in *; unfold Rmax; destruct (Rle_dec (ext x) (ext y)); lra.
Qed.
Lemma min_ext x y : is_nan x = false -> is_nan y = false -> is_nan (vmin x y) = false /\ ext (vmin x y) = Rmin (ext x) (ext y).
Proof.
  intros Hx Hy. destruct (HMin x y Hx Hy) as (HE & L1 & L2).
  assert (HN : is_nan (vmin x y) = false) by (destruct HE as [-> | ->]; assumption).
  split; [exact HN|]. rewrite less_ext in L1, L2 by assumption.
  destruct HE as [E|E]; rewrite E in *; unfold Rmin; destruct (Rle_dec (ext x) (ext y)); lra.
Qed.
Lemma v_clamp_ext first v lo hi : is_nan v = false -> is_nan lo = false -> is_nan hi = false ->
  is_nan (v_clamp prec emax vmax vmin first v lo hi) = false /\ ext (v_clamp prec emax vmax vmin first v lo hi) = Rmin (Rmax (ext lo) (ext v)) (ext hi).
Proof.
  intros Hv Hl Hh. unfold v_clamp.
  assert (HM : is_nan (if first then vmax v lo else vmax lo v) = false /\ ext (if first then vmax v lo else vmax lo v) = Rmax (ext lo) (ext v)).
  { destruct first; [rewrite Rmax_comm|]; apply max_ext; assumption. }
  destruct HM as [N1 E1]. rewrite <- E1. apply min_ext; assumption.
Qed.
Lemma clamp_agree first v lo hi : number _ _ v -> number _ _ lo -> number _ _ hi -> ~ less _ _ hi lo ->
  exists r, s_clamp prec emax v lo hi = Ret r /\ same_number _ _ (v_clamp prec emax vmax vmin first v lo hi) r
    /\ ~ less _ _ r lo /\ ~ less _ _ hi r /\ (~ less _ _ v lo -> ~ less _ _ hi v -> r = v).
Proof.
  unfold number. intros Hv Hl Hh HO. destruct (v_clamp_ext first v lo hi Hv Hl Hh) as [N1 E1].
  rewrite less_ext in HO by assumption. unfold s_clamp.
  destruct (Bltb hi lo) eqn:B; [apply ltb_ext in B; [lra|assumption|assumption]|].
  destruct (Bltb v lo) eqn:B1.
  - apply ltb_ext in B1; [|assumption|assumption]. exists lo. split; [reflexivity|].
    rewrite same_ext, E1, !less_ext by assumption. unfold Rmin, Rmax.
    destruct (Rle_dec (ext lo) (ext v)); [lra|]. destruct (Rle_dec (ext lo) (ext hi)); [|lra]. repeat split; try lra.
  - apply ltb_ext_false in B1; [|assumption|assumption]. destruct (Bltb hi v) eqn:B2.
    + apply ltb_ext in B2; [|assumption|assumption]. exists hi. split; [reflexivity|].
      rewrite same_ext, E1, !less_ext by assumption. unfold Rmin, Rmax.
      destruct (Rle_dec (ext lo) (ext v)); [|lra]. destruct (Rle_dec (ext v) (ext hi)); [lra|]. repeat split; try lra.
    + apply ltb_ext_false in B2; [|assumption|assumption]. exists v. split; [reflexivity|].
      rewrite same_ext, E1, !less_ext by assumption. unfold Rmin, Rmax.
      destruct (Rle_dec (ext lo) (ext v)); [|lra]. destruct (Rle_dec (ext v) (ext hi)); [|lra]. repeat split; try lra.
Qed.
Lemma clamp_crossed first v lo hi : number _ _ v -> number _ _ lo -> number _ _ hi -> less _ _ hi lo ->
  s_clamp prec emax v lo hi = UB /\ same_number _ _ (v_clamp prec emax vmax vmin first v lo hi) hi.
Proof.
  unfold number. intros Hv Hl Hh HO. destruct (v_clamp_ext first v lo hi Hv Hl Hh) as [N1 E1].
  apply less_ext in HO; [|assumption|assumption]. split.
  - unfold s_clamp. rewrite (proj2 (ltb_ext hi lo Hh Hl) HO). reflexivity.
  - rewrite same_ext, E1 by assumption. unfold Rmin, Rmax. destruct (Rle_dec (ext lo) (ext v)), (Rle_dec _ (ext hi)); lra.
Qed.
Lemma clamp_nan first lo hi : second_if_nan _ _ vmax -> second_if_nan _ _ vmin -> number _ _ lo -> number _ _ hi -> ~ less _ _ hi lo ->
  s_clamp prec emax B754_nan lo hi = Ret B754_nan /\ number _ _ (v_clamp prec emax vmax vmin first B754_nan lo hi).
Proof.
  unfold number. intros X1 X2 Hl Hh HO. rewrite less_ext in HO by assumption. split.
  - unfold s_clamp. rewrite (proj2 (ltb_ext_false hi lo Hh Hl)) by lra. unfold Bltb. cbn. destruct (B2SF hi) as [|[]| |[]]; reflexivity.
  - unfold v_clamp. destruct first.
    + rewrite (X1 B754_nan lo) by (left; discriminate). destruct (HMin lo hi Hl Hh) as ([-> | ->] & _); assumption.
    + rewrite (X1 lo B754_nan) by (right; discriminate). rewrite (X2 B754_nan hi) by (left; discriminate). exact Hh.
Qed.
End Floats.
