From Coq Require Import Ascii String List Bool ZArith Lia.
Import ListNotations.
From Verif Require Import Base Lexer_Model Lexer_Spec Lexer_Proofs Number_Model Number_Spec.
Local Open Scope Z_scope.

(** ** Rounding *)
Lemma rne_exact a b : 0 < b -> rne (a * b) b = a.
Proof.
  intros Hb. unfold rne. rewrite Z.div_mul, Z.mod_mul by lia. simpl.
  destruct (Z.ltb_spec (2 * 0) b); lia.
Qed.
Lemma rne_near a b : 0 < b -> 2 * Z.abs (rne a b * b - a) <= b.
Proof.
  intros Hb. unfold rne. pose proof (Z.div_mod a b ltac:(lia)). pose proof (Z.mod_pos_bound a b Hb).
  destruct (Z.ltb_spec (2 * (a mod b)) b); [lia|]. destruct (Z.ltb_spec b (2 * (a mod b))); [nia|].
  destruct (Z.even (a / b)); nia.
Qed.
Lemma rne_bounds a b : 0 < b -> a / b <= rne a b <= a / b + 1.
Proof.
  intros Hb. unfold rne. destruct (_ <? _); [lia|]. destruct (_ <? _); [lia|]. destruct (Z.even _); lia.
Qed.

Lemma flog2_int n : 0 < n -> flog2 n 1 = Z.log2 n.
Proof.
  intros Hn. unfold flog2. change (Z.log2 1) with 0. rewrite Z.sub_0_r. pose proof (Z.log2_nonneg n).
  destruct (Z.leb_spec 0 (Z.log2 n)); [|lia]. rewrite Z.mul_1_l.
  pose proof (Z.log2_spec n Hn). destruct (Z.leb_spec (2 ^ Z.log2 n) n); lia.
Qed.

(** The double nearest to an integer below 2^64, as an integer. *)
Definition nearest (n : Z) : Z :=
  let e := Z.log2 n - 52 in if 0 <? e then rne n (2 ^ e) * 2 ^ e else n.

Lemma log2_64 n : 0 < n -> n < 2 ^ 64 -> Z.log2 n <= 63.
Proof. intros H H'. assert (Z.log2 n < 64); [|lia]. apply Z.log2_lt_pow2; lia. Qed.

Lemma round_int n : 0 <= n < 2 ^ 64 -> exists v, round_double n 1 = Some v /\ dbl_trunc v = nearest n /\
  (exists m e, v = (m, e) /\ e <= 11 /\ 0 <= m /\
     (if 0 <=? e then nearest n = m * 2 ^ e /\ m <= 2 ^ 53 else m = nearest n * 2 ^ (- e))).
Proof.
  intros [H0 H64]. unfold round_double. destruct (Z.eqb_spec n 0) as [->|Hn].
  { exists (0, 0). split; auto. split. reflexivity. exists 0, 0. split; auto. split. lia. split. lia.
    simpl. split. reflexivity. lia. }
  rewrite flog2_int by lia. pose proof (log2_64 n ltac:(lia) H64) as Hl. pose proof (Z.log2_nonneg n) as Hl0.
  rewrite Z.max_r by lia. unfold scaled, nearest. cbv zeta. set (e := Z.log2 n - 52) in *.
  pose proof (Z.log2_spec n ltac:(lia)) as Hs.
  destruct (Z.leb_spec 0 e) as [He|He].
  - pose proof (Z.pow_pos_nonneg 2 e ltac:(lia) He) as Hp. rewrite Z.mul_1_l.
    assert (2 ^ Z.log2 n = 2 ^ 52 * 2 ^ e) as E1. { rewrite <- Z.pow_add_r by lia. f_equal. lia. }
    assert (2 ^ Z.succ (Z.log2 n) = 2 ^ 53 * 2 ^ e) as E2. { rewrite <- Z.pow_add_r by lia. f_equal. lia. }
    pose proof (rne_bounds n (2 ^ e) Hp) as Hb.
    assert (2 ^ 52 <= n / 2 ^ e) as Hq1 by (apply Z.div_le_lower_bound; lia).
    assert (n / 2 ^ e < 2 ^ 53) as Hq2 by (apply Z.div_lt_upper_bound; lia).
    assert (0 < 2 ^ 52) by (pows; lia).
    destruct (Z.eqb_spec (rne n (2 ^ e)) 0); [lia|].
    destruct (Z.ltb_spec 971 e); [lia|]. destruct (Z.eqb_spec e 971); [lia|]. simpl.
    assert (rne n (2 ^ e) * 2 ^ e = if 0 <? e then rne n (2 ^ e) * 2 ^ e else n) as En.
    { destruct (Z.ltb_spec 0 e); auto. replace e with 0 by lia. change (2 ^ 0) with 1. rewrite <- (Z.mul_1_r n) at 1. rewrite rne_exact; lia. }
    exists (rne n (2 ^ e), e). split; auto. split.
    { unfold dbl_trunc. destruct (Z.leb_spec 0 e); [exact En|lia]. }
    exists (rne n (2 ^ e)), e. split; auto. split. lia. split. lia. destruct (Z.leb_spec 0 e); [|lia]. split; [auto|lia].
  - pose proof (Z.pow_pos_nonneg 2 (- e) ltac:(lia) ltac:(lia)) as Hp.
    assert (rne (n * 2 ^ (- e)) 1 = n * 2 ^ (- e)) as ->.
    { rewrite <- (Z.mul_1_r (n * 2 ^ (- e))) at 1. apply rne_exact. lia. }
    destruct (Z.eqb_spec (n * 2 ^ (- e)) 0); [nia|].
    destruct (Z.ltb_spec 971 e); [lia|]. destruct (Z.eqb_spec e 971); [lia|]. simpl.
    destruct (Z.ltb_spec 0 e); [lia|].
    exists (n * 2 ^ (- e), e). split; auto. split.
    { unfold dbl_trunc. destruct (Z.leb_spec 0 e); [lia|]. apply Z.div_mul. lia. }
    exists (n * 2 ^ (- e)), e. split; auto. split. lia. split. nia. destruct (Z.leb_spec 0 e); [lia|]. reflexivity.
Qed.

Lemma nearest_nonneg n : 0 <= n -> 0 <= nearest n.
Proof.
  intros H. unfold nearest. cbv zeta. destruct (Z.ltb_spec 0 (Z.log2 n - 52)); auto.
  pose proof (Z.pow_pos_nonneg 2 (Z.log2 n - 52) ltac:(lia) ltac:(lia)) as Hp.
  pose proof (rne_bounds n _ Hp). pose proof (Z.div_pos n _ H Hp). nia.
Qed.

Lemma nearest_fits n : 0 <= n -> fits_double n -> nearest n = n.
Proof.
  intros Hn (m & e & Hm & He & E). unfold nearest. cbv zeta. destruct (Z.ltb_spec 0 (Z.log2 n - 52)); auto.
  assert (exists m' e', 0 <= m' < 2 ^ 53 /\ 0 <= e' /\ n = m' * 2 ^ e') as (m' & e' & Hm' & He' & E').
  { destruct (Z.eq_dec m (2 ^ 53)) as [->|]. exists (2 ^ 52), (e + 1). split. pows; lia. split. lia.
    rewrite E. rewrite <- !Z.pow_add_r by lia. f_equal. lia. exists m, e. split. lia. auto. }
  assert (0 < n) as Hpos. { destruct (Z_le_gt_dec n 0) as [Hz|]; [|lia]. rewrite Z.log2_nonpos in H by lia. lia. }
  set (k := Z.log2 n - 52) in *. pose proof (Z.pow_pos_nonneg 2 e' ltac:(lia) He') as Hp.
  assert (Z.log2 n < 53 + e').
  { apply Z.log2_lt_pow2; auto. rewrite E', Z.pow_add_r by lia. nia. }
  assert (n = (m' * 2 ^ (e' - k)) * 2 ^ k) as En. { rewrite <- Z.mul_assoc, <- Z.pow_add_r by lia. rewrite E'. do 2 f_equal. lia. }
  rewrite En at 1. rewrite rne_exact. now symmetry. apply Z.pow_pos_nonneg; lia.
Qed.
Lemma nearest_not_fits n : 0 <= n < 2 ^ 64 -> nearest n = n -> fits_double n.
Proof.
  intros Hn E. destruct (round_int n Hn) as (v & _ & _ & m & e & _ & _ & Hm & Hc).
  destruct (Z.leb_spec 0 e) as [He|He].
  - destruct Hc as [Hc Hle]. exists m, e. split; [lia|]. split; auto. congruence.
  - destruct (Z.eq_dec n 0) as [->|]. exists 0, 0. split. pows; lia. split; [lia|reflexivity].
    (* few bits: n itself *)
    unfold nearest in E. cbv zeta in E. destruct (Z.ltb_spec 0 (Z.log2 n - 52)).
    + pose proof (Z.log2_spec n ltac:(lia)) as Hs. set (k := Z.log2 n - 52) in *.
      pose proof (Z.pow_pos_nonneg 2 k ltac:(lia) ltac:(lia)) as Hp.
      exists (rne n (2 ^ k)), k. split; [|split; [lia|congruence]].
      pose proof (rne_bounds n _ Hp). pose proof (Z.div_pos n _ ltac:(lia) Hp).
      assert (n / 2 ^ k < 2 ^ 53); [|lia]. apply Z.div_lt_upper_bound; auto. rewrite <- Z.pow_add_r by lia.
      replace (k + 53) with (Z.succ (Z.log2 n)) by lia. lia.
    + exists n, 0. split; [|split; [lia|change (2 ^ 0) with 1; lia]].
      pose proof (Z.log2_spec n ltac:(lia)) as Hs. assert (2 ^ Z.succ (Z.log2 n) <= 2 ^ 53); [|lia]. apply Z.pow_le_mono_r; lia.
Qed.

(** ** Digits *)
Lemma decimal_snoc t c : forall acc, decimal acc (t ++ [c]) = decimal acc t * 10 + digit_value c.
Proof. induction t as [|x t IH]; intros acc; simpl; auto. Qed.

Lemma digit_nth d c : nth_error (lit "0123456789") d = Some c -> is_digit c = true /\ digit_value c = Z.of_nat d /\ c <> "."%char /\ c <> "_"%char.
Proof.
  intros H. do 10 (destruct d as [|d]; [injection H as <-; repeat split; discriminate|]). destruct d; discriminate.
Qed.

Lemma denotes_decimal t n : denotes_int t n -> decimal 0 t = n /\ 0 <= n /\ forallb is_digit t = true /\
  Forall (fun c => c <> "."%char /\ c <> "_"%char) t.
Proof.
  induction 1 as [|t n c d Ht (IH1 & IH2 & IH3 & IH4) Hd].
  - repeat split; auto. lia.
  - destruct (digit_nth d c Hd) as (H1 & H2 & H3 & H4). rewrite decimal_snoc, IH1, H2. split. lia. split. lia.
    split. rewrite forallb_app, IH3. simpl. now rewrite H1. apply Forall_app. split; auto.
Qed.

Lemma split_dot_none t : Forall (fun c => c <> "."%char /\ c <> "_"%char) t -> split_dot t = (t, None).
Proof.
  induction 1 as [|c t [H1 H2] Ht IH]; simpl; auto. destruct (Ascii.eqb_spec c "."); [congruence|]. now rewrite IH.
Qed.
Lemma split_suffix_none t : Forall (fun c => c <> "."%char /\ c <> "_"%char) t -> split_suffix t = (t, None).
Proof.
  induction 1 as [|c t [H1 H2] Ht IH]; simpl; auto. destruct (Ascii.eqb_spec c "_"); [congruence|]. now rewrite IH.
Qed.
Lemma split_suffix_some t s : Forall (fun c => c <> "."%char /\ c <> "_"%char) t -> split_suffix (t ++ "_"%char :: s) = (t, Some s).
Proof.
  induction 1 as [|c t [H1 H2] Ht IH]; simpl; auto. destruct (Ascii.eqb_spec c "_"); [congruence|]. now rewrite IH.
Qed.

Lemma from_chars_int t n : t <> [] -> denotes_int t n -> from_chars_double t = round_double n 1.
Proof.
  intros Hne Ht. destruct (denotes_decimal t n Ht) as (E & _ & Hd & Hf). unfold from_chars_double.
  rewrite split_dot_none by auto. destruct t; [congruence|]. now rewrite Hd, E.
Qed.

Lemma parse_plain t n : t <> [] -> denotes_int t n ->
  parse_number t = match round_double n 1 with Some v => Some (v, None) | None => None end.
Proof.
  intros Hne Ht. pose proof (from_chars_int t n Hne Ht) as E. destruct (denotes_decimal t n Ht) as (_ & _ & _ & Hf).
  destruct t as [|c t]; [congruence|]. unfold parse_number. inversion Hf; subst. rewrite split_suffix_none by auto. now rewrite E.
Qed.
Lemma parse_suffixed t n ty : t <> [] -> denotes_int t n ->
  parse_number (t ++ "_"%char :: suffix_name ty) = match round_double n 1 with Some v => Some (v, Some ty) | None => None end.
Proof.
  intros Hne Ht. pose proof (from_chars_int t n Hne Ht) as E. destruct (denotes_decimal t n Ht) as (_ & _ & _ & Hf).
  destruct t as [|c t]; [congruence|]. unfold parse_number. cbn [app]. inversion Hf; subst. rewrite split_suffix_some by auto.
  assert (find_text number_symbols (suffix_name ty) = Some ty) as -> by (destruct ty; reflexivity). now rewrite E.
Qed.

(** ** Literals *)
Lemma ty_wrap_holds ty n : ty_integer ty = true -> holds ty n ->
  (if ty_signed ty then wraps (ty_bits ty) n else wrapu (ty_bits ty) n) = n.
Proof.
  intros Hi H. destruct ty; try discriminate; cbn [holds ty_signed ty_bits] in *;
    first [apply wrapu_id; unfold in_u; exact H | apply wraps_id; [lia|unfold in_s; exact H]].
Qed.
Lemma holds_64 ty n : holds ty n -> n < 2 ^ 64.
Proof. destruct ty; cbn [holds]; pows; lia. Qed.
Lemma small_fits n : 0 <= n < 2 ^ 32 -> fits_double n.
Proof. intros H. exists n, 0. split. pows; lia. split. lia. change (2 ^ 0) with 1. lia. Qed.

Lemma literal_suffix t n ty : t <> [] -> denotes_int t n -> ty_integer ty = true -> holds ty n -> fits_double n ->
  literal (t ++ "_"%char :: suffix_name ty) = Ret (CInt ty n).
Proof.
  intros Hne Ht Hty Hh Hf. destruct (denotes_decimal t n Ht) as (_ & H0 & _). pose proof (holds_64 ty n Hh) as H64.
  unfold literal. rewrite (parse_suffixed t n ty Hne Ht). destruct (round_int n ltac:(lia)) as (v & -> & Ev & _).
  unfold build_const. cbn [fst snd]. unfold build_typed. rewrite Hty. unfold to_u64. cbv zeta. rewrite Ev, nearest_fits by auto.
  destruct (Z.ltb_spec n (2 ^ 64)); [|lia]. cbn [obind]. now rewrite ty_wrap_holds.
Qed.

Lemma literal_suffix_not t n ty : t <> [] -> denotes_int t n -> ty_integer ty = true -> n < 2 ^ 64 ->
  ~ (holds ty n /\ fits_double n) ->
  literal (t ++ "_"%char :: suffix_name ty) <> Ret (CInt ty n) /\ literal (t ++ "_"%char :: suffix_name ty) <> Err.
Proof.
  intros Hne Ht Hty H64 Hno. destruct (denotes_decimal t n Ht) as (_ & H0 & _).
  unfold literal. rewrite (parse_suffixed t n ty Hne Ht). destruct (round_int n ltac:(lia)) as (v & -> & Ev & _).
  unfold build_const. cbn [fst snd]. unfold build_typed. rewrite Hty. unfold to_u64. cbv zeta. rewrite Ev.
  pose proof (nearest_nonneg n H0) as Hnn.
  destruct (Z.ltb_spec (nearest n) (2 ^ 64)) as [Hlt|Hge]; cbn [obind]; [|split; discriminate].
  split; [|discriminate]. intros E. injection E as E.
  assert (holds ty n) as Hh.
  { pose proof (wrapu_range (ty_bits ty) (nearest n)) as Hu. pose proof (wraps_range (ty_bits ty) (nearest n)) as Hv'.
    destruct ty; try discriminate; cbn [holds ty_signed ty_bits] in *; rewrite E in *;
      first [exact (Hu ltac:(lia)) | exact (Hv' ltac:(lia))]. }
  assert (~ fits_double n) as Hnf by tauto.
  assert (nearest n <> n) as Hne'. { intros Heq. apply Hnf. now apply nearest_not_fits. }
  destruct ty; try discriminate; cbn [holds ty_signed ty_bits] in *;
    try (apply Hnf, small_fits; pows; lia).
  - unfold wrapu in E. rewrite Z.mod_small in E by lia. congruence.
  - destruct (Z_lt_le_dec (nearest n) (2 ^ 63)).
    + rewrite wraps_id in E; [congruence|lia|]. unfold in_s. change (64 - 1) with 63. lia.
    + unfold wraps in E. cbv zeta in E. rewrite Z.mod_small in E by lia. change (64 - 1) with 63 in E.
      destruct (Z.ltb_spec (nearest n) (2 ^ 63)); lia.
Qed.

Lemma dbl_eqb_refl v : dbl_eqb v v = true.
Proof. destruct v as [m e]. unfold dbl_eqb. cbv zeta. apply Z.eqb_refl. Qed.

Lemma nearest_idem n : 0 <= n < 2 ^ 64 -> nearest (nearest n) = nearest n.
Proof.
  intros Hn. apply nearest_fits. apply nearest_nonneg; lia.
  unfold nearest. cbv zeta. destruct (Z.ltb_spec 0 (Z.log2 n - 52)) as [Hk|Hk].
  - assert (0 < n) as Hpos. { destruct (Z_le_gt_dec n 0) as [Hz|]; [|lia]. rewrite Z.log2_nonpos in Hk by lia. lia. }
    set (k := Z.log2 n - 52) in *.
    pose proof (Z.log2_spec n ltac:(lia)) as Hs.
    pose proof (Z.pow_pos_nonneg 2 k ltac:(lia) ltac:(lia)) as Hp.
    exists (rne n (2 ^ k)), k. split; [|split; [lia|auto]].
    pose proof (rne_bounds n _ Hp). pose proof (Z.div_pos n _ ltac:(lia) Hp).
    assert (n / 2 ^ k < 2 ^ 53); [|lia]. apply Z.div_lt_upper_bound; auto. rewrite <- Z.pow_add_r by lia.
    replace (k + 53) with (Z.succ (Z.log2 n)) by lia. lia.
  - destruct (Z.eq_dec n 0) as [->|]. exists 0, 0. split. pows; lia. split; [lia|reflexivity].
    exists n, 0. split; [|split; [lia|change (2 ^ 0) with 1; lia]].
    pose proof (Z.log2_spec n ltac:(lia)) as Hs. assert (2 ^ Z.succ (Z.log2 n) <= 2 ^ 53); [|lia]. apply Z.pow_le_mono_r; lia.
Qed.

Lemma round_eq n v : 0 <= n < 2 ^ 64 -> nearest n = n -> round_double n 1 = Some v -> forall w, 0 <= snd w -> fst w * 2 ^ snd w = n -> dbl_eqb v w = true.
Proof.
  intros Hn Hnn Hv w Hw Ew. destruct (round_int n Hn) as (v' & Hv' & _ & m & e & -> & _ & Hm & Hc).
  rewrite Hv in Hv'. injection Hv' as ->. destruct w as [m' e']. cbn [fst snd] in *. unfold dbl_eqb. cbv zeta. apply Z.eqb_eq.
  destruct (Z.leb_spec 0 e).
  - destruct Hc as [Hc _]. rewrite Hnn in Hc. set (k := Z.min e e').
    assert (m * 2 ^ e = m * 2 ^ (e - k) * 2 ^ k) as E1. { rewrite <- Z.mul_assoc, <- Z.pow_add_r by lia. do 2 f_equal. lia. }
    assert (m' * 2 ^ e' = m' * 2 ^ (e' - k) * 2 ^ k) as E2. { rewrite <- Z.mul_assoc, <- Z.pow_add_r by lia. do 2 f_equal. lia. }
    assert (0 < 2 ^ k) by (apply Z.pow_pos_nonneg; lia). nia.
  - rewrite Z.min_l by lia. rewrite Z.sub_diag. change (2 ^ 0) with 1. rewrite Z.mul_1_r, Hc, Hnn, <- Ew.
    rewrite <- Z.mul_assoc, <- Z.pow_add_r by lia. do 2 f_equal. 
Qed.

Lemma of_i64_int n v : 0 <= n < 2 ^ 64 -> round_double n 1 = Some v -> nearest n < 2 ^ 63 -> dbl_eqb (of_i64 (nearest n)) v = true.
Proof.
  intros Hn Hv H63. pose proof (nearest_nonneg n ltac:(lia)) as H0. unfold of_i64.
  destruct (round_int (nearest n) ltac:(pows; lia)) as (v' & Hv' & _ & m' & e' & -> & _ & Hm' & Hc'). rewrite Hv'.
  destruct (round_int n Hn) as (v2 & Hv2 & _ & m & e & -> & _ & Hm & Hc). rewrite Hv in Hv2. injection Hv2 as ->.
  destruct (Z.leb_spec 0 e) as [He|He].
  - destruct Hc as [Hc _]. apply (round_eq (nearest n) (m', e')); [pows; lia|apply nearest_idem; auto|exact Hv'|exact He|cbn [fst snd]; congruence].
  - rewrite nearest_idem in Hc' by auto. unfold dbl_eqb. cbv zeta. apply Z.eqb_eq. set (k := Z.min e' e).
    destruct (Z.leb_spec 0 e') as [He'|He'].
    + destruct Hc' as [Hc' _]. unfold k. rewrite Z.min_r by lia. rewrite Z.sub_diag. change (2 ^ 0) with 1. rewrite Z.mul_1_r, Hc, Hc'.
      rewrite <- Z.mul_assoc, <- Z.pow_add_r by lia. do 2 f_equal.
    + rewrite Hc, Hc'. rewrite <- !Z.mul_assoc, <- !Z.pow_add_r by lia. do 2 f_equal. lia.
Qed.

Lemma literal_plain t n : t <> [] -> denotes_int t n -> n < 2 ^ 63 -> fits_double n ->
  literal t = Ret (CInt (if n <? 2 ^ 31 then I32 else I64) n).
Proof.
  intros Hne Ht H63 Hf. destruct (denotes_decimal t n Ht) as (_ & H0 & _).
  unfold literal. rewrite (parse_plain t n Hne Ht). destruct (round_int n ltac:(pows; lia)) as (v & Hv & Ev & _). rewrite Hv.
  unfold build_const. cbn [fst snd]. unfold build_untyped, to_i64. cbv zeta. pose proof (nearest_fits n H0 Hf) as En. rewrite Ev, En.
  destruct (Z.ltb_spec n (2 ^ 63)); [|lia]. cbn [obind]. rewrite <- En at 1. rewrite of_i64_int; auto; [|pows; lia|lia].
  unfold build_typed, to_u64. cbv zeta. rewrite Ev, En.
  destruct (Z.ltb_spec n (2 ^ 64)); [|pows; lia].
  destruct (Z.leb_spec n (2 ^ 31 - 1)); destruct (Z.ltb_spec n (2 ^ 31)); try lia; cbn [ty_integer obind ty_signed ty_bits];
    rewrite wraps_id; auto; try lia; unfold in_s; pows; lia.
Qed.

Lemma literal_plain_not t n : t <> [] -> denotes_int t n -> n < 2 ^ 63 -> ~ fits_double n ->
  exists ty m, literal t = Ret (CInt ty m) /\ m <> n \/ literal t = UB.
Proof.
  intros Hne Ht H63 Hf. destruct (denotes_decimal t n Ht) as (_ & H0 & _).
  unfold literal. rewrite (parse_plain t n Hne Ht). destruct (round_int n ltac:(pows; lia)) as (v & Hv & Ev & _). rewrite Hv.
  unfold build_const. cbn [fst snd]. unfold build_untyped, to_i64. cbv zeta. rewrite Ev.
  pose proof (nearest_nonneg n H0) as Hnn.
  assert (nearest n <> n) as Hne'. { intros Heq. apply Hf, nearest_not_fits; auto. pows; lia. }
  destruct (Z.ltb_spec (nearest n) (2 ^ 63)); [|exists I32, 0; right; reflexivity].
  cbn [obind]. rewrite of_i64_int; auto; [|pows; lia].
  unfold build_typed, to_u64. cbv zeta. rewrite Ev. destruct (Z.ltb_spec (nearest n) (2 ^ 64)); [|pows; lia].
  exists (if nearest n <=? 2 ^ 31 - 1 then I32 else I64), (nearest n). left. split; auto.
  destruct (Z.leb_spec (nearest n) (2 ^ 31 - 1)); cbn [ty_integer obind ty_signed ty_bits]; rewrite wraps_id; auto; try lia; unfold in_s; pows; lia.
Qed.

Lemma literal_plain_ub t n : t <> [] -> denotes_int t n -> 2 ^ 63 <= n < 2 ^ 64 -> literal t = UB.
Proof.
  intros Hne Ht H. unfold literal. rewrite (parse_plain t n Hne Ht). destruct (round_int n ltac:(pows; lia)) as (v & Hv & Ev & _). rewrite Hv.
  unfold build_const. cbn [fst snd]. unfold build_untyped, to_i64. cbv zeta. rewrite Ev.
  destruct (Z.ltb_spec (nearest n) (2 ^ 63)) as [Hlt|]; [exfalso|reflexivity].
  unfold nearest in Hlt. cbv zeta in Hlt.
  assert (Z.log2 n = 63) as El. { apply Z.log2_unique; lia. }
  rewrite El in Hlt. change (0 <? 63 - 52) with true in Hlt. cbv iota in Hlt.
  change (63 - 52) with 11 in *. pose proof (rne_bounds n (2 ^ 11) ltac:(pows; lia)).
  assert (2 ^ 52 <= n / 2 ^ 11). { apply Z.div_le_lower_bound; pows; lia. } pows; lia.
Qed.
