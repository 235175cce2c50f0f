(** Proofs for C78: comparisons and conversions. *)
From Coq Require Import Ascii String List Bool Arith ZArith Reals Floats.SpecFloat Lia Lra.
Import ListNotations.
From Flocq Require Import Core BinarySingleNaN.
From Verif Require Import Base Lexer_Model DType_Spec DType_Model DynObject_Model Op_Model Number_Model Ir_Model Scalar_Model Scalar_Spec
  Scalar_Proofs Function_Model Names_Model StringView_Spec StringView_Model StringView_Proofs Access_Spec Access_Model Json_Spec Json_Model.
Local Open Scope Z_scope.

(** ** SpecFloat and Flocq *)
Section Formats.
Variable prec emax : Z.
Context (P0 : Prec_gt_0 prec) (PE : Prec_lt_emax prec emax).
Lemma nearest_even s m l : round_nearest_even m l = choice_mode mode_NE s m l.
Proof. case l; [reflexivity|intro c]. case c; [|reflexivity..]. now simpl; unfold Round.cond_incr; case Z.even. Qed.
Lemma round_aux_sf s m e l : SpecFloat.binary_round_aux prec emax s m e l = binary_round_aux prec emax mode_NE s m e l.
Proof.
  unfold SpecFloat.binary_round_aux, binary_round_aux. set (mrse' := shr_fexp _ _ _). case mrse'; intros mrs' e'; simpl. now rewrite (nearest_even s).
Qed.
Lemma round_sf s m e : SpecFloat.binary_round prec emax s m e = binary_round prec emax mode_NE s m e.
Proof. unfold SpecFloat.binary_round, binary_round, shl_align_fexp. set (mez := shl_align _ _ _); case mez as [mz ez]. apply round_aux_sf. Qed.
Lemma normalize_sf m e s : SpecFloat.binary_normalize prec emax m e s = B2SF (binary_normalize prec emax P0 PE mode_NE m e s).
Proof. case m as [|p|p]; [now simpl| |]; simpl; rewrite B2SF_SF2B; apply round_sf. Qed.
Lemma compare_sf f g : valid_binary prec emax f = true -> valid_binary prec emax g = true -> is_finite_SF f = true -> is_finite_SF g = true ->
  SFcompare f g = Some (Rcompare (SF2R radix2 f) (SF2R radix2 g)).
Proof.
  intros Vf Vg Ff Fg. pose proof (Bcompare_correct prec emax (SF2B f Vf) (SF2B g Vg)) as B. rewrite !is_finite_SF2B, !B2R_SF2B in B. specialize (B Ff Fg).
  unfold Bcompare in B. now rewrite !B2SF_SF2B in B.
Qed.
Lemma normalize_value m e s : let x := F2R (Float radix2 m e) in let r := round radix2 (FLT_exp (3 - emax - prec) prec) ZnearestE x in
  (Rabs r < bpow radix2 emax)%R ->
  let g := SpecFloat.binary_normalize prec emax m e s in valid_binary prec emax g = true /\ is_finite_SF g = true /\ SF2R radix2 g = r.
Proof.
  intros x r B g. unfold g. rewrite normalize_sf. pose proof (binary_normalize_correct prec emax P0 PE mode_NE m e s) as C. cbv zeta in C. fold x in C.
  change (SpecFloat.fexp prec emax) with (FLT_exp (3 - emax - prec) prec) in C. cbn [round_mode] in C. fold r in C. rewrite (Rlt_bool_true _ _ B) in C. destruct C as (C1 & C2 & _).
  split; [apply valid_binary_B2SF|]. split; [now rewrite is_finite_SF_B2SF|]. now rewrite SF2R_B2SF.
Qed.
Lemma valid_format f : valid_binary prec emax f = true -> is_finite_SF f = true ->
  generic_format radix2 (FLT_exp (3 - emax - prec) prec) (SF2R radix2 f) /\ (Rabs (SF2R radix2 f) < bpow radix2 emax)%R.
Proof.
  intros V Fi. rewrite <- (B2R_SF2B prec emax f V). split; [apply (generic_format_B2R prec emax (SF2B f V))|apply abs_B2R_lt_emax].
Qed.
End Formats.

Lemma fmt_prec_pos n : Prec_gt_0 (fmt_prec n). Proof. destruct n; reflexivity. Qed.
Lemma fmt_prec_lt n : Prec_lt_emax (fmt_prec n) (fmt_emax n). Proof. destruct n; reflexivity. Qed.

Lemma to_fmt_rounded n m e s : let x := F2R (Float radix2 m e) in (Rabs (rounded n x) < bpow radix2 (fmt_emax n))%R -> ty_integer n = false ->
  denotes n (VFlt (to_fmt n m e s)) (rounded n x).
Proof.
  intros x B I. destruct (normalize_value (fmt_prec n) (fmt_emax n) (fmt_prec_pos n) (fmt_prec_lt n) m e s B) as (V & Fi & E).
  fold x in E. unfold rounded. rewrite <- E. constructor; auto.
Qed.
Lemma denotes_flt n v x : denotes n v x -> ty_integer n = false -> generic_format radix2 (FLT_exp (3 - fmt_emax n - fmt_prec n) (fmt_prec n)) x /\ (Rabs x < bpow radix2 (fmt_emax n))%R.
Proof.
  intros D I. destruct D as [n z HO|n f _ V Fi]; [exfalso; destruct n; try discriminate I; discriminate HO|]. apply valid_format; auto.
Qed.
Lemma denotes_int n v x : denotes n v x -> ty_integer n = true -> exists z, holds n z = true /\ v = encode n z /\ x = IZR z.
Proof. intros D I. destruct D as [n z HO|n f I' V Fi]; [eauto|congruence]. Qed.
Lemma rounded_id n x : representable n x -> ty_integer n = false -> rounded n x = x /\ (Rabs (rounded n x) < bpow radix2 (fmt_emax n))%R.
Proof.
  intros (v & D) I. destruct (denotes_flt n v x D I) as (G & B). assert (rounded n x = x) as E. { apply round_generic; [apply valid_rnd_N|exact G]. } now rewrite E.
Qed.
Lemma finite_value s m e : SF2R radix2 (S754_finite s m e) = F2R (Float radix2 (if s then Z.neg m else Z.pos m) e).
Proof. destruct s; reflexivity. Qed.
Lemma zero_rounded n : rounded n 0 = 0%R. Proof. apply round_0. apply valid_rnd_N. Qed.

(** The integer part *)
Lemma trunc_value f : is_finite_SF f = true -> f_trunc f = Some (Ztrunc (SF2R radix2 f)).
Proof.
  intros Fi. destruct f as [s|s| |s m e]; try discriminate Fi; [cbn; now rewrite Ztrunc_IZR|]. rewrite finite_value. cbn [f_trunc]. f_equal.
  assert (A : Ztrunc (F2R (Float radix2 (Z.pos m) e)) = if 0 <=? e then Z.pos m * 2 ^ e else Z.pos m / 2 ^ (- e)).
  { destruct (Z.leb_spec 0 e).
    - unfold F2R. cbn [Fnum Fexp]. rewrite <- IZR_Zpower by assumption. rewrite <- mult_IZR. apply Ztrunc_IZR.
    - rewrite Ztrunc_floor by (apply F2R_ge_0; cbn; lia). unfold F2R. cbn [Fnum Fexp]. replace e with (- (- e)) at 1 by lia. rewrite bpow_opp, <- IZR_Zpower by lia.
      change (IZR (Z.pos m) * / IZR (radix2 ^ (- e)))%R with (IZR (Z.pos m) / IZR (radix2 ^ (- e)))%R. rewrite Zfloor_div; [reflexivity|]. apply Z.pow_nonzero; [discriminate|lia]. }
  destruct s; [|symmetry; exact A]. change (Z.neg m) with (- Z.pos m). rewrite F2R_Zopp, Ztrunc_opp, A. reflexivity.
Qed.

(** ** Comparisons of numbers of one type *)
Lemma compare_values n v w x y op b : denotes n v x -> denotes n w y -> answer op (Rcompare x y) = Some b ->
  Scalar_Model.oper (fun _ _ _ => None) op (TNum n) [v; w] = Some (VInt (i1 b)).
Proof.
  intros Dv Dw A. destruct Dv as [n z HO|n f I V Fi].
  - inversion Dw as [? z' HO' E1 E2|? f I]; subst; [|rewrite (holds_int _ _ HO) in I; discriminate I].
    rewrite Rcompare_IZR in A. assert (exists g, compares op = Some g /\ g z z' = b) as (g & G & <-).
    { unfold Z.ltb, Z.leb, Z.eqb. destruct op; cbn in A; try discriminate A; eexists; (split; [reflexivity|]); injection A as <-; cbn beta;
        rewrite ?Z.eqb_compare, ?Z.ltb_compare, ?Z.leb_compare; try (rewrite (Z.compare_antisym z z')); destruct (z ?= z'); reflexivity. }
    rewrite (int_compare _ n op g z z' G HO HO'). cbn [machine]. destruct (g z z'); reflexivity.
  - inversion Dw as [? z' HO'|? g I' V' Fi']; subst; [rewrite (holds_int _ _ HO') in I; discriminate I|].
    cbn [Scalar_Model.oper]. rewrite I. pose proof (compare_sf _ _ f g V V' Fi Fi') as C.
    destruct op; cbn in A; try discriminate A; injection A as <-; cbn [flt_binary]; unfold f_cmp; rewrite C; destruct (Rcompare (SF2R radix2 f) (SF2R radix2 g)); reflexivity.
Qed.

(** ** Extraction *)
Definition dt (n : numty) : dtype := get_dtype (CBase (num_code n)).
Definition is_f80 (n : numty) : bool := match n with F80 => true | _ => false end.
Section Extract.
Variable H : heap.
Variable junk : list Z.
Lemma extract_number n a : json_extract H junk (dt n) a = match H a with None => UB | Some x => do! v <- get_number n x; Ret (SNum n v) end.
Proof. destruct n; reflexivity. Qed.
Lemma extract_doc n a d : stored H a d ->
  match d with
  | DInt z => json_extract H junk (dt n) a = Ret (SNum n (static_int n z))
  | DReal f => json_extract H junk (dt n) a = (do! v <- static_flt n f; Ret (SNum n v))
  | DBool b => json_extract H junk (dt n) a = match n with U64 | I64 | F64 => Err | _ => Ret (SNum n (static_int n (if b then 1 else 0))) end
  | _ => json_extract H junk (dt n) a = Err
  end.
Proof. intros S. rewrite extract_number. destruct S; rewrite H0; try reflexivity. cbn [get_number]. destruct n; reflexivity. Qed.
Lemma static_int_exact n z : representable n (IZR z) -> denotes n (static_int n z) (IZR z).
Proof.
  intros R. unfold static_int. destruct (ty_integer n) eqn:I.
  - destruct R as (v & D). destruct (denotes_int n v _ D I) as (z' & HO & _ & E2). apply eq_IZR in E2. subst z'. rewrite <- (encode_bits n z HO). now constructor.
  - destruct (rounded_id n _ R I) as (E & B). rewrite <- E. pose proof (to_fmt_rounded n z 0 false) as T. cbv zeta in T.
    replace (F2R (Float radix2 z 0)) with (IZR z) in T by (unfold F2R; cbn; lra). now apply T.
Qed.
Lemma static_flt_exact n f : valid_binary 53 1024 f = true -> is_finite_SF f = true -> representable n (SF2R radix2 f) ->
  exists v, static_flt n f = Ret v /\ denotes n v (SF2R radix2 f).
Proof.
  intros V Fi R. unfold static_flt. destruct (ty_integer n) eqn:I.
  - destruct R as (v & D). rewrite (trunc_value f Fi). destruct (denotes_int n v _ D I) as (z & HO & _ & E2). rewrite E2, Ztrunc_IZR.
    exists (VInt (z mod 2 ^ ty_bits n)). split; [|rewrite <- (encode_bits n z HO); now constructor].
    apply (holds_range n z I) in HO. destruct (d_signed n).
    + rewrite (proj2 (Z.leb_le _ _)), (proj2 (Z.ltb_lt _ _)) by lia. reflexivity.
    + rewrite (proj2 (Z.leb_le _ _)), (proj2 (Z.ltb_lt _ _)) by lia. reflexivity.
  - eexists. split; [reflexivity|]. assert (n = F64 \/ n <> F64) as [->|NF] by (destruct n; (left; reflexivity) || (right; discriminate)).
    + constructor; auto.
    + assert (denotes n (VFlt (f_round n f)) (SF2R radix2 f)) as D; [|destruct n; try contradiction; exact D].
      destruct (rounded_id n _ R I) as (E & B). destruct f as [s|s| |s m e]; try discriminate Fi.
      * constructor; [exact I|reflexivity|reflexivity].
      * rewrite finite_value in *. rewrite <- E. cbn [f_round]. apply to_fmt_rounded; auto.
Qed.
Lemma extract_exact n a d x : stored H a d -> number d = Some x -> representable n x -> exists v, json_extract H junk (dt n) a = Ret (SNum n v) /\ denotes n v x.
Proof.
  intros S N R. pose proof (extract_doc n a d S) as E. destruct S as [| |a z ? ?|a z ? ?|a f ? V| | |]; try discriminate N.
  - injection N as <-. rewrite E. eexists. split; [reflexivity|]. now apply static_int_exact.
  - injection N as <-. rewrite E. eexists. split; [reflexivity|]. now apply static_int_exact.
  - cbn in N. destruct (is_finite_SF f) eqn:Fi; [|discriminate N]. injection N as <-. destruct (static_flt_exact n f V Fi R) as (v & EV & D). rewrite E, EV. cbn [obind]. eauto.
Qed.
Lemma extract_rounded n a d x : stored H a d -> number d = Some x -> ty_integer n = false -> (Rabs (rounded n x) < bpow radix2 (fmt_emax n))%R ->
  exists v, json_extract H junk (dt n) a = Ret (SNum n v) /\ denotes n v (rounded n x).
Proof.
  intros S N I B. pose proof (extract_doc n a d S) as E.
  assert (INT : forall z, (Rabs (rounded n (IZR z)) < bpow radix2 (fmt_emax n))%R -> denotes n (static_int n z) (rounded n (IZR z))).
  { intros z B'. unfold static_int. rewrite I. pose proof (to_fmt_rounded n z 0 false) as T. cbv zeta in T.
    replace (F2R (Float radix2 z 0)) with (IZR z) in T by (unfold F2R; cbn; lra). now apply T. }
  destruct S as [| |a z ? ?|a z ? ?|a f ? V| | |]; try discriminate N.
  - injection N as <-. rewrite E. eauto.
  - injection N as <-. rewrite E. eauto.
  - cbn in N. destruct (is_finite_SF f) eqn:Fi; [|discriminate N]. injection N as <-. rewrite E. unfold static_flt. rewrite I. cbn [obind]. eexists. split; [reflexivity|].
    assert (n = F64 \/ n <> F64) as [->|NF] by (destruct n; (left; reflexivity) || (right; discriminate)).
    + destruct (rounded_id F64 (SF2R radix2 f)) as (E' & _); [exists (VFlt f); constructor; auto|reflexivity|]. rewrite E'. constructor; auto.
    + assert (denotes n (VFlt (f_round n f)) (rounded n (SF2R radix2 f))) as D; [|destruct n; try contradiction; exact D].
      destruct f as [s|s| |s m e]; try discriminate Fi.
      * cbn [SF2R]. rewrite zero_rounded. exact (den_flt n (S754_zero s) I eq_refl eq_refl).
      * rewrite finite_value in *. cbn [f_round]. apply to_fmt_rounded; auto.
Qed.

(** ** Comparisons *)
Definition verdict (n : numty) (op : optok) (v w : val) : outcome bool :=
  match Scalar_Model.oper (fun _ _ _ => None) op (TNum n) [v; w] with Some (VInt b) => Ret (b =? 1) | _ => UB end.
Lemma left_code fs op n a c : is_f80 n = false ->
  compare H junk fs op (SJson a) (SNum n c) = (do! v <- json_extract H junk (dt n) a; match v with SNum m v => verdict m op v c | _ => Err end).
Proof.
  intros NF. unfold compare. cbn [type_of]. fold (dt n).
  assert (check_compare json_ptr (dt n) = Ret [FExtract (dt n)]) as -> by (destruct n; try discriminate NF; vm_compute; reflexivity).
  cbn [obind]. unfold code_compare. cbn [type_of].
  assert (dtype_eqb json_ptr (dt n) = Ret false) as EQ by (destruct n; vm_compute; reflexivity). fold (dt n). rewrite EQ. cbn [obind].
  assert (normalize json_ptr (dt n) = Ret (dt n)) as -> by (destruct n; vm_compute; reflexivity). cbn [obind].
  unfold cast_to. cbn [type_of]. fold (dt n). rewrite EQ. cbn [obind].
  assert (can_cast_to json_ptr (dt n) = Ret true) as -> by (destruct n; vm_compute; reflexivity). cbn [obind negb].
  assert (is_primitive (dt n) = true) as -> by (destruct n; vm_compute; reflexivity).
  assert (dtype_eqb (dt n) (dt n) = Ret true) as ER by (destruct n; vm_compute; reflexivity).
  cbn [declared fname_eqb app]. rewrite ER. cbn [obind].
  destruct (json_extract H junk (dt n) a) as [[]| | |]; reflexivity.
Qed.
Lemma right_code fs op n a c : is_f80 n = false ->
  compare H junk fs op (SNum n c) (SJson a) = (do! v <- json_extract H junk (dt n) a; match v with SNum _ v => verdict n op c v | _ => Err end).
Proof.
  intros NF. unfold compare.
  assert (check_compare (dt n) json_ptr = Ret [FExtract (dt n)]) as CK by (destruct n; try discriminate NF; vm_compute; reflexivity).
  cbn [type_of]. fold (dt n). rewrite CK. cbn [obind]. unfold code_compare. cbn [type_of]. fold (dt n).
  assert (dtype_eqb (dt n) json_ptr = Ret false) as EQ by (destruct n; vm_compute; reflexivity). rewrite EQ. cbn [obind].
  assert (normalize (dt n) json_ptr = Ret (dt n)) as -> by (destruct n; vm_compute; reflexivity). cbn [obind].
  assert (dtype_eqb (dt n) (dt n) = Ret true) as ER by (destruct n; vm_compute; reflexivity).
  assert (dtype_eqb json_ptr (dt n) = Ret false) as EQ' by (destruct n; vm_compute; reflexivity).
  unfold cast_to. cbn [type_of]. fold (dt n). rewrite ER, EQ'. cbn [obind].
  assert (can_cast_to json_ptr (dt n) = Ret true) as -> by (destruct n; vm_compute; reflexivity). cbn [obind negb].
  assert (is_primitive (dt n) = true) as -> by (destruct n; vm_compute; reflexivity).
  cbn [declared fname_eqb app]. rewrite ER. cbn [obind].
  destruct (json_extract H junk (dt n) a) as [[]| | |]; reflexivity.
Qed.
Lemma verdict_ok n op v w x y b : denotes n v x -> denotes n w y -> answer op (Rcompare x y) = Some b -> verdict n op v w = Ret b.
Proof. intros Dv Dw A. unfold verdict. rewrite (compare_values n v w x y op b Dv Dw A). destruct b; reflexivity. Qed.
Lemma denotes_number fs op n a c v x y b b' : is_f80 n = false -> json_extract H junk (dt n) a = Ret (SNum n v) -> denotes n v x -> denotes n c y ->
  answer op (Rcompare x y) = Some b -> answer op (Rcompare y x) = Some b' ->
  compare H junk fs op (SJson a) (SNum n c) = Ret b /\ compare H junk fs op (SNum n c) (SJson a) = Ret b'.
Proof. intros NF E D Dc A A'. rewrite left_code, right_code, E by exact NF. cbn [obind]. split; eapply verdict_ok; eauto. Qed.

Lemma compare_exact fs op n a d c x y b b' : is_f80 n = false -> stored H a d -> number d = Some x -> representable n x -> denotes n c y ->
  answer op (Rcompare x y) = Some b -> answer op (Rcompare y x) = Some b' ->
  compare H junk fs op (SJson a) (SNum n c) = Ret b /\ compare H junk fs op (SNum n c) (SJson a) = Ret b'.
Proof. intros NF S N R D A A'. destruct (extract_exact n a d x S N R) as (v & E & Dv). eapply denotes_number; eauto. Qed.
Lemma compare_rounded fs op n a d c x y b b' : n = F32 \/ n = F64 -> stored H a d -> number d = Some x -> (Rabs (rounded n x) < bpow radix2 (fmt_emax n))%R -> denotes n c y ->
  answer op (Rcompare (rounded n x) y) = Some b -> answer op (Rcompare y (rounded n x)) = Some b' ->
  compare H junk fs op (SJson a) (SNum n c) = Ret b /\ compare H junk fs op (SNum n c) (SJson a) = Ret b'.
Proof.
  intros FL S N B D A A'. assert (ty_integer n = false) as I by (destruct FL; subst; reflexivity). assert (is_f80 n = false) by (destruct FL; subst; reflexivity).
  destruct (extract_rounded n a d x S N I B) as (v & E & Dv). eapply denotes_number; eauto.
Qed.
Lemma rounding_refuted fs n a d x : n = F32 \/ n = F64 -> stored H a d -> number d = Some x -> (Rabs (rounded n x) < bpow radix2 (fmt_emax n))%R -> ~ representable n x ->
  exists c y, denotes n c y /\ y <> x /\ compare H junk fs OP_EQUAL (SJson a) (SNum n c) = Ret true.
Proof.
  intros FL S N B NR. assert (ty_integer n = false) as I by (destruct FL; subst; reflexivity).
  destruct (extract_rounded n a d x S N I B) as (v & E & Dv). exists v, (rounded n x). split; [exact Dv|]. split; [intros Q; apply NR; rewrite <- Q; eexists; eauto|].
  apply (compare_rounded fs OP_EQUAL n a d v x (rounded n x) true true); auto; rewrite Rcompare_Eq; reflexivity.
Qed.
Lemma truncated fs op n a f c y b b' : ty_integer n = true -> stored H a (DReal f) -> is_finite_SF f = true -> holds n (Ztrunc (SF2R radix2 f)) = true -> denotes n c y ->
  answer op (Rcompare (IZR (Ztrunc (SF2R radix2 f))) y) = Some b -> answer op (Rcompare y (IZR (Ztrunc (SF2R radix2 f)))) = Some b' ->
  compare H junk fs op (SJson a) (SNum n c) = Ret b /\ compare H junk fs op (SNum n c) (SJson a) = Ret b'.
Proof.
  intros I S Fi HO D A A'. pose proof (extract_doc n a _ S) as E. cbn beta iota in E. unfold static_flt in E. rewrite I, (trunc_value f Fi) in E.
  set (z := Ztrunc (SF2R radix2 f)) in *.
  assert ((if d_signed n then (- 2 ^ (ty_bits n - 1) <=? z) && (z <? 2 ^ (ty_bits n - 1)) else (0 <=? z) && (z <? 2 ^ ty_bits n)) = true) as RG.
  { apply (holds_range n z I) in HO. destruct (d_signed n); apply andb_true_iff; rewrite Z.leb_le, Z.ltb_lt; lia. }
  rewrite RG in E. cbn [obind] in E. assert (is_f80 n = false) as NF by (destruct n; try reflexivity; discriminate I).
  eapply denotes_number; eauto. rewrite <- (encode_bits n z HO). now constructor.
Qed.
Lemma truncated_refuted fs n a f : ty_integer n = true -> stored H a (DReal f) -> is_finite_SF f = true -> holds n (Ztrunc (SF2R radix2 f)) = true ->
  compare H junk fs OP_EQUAL (SJson a) (SNum n (encode n (Ztrunc (SF2R radix2 f)))) = Ret true.
Proof.
  intros I S Fi HO. apply (truncated fs OP_EQUAL n a f _ (IZR (Ztrunc (SF2R radix2 f))) true true I S Fi HO); [now constructor|rewrite Rcompare_Eq; reflexivity|rewrite Rcompare_Eq; reflexivity].
Qed.
Lemma too_large fs op n a f c : ty_integer n = true -> stored H a (DReal f) -> is_finite_SF f = true -> holds n (Ztrunc (SF2R radix2 f)) = false ->
  compare H junk fs op (SJson a) (SNum n c) = UB /\ compare H junk fs op (SNum n c) (SJson a) = UB.
Proof.
  intros I S Fi HO. pose proof (extract_doc n a _ S) as E. cbn beta iota in E. unfold static_flt in E. rewrite I, (trunc_value f Fi) in E.
  set (z := Ztrunc (SF2R radix2 f)) in *.
  assert ((if d_signed n then (- 2 ^ (ty_bits n - 1) <=? z) && (z <? 2 ^ (ty_bits n - 1)) else (0 <=? z) && (z <? 2 ^ ty_bits n)) = false) as RG.
  { destruct (if d_signed n then _ else _) eqn:Q; [|reflexivity]. rewrite <- HO. symmetry. apply (holds_range n z I). destruct (d_signed n); apply andb_true_iff in Q; rewrite Z.leb_le, Z.ltb_lt in Q; lia. }
  rewrite RG in E. cbn [obind] in E. assert (is_f80 n = false) as NF by (destruct n; try reflexivity; discriminate I).
  rewrite left_code, right_code, E by exact NF. split; reflexivity.
Qed.
Lemma wraps_refuted fs n a z : ty_integer n = true -> stored H a (DInt z) -> holds n z = false ->
  exists z', holds n z' = true /\ z' <> z /\ compare H junk fs OP_EQUAL (SJson a) (SNum n (encode n z')) = Ret true.
Proof.
  intros I S HO. assert (is_f80 n = false) as NF by (destruct n; try reflexivity; discriminate I).
  set (w := ty_bits n). assert (W : 8 <= w) by (destruct n; try discriminate I; cbn; lia). assert (P : 0 < 2 ^ (w - 1)) by (apply Z.pow_pos_nonneg; lia). assert (P2 : 2 ^ w = 2 * 2 ^ (w - 1)) by (apply pow2_split; lia).
  set (z' := if d_signed n then wraps w z else wrapu w z).
  assert (HO' : holds n z' = true). { apply (holds_range n z' I). unfold z'. fold w. destruct (d_signed n); [apply (wraps_range w z)|apply (wrapu_range w z)]; lia. }
  assert (M : z' mod 2 ^ w = z mod 2 ^ w).
  { unfold z', wraps, wrapu. destruct (d_signed n); [|apply Z.mod_mod; lia]. destruct (Z.ltb_spec (z mod 2 ^ w) (2 ^ (w - 1))); [apply Z.mod_mod; lia|].
    replace (z mod 2 ^ w - 2 ^ w) with (z mod 2 ^ w + (-1) * 2 ^ w) by lia. rewrite Z.mod_add, Z.mod_mod; lia. }
  exists z'. split; [exact HO'|]. split; [intros ->; congruence|].
  rewrite left_code by exact NF. pose proof (extract_doc n a _ S) as E. cbn beta iota in E. rewrite E. cbn [obind]. unfold static_int. rewrite I. fold w. rewrite <- M. unfold w. rewrite <- (encode_bits n z' HO').
  apply (verdict_ok n OP_EQUAL _ _ (IZR z') (IZR z') true); [now constructor|now constructor|rewrite Rcompare_Eq; reflexivity].
Qed.
Definition not_number (d : doc) : bool := match d with DNull | DString _ | DArray _ | DObject _ => true | _ => false end.
Lemma kind_number fs op n a d c : is_f80 n = false -> stored H a d -> not_number d = true ->
  compare H junk fs op (SJson a) (SNum n c) = Err /\ compare H junk fs op (SNum n c) (SJson a) = Err.
Proof. intros NF S K. pose proof (extract_doc n a d S) as E. rewrite left_code, right_code by exact NF. destruct d; try discriminate K; rewrite E; split; reflexivity. Qed.
Lemma bool_number fs op n a b c y r r' : is_f80 n = false -> stored H a (DBool b) -> denotes n c y ->
  answer op (Rcompare (if b then 1 else 0) y) = Some r -> answer op (Rcompare y (if b then 1 else 0)) = Some r' ->
  match n with
  | U64 | I64 | F64 => compare H junk fs op (SJson a) (SNum n c) = Err /\ compare H junk fs op (SNum n c) (SJson a) = Err
  | _ => compare H junk fs op (SJson a) (SNum n c) = Ret r /\ compare H junk fs op (SNum n c) (SJson a) = Ret r'
  end.
Proof.
  intros NF S D A A'. pose proof (extract_doc n a _ S) as E. cbn beta iota in E.
  assert (R : forall n, representable n (IZR (if b then 1 else 0))).
  { clear. intros n. destruct (ty_integer n) eqn:I; [exists (encode n (if b then 1 else 0)); constructor; destruct n; try discriminate I; destruct b; reflexivity|].
    destruct b; [|exists (VFlt (S754_zero false)); exact (den_flt n (S754_zero false) I eq_refl eq_refl)].
    exists (VFlt (to_fmt n 1 0 false)). assert (Q : rounded n (F2R (Float radix2 1 0)) = 1%R).
    { replace (F2R (Float radix2 1 0)) with 1%R by (unfold F2R; cbn; lra). apply round_generic; [apply valid_rnd_N|]. change 1%R with (bpow radix2 0). apply generic_format_bpow. unfold FLT_exp. destruct n; cbn; lia. }
    rewrite <- Q. apply to_fmt_rounded; [|exact I]. rewrite Q, Rabs_R1. change 1%R with (bpow radix2 0). apply bpow_lt. destruct n; reflexivity. }
  assert (G : json_extract H junk (dt n) a = Ret (SNum n (static_int n (if b then 1 else 0))) ->
     compare H junk fs op (SJson a) (SNum n c) = Ret r /\ compare H junk fs op (SNum n c) (SJson a) = Ret r').
  { intros E'. eapply denotes_number; [exact NF|exact E'|apply static_int_exact; apply R|exact D| |]; destruct b; assumption. }
  destruct n; try (apply G; exact E); rewrite left_code, right_code, E by exact NF; split; reflexivity.
Qed.
(** ** Strings, booleans, documents *)
Lemma codes_bytes s : bytes (codes s).
Proof. unfold codes, bytes. apply Forall_forall. intros z I. apply in_map_iff in I as (c & <- & _). pose proof (nat_ascii_bounded c). lia. Qed.
Lemma codes_length s : length (codes s) = length s. Proof. apply map_length. Qed.
Definition sdt : dtype := get_dtype (CBase DATA_STRING_VIEW).
Lemma left_string fs op a v : compare H junk fs op (SJson a) (SStr v) =
  (do! x <- json_extract H junk sdt a; match x with SStr u => match string_op op with Some o => compare_string_view o u v | None => Err end | _ => Err end).
Proof. transitivity (code_compare H junk ([FExtract sdt; FStringCmp] ++ fs) op (SJson a) (SStr v)); [reflexivity|]. unfold code_compare. cbn [type_of].
  change (dtype_eqb json_ptr (get_dtype (CBase DATA_STRING_VIEW))) with (@Ret bool false). cbn [obind].
  change (normalize json_ptr (get_dtype (CBase DATA_STRING_VIEW))) with (@Ret dtype sdt). cbn [obind].
  change (cast_to H junk ([FExtract sdt; FStringCmp] ++ fs) (SJson a) sdt) with (json_extract H junk sdt a).
  change (cast_to H junk ([FExtract sdt; FStringCmp] ++ fs) (SStr v) sdt) with (@Ret sval (SStr v)).
  destruct (json_extract H junk sdt a) as [[]| | |]; cbn [obind]; try reflexivity; destruct (string_op op); reflexivity. Qed.
Lemma right_string fs op a v : compare H junk fs op (SStr v) (SJson a) =
  (do! x <- json_extract H junk sdt a; match x with SStr u => match string_op op with Some o => compare_string_view o v u | None => Err end | _ => Err end).
Proof. transitivity (code_compare H junk ([FExtract sdt; FStringCmp] ++ fs) op (SStr v) (SJson a)); [reflexivity|]. unfold code_compare. cbn [type_of].
  change (dtype_eqb (get_dtype (CBase DATA_STRING_VIEW)) json_ptr) with (@Ret bool false). cbn [obind].
  change (normalize (get_dtype (CBase DATA_STRING_VIEW)) json_ptr) with (@Ret dtype sdt). cbn [obind].
  change (cast_to H junk ([FExtract sdt; FStringCmp] ++ fs) (SJson a) sdt) with (json_extract H junk sdt a).
  change (cast_to H junk ([FExtract sdt; FStringCmp] ++ fs) (SStr v) sdt) with (@Ret sval (SStr v)). cbn [obind].
  destruct (json_extract H junk sdt a) as [[]| | |]; cbn [obind]; try reflexivity; destruct (string_op op); reflexivity. Qed.
Lemma extract_string a d : stored H a d -> json_extract H junk sdt a = match d with DString s => do! v <- of_string junk (codes s); Ret (SStr v) | _ => Err end.
Proof. intros S. unfold json_extract. destruct S; rewrite H0; reflexivity. Qed.
Lemma compare_string fs op a s t j v b b' : stored H a (DString s) -> of_string j (codes t) = Ret v ->
  Z.of_nat (length s) < 2 ^ 31 -> Z.of_nat (length t) < 2 ^ 31 ->
  answer op (lex (codes s) (codes t)) = Some b -> answer op (lex (codes t) (codes s)) = Some b' ->
  compare H junk fs op (SJson a) (SStr v) = Ret b /\ compare H junk fs op (SStr v) (SJson a) = Ret b'.
Proof.
  intros S V L1 L2 A A'. rewrite left_string, right_string, (extract_string a _ S).
  assert (Ls : Z.of_nat (length (codes s)) < 2 ^ 31) by now rewrite codes_length. assert (Lt : Z.of_nat (length (codes t)) < 2 ^ 31) by now rewrite codes_length.
  assert (exists o, string_op op = Some o) as (o & O) by (destruct op; try discriminate A; eexists; reflexivity).
  destruct (relational_props o junk j (codes s) (codes t) (codes_bytes s) (codes_bytes t) Ls Lt) as (u & v' & U & V' & C). rewrite V in V'. injection V' as <-.
  destruct (relational_props o j junk (codes t) (codes s) (codes_bytes t) (codes_bytes s) Lt Ls) as (v'' & u' & V'' & U' & C'). rewrite V in V''. injection V'' as <-. rewrite U in U'. injection U' as <-.
  rewrite U. cbn [obind]. rewrite O, C, C'. split; f_equal.
  - destruct op; try discriminate O; injection O as <-; injection A as <-; destruct (lex (codes s) (codes t)); reflexivity.
  - destruct op; try discriminate O; injection O as <-; injection A' as <-; destruct (lex (codes t) (codes s)); reflexivity.
Qed.
Lemma kind_string fs op a d v : stored H a d -> (forall s, d <> DString s) -> compare H junk fs op (SJson a) (SStr v) = Err /\ compare H junk fs op (SStr v) (SJson a) = Err.
Proof. intros S N. rewrite left_string, right_string, (extract_string a d S). destruct d; try (split; reflexivity). exfalso. eapply N. reflexivity. Qed.
Lemma bool_refuted fs op a b : (exists r, check_compare (type_of (SJson a)) (type_of (SBit b)) = Ret r) /\ (exists r, check_compare (type_of (SBit b)) (type_of (SJson a)) = Ret r) /\
  compare H junk fs op (SJson a) (SBit b) = Err /\ compare H junk fs op (SBit b) (SJson a) = Err.
Proof. split; [eexists; vm_compute; reflexivity|]. split; [eexists; vm_compute; reflexivity|]. split; reflexivity. Qed.
Lemma documents_refuted fs op a a' : (exists r, check_compare (type_of (SJson a)) (type_of (SJson a')) = Ret r) /\ compare H junk fs op (SJson a) (SJson a') = Err.
Proof. split; [eexists; vm_compute; reflexivity|reflexivity]. Qed.
Lemma arithmetic a n c : check_arithmetic (type_of (SJson a)) (type_of (SNum n c)) = Err /\ check_arithmetic (type_of (SNum n c)) (type_of (SJson a)) = Err.
Proof. destruct n; split; reflexivity. Qed.
(** ** Conversions *)
Lemma return_code fs n a : check_return (SJson a) (dt n) = Ret true /\
  return_value H junk fs (SJson a) (dt n) = (do! known <- declared fs (FExtract (dt n)); if known then json_extract H junk (dt n) a else Err).
Proof.
  assert (CC : can_cast_to json_ptr (dt n) = Ret true) by (destruct n; vm_compute; reflexivity). split; [exact CC|].
  unfold return_value, check_return. cbn [type_of]. rewrite CC. cbn [obind]. unfold cast_to. cbn [type_of].
  assert (dtype_eqb json_ptr (dt n) = Ret false) as -> by (destruct n; vm_compute; reflexivity). cbn [obind]. rewrite CC. cbn [obind negb].
  assert (is_primitive (dt n) = true) as -> by (destruct n; vm_compute; reflexivity). reflexivity.
Qed.
Lemma return_refuted fs n a : declared fs (FExtract (dt n)) = Ret false -> check_return (SJson a) (dt n) = Ret true /\ return_value H junk fs (SJson a) (dt n) = Err.
Proof. intros D. destruct (return_code fs n a) as (C & E). split; [exact C|]. rewrite E, D. reflexivity. Qed.
Lemma return_exact fs n a d x : declared fs (FExtract (dt n)) = Ret true -> stored H a d -> number d = Some x -> representable n x ->
  exists v, return_value H junk fs (SJson a) (dt n) = Ret (SNum n v) /\ denotes n v x.
Proof. intros D S N R. destruct (return_code fs n a) as (_ & E). rewrite E, D. cbn [obind]. eapply extract_exact; eauto. Qed.
End Extract.

Lemma not_f80 n : n <> F80 -> is_f80 n = false. Proof. destruct n; try reflexivity; contradiction. Qed.
Theorem compare_props H junk fs op n a d c x y b b' : n <> F80 -> stored H a d -> number d = Some x -> representable n x -> denotes n c y ->
  answer op (Rcompare x y) = Some b -> answer op (Rcompare y x) = Some b' ->
  compare H junk fs op (SJson a) (SNum n c) = Ret b /\ compare H junk fs op (SNum n c) (SJson a) = Ret b'.
Proof. intros N. apply compare_exact. now apply not_f80. Qed.
Theorem kind_props H junk fs op n a d c : n <> F80 -> stored H a d -> (forall b, d <> DBool b) -> (forall z, d <> DInt z) -> (forall f, d <> DReal f) ->
  compare H junk fs op (SJson a) (SNum n c) = Err /\ compare H junk fs op (SNum n c) (SJson a) = Err.
Proof. intros N S B I R. apply (kind_number H junk fs op n a d c (not_f80 n N) S). destruct d; try reflexivity; exfalso; [eapply B|eapply I|eapply R]; reflexivity. Qed.
Theorem bool_number_props H junk fs n a b : n <> F80 -> stored H a (DBool b) ->
  exists c, denotes n c (if b then 1 else 0) /\
    compare H junk fs OP_EQUAL (SJson a) (SNum n c) = match n with U64 | I64 | F64 => Err | _ => Ret true end.
Proof.
  intros N S. assert (R : exists c, denotes n c (if b then 1 else 0)).
  { assert (exists c, denotes n c (IZR (if b then 1 else 0))) as (c & D); [|exists c; destruct b; exact D].
    destruct n; try contradiction; destruct b;
      (eexists; apply den_int; reflexivity) || (exists (VFlt (S754_zero false)); apply (den_flt _ (S754_zero false)); reflexivity) || idtac.
    - exists (VFlt (S754_finite false 8388608 (-23))). replace 1%R with (SF2R radix2 (S754_finite false 8388608 (-23))) by (unfold SF2R, F2R; simpl; lra). now apply den_flt.
    - exists (VFlt (S754_finite false 4503599627370496 (-52))). replace 1%R with (SF2R radix2 (S754_finite false 4503599627370496 (-52))) by (unfold SF2R, F2R; simpl; lra). now apply den_flt. }
  destruct R as (c & D). exists c. split; [exact D|].
  pose proof (bool_number H junk fs OP_EQUAL n a b c _ true true (not_f80 n N) S D) as P. rewrite Rcompare_Eq in P by reflexivity. specialize (P eq_refl eq_refl).
  destruct n; apply P.
Qed.
Theorem return_props H junk fs n a d x : declared fs (FExtract (get_dtype (CBase (num_code n)))) = Ret true -> stored H a d -> number d = Some x -> representable n x ->
  exists v, return_value H junk fs (SJson a) (get_dtype (CBase (num_code n))) = Ret (SNum n v) /\ denotes n v x.
Proof. apply return_exact. Qed.
