(** Proofs for C45, C46, C68. *)
From Coq Require Import Ascii String List Bool Arith ZArith Lia Floats.SpecFloat.
Import ListNotations.
From Verif Require Import Base Lexer_Model Lexer_Proofs Op_Model Op_Lemmas Number_Model Parser_Model Parser_Spec Parser_Print Ir_Model Codegen_Model Codegen_Spec Codegen_Scope Codegen_Lemmas Scalar_Model Scalar_Spec.
From Verif Require Codegen_Results2.
Local Open Scope Z_scope.

Lemma expr_cases (P : expr -> Prop) :
  (forall b, P (EBool b)) -> (forall v ty, P (ENum v ty)) -> (forall t, P (EStr t)) -> (forall x, P (EVar x)) ->
  (forall f es, Forall P es -> P (ECall f es)) -> (forall x ms, P (EMember x ms)) -> (forall x, P (EDef x)) ->
  (forall es, Forall P es -> P (EArray es)) -> (forall op a, P a -> P (EUn op a)) ->
  (forall op a b, P a -> P b -> P (EBin op a b)) -> (forall c a b, P c -> P a -> P b -> P (ECond c a b)) -> forall e, P e.
Proof. intros. apply (expr_ind2 P (fun _ => True)); auto. Qed.

Lemma layout_ok n w s : layout n = Some (w, s) -> ty_integer n = true /\ ty_bits n = w /\ d_signed n = s /\ 1 < w.
Proof. destruct n; intros H; inversion H; subst; repeat split; lia. Qed.
Lemma layout_int n : ty_integer n = true -> exists w s, layout n = Some (w, s).
Proof. destruct n; intros H; try discriminate; (do 2 eexists; reflexivity). Qed.
Lemma holds_layout n z : holds n z = true -> exists w s, layout n = Some (w, s).
Proof. unfold holds. destruct (layout n) as [[w s]|]; [eauto|discriminate]. Qed.

Lemma half w : 1 < w -> 2 ^ w = 2 * 2 ^ (w - 1).
Proof. intros H. replace w with (Z.succ (w - 1)) at 1 by lia. rewrite Z.pow_succ_r by lia. reflexivity. Qed.
Lemma signed_back w z : 1 < w -> - 2 ^ (w - 1) <= z < 2 ^ (w - 1) -> as_signed w (z mod 2 ^ w) = z.
Proof.
  intros Hw Hz. pose proof (half w Hw) as E. pose proof (Z.pow_pos_nonneg 2 (w - 1) ltac:(lia) ltac:(lia)) as P. unfold as_signed. destruct (Z.leb_spec 0 z) as [N|N].
  - rewrite Z.mod_small by lia. destruct (Z.ltb_spec z (2 ^ (w - 1))); lia.
  - replace (z mod 2 ^ w) with (z + 2 ^ w). destruct (Z.ltb_spec (z + 2 ^ w) (2 ^ (w - 1))); lia.
    rewrite <- (Z_mod_plus_full z 1 (2 ^ w)), Z.mod_small; lia.
Qed.
Lemma bound_of w : 1 < w -> 0 < 2 ^ w.
Proof. intros. apply Z.pow_pos_nonneg; lia. Qed.
(** The encoded number, read back in the way of its type *)
Definition reading (n : numty) (x : Z) : Z := if d_signed n then as_signed (ty_bits n) x else x.
Lemma read_back n z : holds n z = true -> reading n (z mod 2 ^ ty_bits n) = z.
Proof.
  intros H. destruct (holds_layout _ _ H) as (w & s & L). unfold holds in H. rewrite L in H. destruct (layout_ok _ _ _ L) as (_ & -> & D & Hw). unfold reading. rewrite D, (proj1 (proj2 (layout_ok _ _ _ L))).
  destruct s; apply andb_true_iff in H as [H1 H2]; apply Z.leb_le in H1; apply Z.ltb_lt in H2.
  - apply signed_back; lia.
  - apply Z.mod_small; lia.
Qed.
Lemma encode_bits n z : holds n z = true -> encode n z = VInt (z mod 2 ^ ty_bits n).
Proof. intros H. destruct (holds_layout _ _ H) as (w & s & L). unfold encode. rewrite L. now destruct (layout_ok _ _ _ L) as (_ & -> & _). Qed.
Lemma encode_int n z : ty_integer n = true -> encode n z = VInt (z mod 2 ^ ty_bits n).
Proof. intros H. destruct (layout_int n H) as (w & s & L). unfold encode. rewrite L. now destruct (layout_ok _ _ _ L) as (_ & -> & _). Qed.
Lemma holds_int n z : holds n z = true -> ty_integer n = true.
Proof. intros H. destruct (holds_layout _ _ H) as (w & s & L). now destruct (layout_ok _ _ _ L). Qed.
Lemma bits_pos n : 1 < ty_bits n.
Proof. destruct n; cbn; lia. Qed.

(** Conversion between integer types: the same number modulo the size of the target *)
Lemma cast_int m n z : holds m z = true -> ty_integer n = true -> cast (TNum m) (TNum n) (encode m z) = Some (encode n z).
Proof.
  intros H Hn. rewrite (encode_bits m z H), (encode_int n z Hn). cbn [cast]. rewrite Hn. do 2 f_equal.
  destruct (Z.ltb_spec (ty_bits m) (ty_bits n)) as [L|L].
  - pose proof (read_back _ _ H) as R. unfold reading in R. destruct (d_signed m) eqn:D.
    + unfold i_sext. now rewrite R.
    + unfold i_zext. rewrite R. symmetry. apply Z.mod_small. rewrite <- R at 1 2.
      pose proof (bits_pos m) as B. pose proof (Z.mod_pos_bound z (2 ^ ty_bits m) (bound_of _ B)). pose proof (Z.pow_lt_mono_r 2 (ty_bits m) (ty_bits n) ltac:(lia) ltac:(pose proof (bits_pos n); lia) L). lia.
  - unfold i_trunc. pose proof (bits_pos n) as B. replace (ty_bits m) with (ty_bits n + (ty_bits m - ty_bits n)) by lia. rewrite Z.pow_add_r by lia.
    symmetry. apply Znumtheory.Zmod_div_mod; [apply bound_of; lia| |apply Z.divide_factor_l].
    apply Z.mul_pos_pos; [apply bound_of; lia|apply Z.pow_pos_nonneg; lia].
Qed.

Lemma wider_int m n : ty_integer m = true -> ty_integer n = true -> ty_integer (wider m n) = true.
Proof. unfold wider. destruct (rank m <? rank n)%nat; auto. Qed.

Section Eval.
Variable lib : optok -> vty -> list val -> option val.
Notation oper := (Scalar_Model.oper lib).

Lemma eq_read n x y : holds n x = true -> holds n y = true -> (x mod 2 ^ ty_bits n =? y mod 2 ^ ty_bits n) = (x =? y).
Proof.
  intros Hx Hy. destruct (Z.eqb_spec x y) as [->|N]; [apply Z.eqb_refl|]. apply Z.eqb_neq. intros E. apply N.
  rewrite <- (read_back n x Hx), <- (read_back n y Hy). now rewrite E.
Qed.
Lemma truth_int (b : bool) : Some (VInt (i1 b)) = Some (machine (MBool b)).
Proof. reflexivity. Qed.
Lemma if_read {n} (f : Z -> Z -> bool) a b : (if d_signed n then f (as_signed (ty_bits n) a) (as_signed (ty_bits n) b) else f a b) = f (reading n a) (reading n b).
Proof. unfold reading. now destruct (d_signed n). Qed.

Lemma int_compare n op f x y : compares op = Some f -> holds n x = true -> holds n y = true ->
  oper op (TNum n) [encode n x; encode n y] = Some (machine (MBool (f x y))).
Proof.
  intros Hf Hx Hy. rewrite (encode_bits n x Hx), (encode_bits n y Hy). cbn [Scalar_Model.oper]. rewrite (holds_int _ _ Hx).
  pose proof (read_back n x Hx) as Rx. pose proof (read_back n y Hy) as Ry.
  destruct op; cbn in Hf; inversion Hf; subst f; clear Hf; cbn [int_binary option_map machine].
  - now rewrite (eq_read n x y Hx Hy).
  - now rewrite (eq_read n x y Hx Hy).
  - rewrite (if_read Z.ltb), Rx, Ry. reflexivity.
  - rewrite (if_read Z.leb), Rx, Ry. reflexivity.
  - rewrite (if_read Z.ltb), Rx, Ry. reflexivity.
  - rewrite (if_read Z.leb), Rx, Ry. reflexivity.
Qed.
Lemma holds_range n z : ty_integer n = true -> (holds n z = true <-> if d_signed n then - 2 ^ (ty_bits n - 1) <= z < 2 ^ (ty_bits n - 1) else 0 <= z < 2 ^ ty_bits n).
Proof.
  intros H. destruct (layout_int n H) as (w & s & L). unfold holds. rewrite L. destruct (layout_ok _ _ _ L) as (_ & -> & -> & _). destruct s; rewrite andb_true_iff, Z.leb_le, Z.ltb_lt; reflexivity.
Qed.

Lemma int_compute n op x y z : computes op x y = Some z -> holds n x = true -> holds n y = true ->
  (op = OP_DIVIDE \/ op = OP_MOD -> holds n (Z.quot x y) = true) -> compares op = None ->
  oper op (TNum n) [encode n x; encode n y] = Some (encode n z).
Proof.
  intros Hz Hx Hy Hq Hc. pose proof (holds_int _ _ Hx) as In. rewrite (encode_bits n x Hx), (encode_bits n y Hy), (encode_int n z In). cbn [Scalar_Model.oper]. rewrite In.
  pose proof (read_back n x Hx) as Rx. pose proof (read_back n y Hy) as Ry. pose proof (bits_pos n) as B. pose proof (bound_of _ B) as P. pose proof (half _ B) as Hh.
  pose proof (proj1 (holds_range n x In) Hx) as Gx. pose proof (proj1 (holds_range n y In) Hy) as Gy.
  destruct op; cbn in Hz; try discriminate Hz; cbn [int_binary option_map].
  - injection Hz as <-. unfold i_add. now rewrite <- Z.add_mod by lia.
  - injection Hz as <-. unfold i_sub. now rewrite <- Zminus_mod.
  - injection Hz as <-. unfold i_mul. now rewrite <- Z.mul_mod by lia.
  - destruct (Z.eqb_spec y 0) as [|N]; [discriminate|]. injection Hz as <-. specialize (Hq (or_introl eq_refl)). apply (proj1 (holds_range n _ In)) in Hq. unfold reading in Rx, Ry. destruct (d_signed n).
    + unfold i_sdiv. rewrite Rx, Ry. destruct (Z.eqb_spec y 0); [contradiction|]. cbn [orb].
      destruct (Z.eqb_spec x (- 2 ^ (ty_bits n - 1))) as [E|E]; cbn [andb]; [|reflexivity]. destruct (Z.eqb_spec y (-1)) as [E'|E']; [|reflexivity]. subst y. exfalso. change (-1) with (- (1)) in Hq. rewrite Z.quot_opp_r, Z.quot_1_r in Hq by lia. lia.
    + unfold i_udiv. rewrite Rx, Ry. destruct (Z.eqb_spec y 0); [contradiction|]. cbn [option_map]. do 2 f_equal. rewrite <- Z.quot_div_nonneg by lia. symmetry. apply Z.mod_small. lia.
  - destruct (Z.eqb_spec y 0) as [|N]; [discriminate|]. injection Hz as <-. specialize (Hq (or_intror eq_refl)). apply (proj1 (holds_range n _ In)) in Hq. unfold reading in Rx, Ry. destruct (d_signed n).
    + unfold i_srem. rewrite Rx, Ry. destruct (Z.eqb_spec y 0); [contradiction|]. cbn [orb].
      destruct (Z.eqb_spec x (- 2 ^ (ty_bits n - 1))) as [E|E]; cbn [andb]; [|reflexivity]. destruct (Z.eqb_spec y (-1)) as [E'|E']; [|reflexivity]. subst y. exfalso. change (-1) with (- (1)) in Hq. rewrite Z.quot_opp_r, Z.quot_1_r in Hq by lia. lia.
    + unfold i_urem. rewrite Rx, Ry. destruct (Z.eqb_spec y 0); [contradiction|]. cbn [option_map]. do 2 f_equal. rewrite Z.rem_mod_nonneg by lia. symmetry. apply Z.mod_small. pose proof (Z.mod_pos_bound x y ltac:(lia)). lia.
  - injection Hz as <-. f_equal. f_equal. unfold reading in Rx, Ry. destruct (d_signed n); rewrite ?Rx, ?Ry; destruct (Z.ltb_spec x y); [rewrite Z.max_r|rewrite Z.max_l|rewrite Z.max_r|rewrite Z.max_l]; rewrite ?Rx, ?Ry; lia.
  - injection Hz as <-. f_equal. f_equal. unfold reading in Rx, Ry. destruct (d_signed n); rewrite ?Rx, ?Ry; destruct (Z.ltb_spec y x); [rewrite Z.min_r|rewrite Z.min_l|rewrite Z.min_r|rewrite Z.min_l]; rewrite ?Rx, ?Ry; lia.
Qed.
Lemma int_negate n x : holds n x = true -> oper OP_NEGATIVE (TNum n) [encode n x] = Some (encode n (- x)).
Proof.
  intros H. pose proof (holds_int _ _ H) as In. rewrite (encode_bits n x H), (encode_int n _ In). cbn [Scalar_Model.oper unary]. unfold i_sub. do 2 f_equal.
  rewrite Zminus_mod_idemp_r. f_equal.
Qed.
Lemma int_abs n x : d_signed n = true -> holds n x = true -> oper OP_ABS (TNum n) [encode n x] = Some (encode n (Z.abs x)).
Proof.
  intros D H. pose proof (holds_int _ _ H) as In. pose proof (read_back n x H) as R. unfold reading in R. rewrite D in R. rewrite (encode_bits n x H), (encode_int n _ In). cbn [Scalar_Model.oper unary]. unfold i_abs. now rewrite R.
Qed.

Context {W : Type}.
Variable ext : text -> W -> list val -> W * val.
Variable llvm19 : bool.
Variable op_fun : optok -> vty -> option vty.
Variable fsig : text -> option (list vty * vty).
Notation eval := (Codegen_Spec.eval oper cast (total ext) konst_val llvm19 op_fun fsig).
Notation apply_op := (Codegen_Spec.apply_op oper cast llvm19 op_fun).
Notation apply_cond := (Codegen_Spec.apply_cond oper cast llvm19 op_fun).

Lemma vty_refl t : vty_eqb t t = true.
Proof. apply vty_eqb_eq. reflexivity. Qed.
Lemma keep_inv n z m : keep n z = Some m -> holds n z = true /\ m = MInt n z.
Proof. unfold keep. destruct (holds n z); intros H; inversion H; auto. Qed.
Lemma wider_self m : wider m m = m.
Proof. unfold wider. now rewrite Nat.ltb_irrefl. Qed.
Lemma common_int m n : Codegen_Spec.common [TNum m; TNum n] = Some (TNum (wider m n)).
Proof.
  unfold Codegen_Spec.common. destruct (vty_eqb (TNum m) (TNum n)) eqn:E; [|reflexivity]. apply vty_eqb_eq in E. injection E as ->. now rewrite wider_self.
Qed.
Lemma convert_int m n z : holds m z = true -> ty_integer n = true -> Codegen_Spec.convert cast (TNum m, encode m z) (TNum n) = Ret (encode n z).
Proof.
  intros H Hn. unfold Codegen_Spec.convert. destruct (vty_eqb (TNum m) (TNum n)) eqn:E; [|now rewrite (cast_int m n z H Hn)].
  apply vty_eqb_eq in E. now injection E as ->.
Qed.
Lemma convert_two m n t x y : holds m x = true -> holds n y = true -> ty_integer t = true ->
  Codegen_Spec.convert_all cast [(TNum m, encode m x); (TNum n, encode n y)] (TNum t) = Ret [encode t x; encode t y].
Proof. intros Hx Hy Ht. cbn [Codegen_Spec.convert_all]. rewrite (convert_int m t x Hx Ht). cbn [obind]. now rewrite (convert_int n t y Hy Ht). Qed.

Definition arith_op (op : optok) : bool := existsb (optok_eqb op) [OP_PLUS; OP_MINUS; OP_MULTIPLY; OP_DIVIDE; OP_MOD; OP_MAX; OP_MIN].
Lemma both_ok op x y m : fits_type x = true -> fits_type y = true -> both op x y = Some m ->
  fits_type m = true /\ apply_op op [(ideal_type x, machine x); (ideal_type y, machine y)] = Ret (ideal_type m, machine m).
Proof.
  intros Fx Fy H. destruct x as [a|s x], y as [b|t y]; cbn [both] in H; try discriminate.
  - destruct op; try discriminate; injection H as <-; (split; [reflexivity|]); destruct a, b; reflexivity.
  - cbn [fits_type] in Fx, Fy. pose proof (holds_int _ _ Fx) as Is. pose proof (holds_int _ _ Fy) as It. pose proof (wider_int _ _ Is It) as Iw. destruct (holds (wider s t) x) eqn:Hx; [|discriminate]. destruct (holds (wider s t) y) eqn:Hy; [|discriminate]. cbn [andb] in H.
    unfold Codegen_Spec.apply_op. cbn [map fst ideal_type]. rewrite common_int. cbn [typed obind machine].
    destruct (compares op) as [f|] eqn:C.
    + injection H as <-. split; [reflexivity|]. assert (R : Codegen_Spec.result_type llvm19 op_fun op (TNum (wider s t)) = Some TBit) by (destruct op; cbn in C; try discriminate; reflexivity).
      rewrite R. cbn [typed obind]. rewrite (convert_two _ _ _ _ _ Fx Fy Iw). cbn [obind]. now rewrite (int_compare _ _ _ _ _ C Hx Hy).
    + assert (exists z, computes op x y = Some z /\ keep (wider s t) z = Some m /\ (op = OP_DIVIDE \/ op = OP_MOD -> holds (wider s t) (Z.quot x y) = true)) as (z & Cz & K & Q).
      { destruct op; try (destruct (holds (wider s t) (x ÷ y)) eqn:Q; [|discriminate]); (destruct (computes _ x y) as [z|] eqn:Cz; [|discriminate]); exists z; repeat split; auto; intros [E|E]; discriminate. }
      apply keep_inv in K as [K ->]. split; [exact K|].
      assert (R : Codegen_Spec.result_type llvm19 op_fun op (TNum (wider s t)) = Some (TNum (wider s t))) by (destruct op; cbn in C, Cz; try discriminate; reflexivity).
      rewrite R. cbn [typed obind]. rewrite (convert_two _ _ _ _ _ Fx Fy Iw). cbn [obind]. now rewrite (int_compute _ _ _ _ _ Cz Hx Hy Q C).
Qed.

(** The relation between the variables of the two evaluations *)
Definition agree (σ : text -> option ideal) (ρ : env) : Prop := forall x m, σ x = Some m -> fits_type m = true /\ ρ x = Some (ideal_type m, machine m).

Lemma ideal_ok σ ρ : agree σ ρ -> forall e m w, ideal_eval σ e = Some m -> fits_type m = true /\ eval ρ w e = Ret (w, (ideal_type m, machine m)).
Proof.
  intros A. induction e as [b|v ty|s|x|f es IH|n l|x|es IH|op a IHa|op a b IHa IHb|c a b IHc IHa IHb] using expr_cases; intros m w H; cbn [ideal_eval] in H; try discriminate.
  - injection H as <-. split; reflexivity.
  - cbn [Codegen_Spec.eval]. destruct (build_const (v, ty)) as [[n z|n z]| | |]; try discriminate. apply keep_inv in H as [K ->]. split; [exact K|]. cbn [obind ideal_type machine konst_val]. now rewrite (encode_bits n z K).
  - cbn [Codegen_Spec.eval]. destruct (A x m H) as [F ->]. auto.
  - destruct es as [|a [|b [|d es]]]; try discriminate.
    + inversion IH as [|? ? Ia _]; subst. destruct (text_eqb f (lit "abs")) eqn:E; [|discriminate]. apply text_eqb_eq in E. subst f.
      destruct (ideal_eval σ a) as [[b|n z]|] eqn:Ea; try discriminate. destruct (Ia _ w eq_refl) as [F Ev]. destruct (layout n) as [[k [|]]|] eqn:L; try discriminate. apply keep_inv in H as [K ->]. split; [exact K|].
      cbn [Codegen_Spec.eval]. rewrite Ev. cbn [obind]. change (find_text function_operators (lit "abs")) with (Some (OP_ABS, 1%nat)). cbv beta iota. unfold Codegen_Spec.apply_op. cbn [map fst ideal_type Codegen_Spec.common typed obind machine].
      change (Codegen_Spec.result_type llvm19 op_fun OP_ABS (TNum n)) with (Some (TNum n)). cbn [typed obind Codegen_Spec.convert_all]. rewrite (convert_int n n z F (holds_int _ _ F)). cbn [obind].
      now rewrite (int_abs n z (proj1 (proj2 (proj2 (layout_ok _ _ _ L)))) F).
    + inversion IH as [|? ? Ia IH1]; subst. inversion IH1 as [|? ? Ib _]; subst. destruct (ideal_eval σ a) as [[|s x]|] eqn:Ea; try discriminate. destruct (ideal_eval σ b) as [[|t y]|] eqn:Eb; try discriminate.
      destruct (Ia _ w eq_refl) as [Fx Ex]. destruct (Ib _ w eq_refl) as [Fy Ey].
      destruct (text_eqb f (lit "max")) eqn:E1; [|destruct (text_eqb f (lit "min")) eqn:E2; [|discriminate]].
      * apply text_eqb_eq in E1. subst f. destruct (both_ok _ _ _ _ Fx Fy H) as [Fm Em]. split; [exact Fm|]. cbn [Codegen_Spec.eval]. rewrite Ex. cbn [obind]. rewrite Ey. cbn [obind]. change (find_text function_operators (lit "max")) with (Some (OP_MAX, 2%nat)). cbv beta iota. now rewrite Em.
      * apply text_eqb_eq in E2. subst f. destruct (both_ok _ _ _ _ Fx Fy H) as [Fm Em]. split; [exact Fm|]. cbn [Codegen_Spec.eval]. rewrite Ex. cbn [obind]. rewrite Ey. cbn [obind]. change (find_text function_operators (lit "min")) with (Some (OP_MIN, 2%nat)). cbv beta iota. now rewrite Em.
  - destruct (ideal_eval σ a) as [x|] eqn:Ea; [|destruct op; discriminate]. destruct (IHa _ w eq_refl) as [F Ev]. cbn [Codegen_Spec.eval]. rewrite Ev. cbn [obind].
    destruct op, x as [b|n z]; try discriminate.
    + apply keep_inv in H as [K ->]. split; [exact K|]. unfold Codegen_Spec.apply_op. cbn [map fst ideal_type Codegen_Spec.common typed obind machine].
      change (Codegen_Spec.result_type llvm19 op_fun OP_NEGATIVE (TNum n)) with (Some (TNum n)). cbn [typed obind Codegen_Spec.convert_all]. rewrite (convert_int n n z F (holds_int _ _ F)). cbn [obind]. now rewrite (int_negate n z F).
    + injection H as <-. split; [reflexivity|]. destruct b; reflexivity.
  - destruct (ideal_eval σ a) as [x|] eqn:Ea; [|discriminate]. destruct (ideal_eval σ b) as [y|] eqn:Eb; [|discriminate]. destruct (IHa _ w eq_refl) as [Fx Ex]. destruct (IHb _ w eq_refl) as [Fy Ey]. destruct (existsb _ infix_ops); [|discriminate].
    destruct (both_ok _ _ _ _ Fx Fy H) as [Fm Em]. split; [exact Fm|]. cbn [Codegen_Spec.eval]. rewrite Ex. cbn [obind]. rewrite Ey. cbn [obind]. now rewrite Em.
  - destruct (ideal_eval σ c) as [[cc|]|] eqn:Ec; try discriminate. destruct (ideal_eval σ a) as [x|] eqn:Ea; [|discriminate]. destruct (ideal_eval σ b) as [y|] eqn:Eb; [|destruct x; discriminate].
    destruct (IHc _ w eq_refl) as [_ Ev]. destruct (IHa _ w eq_refl) as [Fx Ex]. destruct (IHb _ w eq_refl) as [Fy Ey]. cbn [Codegen_Spec.eval]. rewrite Ev. cbn [obind]. rewrite Ex. cbn [obind]. rewrite Ey. cbn [obind].
    destruct x as [x|s x], y as [y|t y]; try discriminate.
    + injection H as <-. split; [reflexivity|]. destruct cc, x, y; reflexivity.
    + cbn [fits_type] in Fx, Fy. pose proof (holds_int _ _ Fx) as Is. pose proof (holds_int _ _ Fy) as It. pose proof (wider_int _ _ Is It) as Iw. destruct (holds (wider s t) x) eqn:Hx; [|discriminate]. destruct (holds (wider s t) y) eqn:Hy; [|discriminate]. cbn [andb] in H. injection H as <-.
      split; [cbn [fits_type]; destruct cc; auto|]. unfold Codegen_Spec.apply_cond. cbn [fst snd ideal_type vty_eqb negb]. rewrite common_int. cbn [typed obind machine].
      change (Codegen_Spec.result_type llvm19 op_fun OP_CONDITIONAL (TNum (wider s t))) with (Some (TNum (wider s t))). cbn [typed obind]. rewrite (convert_two _ _ _ _ _ Fx Fy Iw). cbn [obind].
      destruct cc; reflexivity.
Qed.
Lemma ideal_pure σ e m : ideal_eval σ e = Some m -> pure e = true.
Proof.
  revert m. induction e as [b|v ty|s|x|f es IH|n l|x|es IH|op a IHa|op a b IHa IHb|c a b IHc IHa IHb] using expr_cases; intros m H; cbn [ideal_eval] in H; try discriminate; cbn [pure]; auto.
  - destruct es as [|a [|b [|d es]]]; try discriminate.
    + inversion IH as [|? ? Ia _]; subst. destruct (text_eqb f (lit "abs")) eqn:E; [|discriminate]. apply text_eqb_eq in E. subst f. destruct (ideal_eval σ a) eqn:Ea; [|discriminate]. cbn [forallb]. now rewrite (Ia _ eq_refl).
    + inversion IH as [|? ? Ia IH1]; subst. inversion IH1 as [|? ? Ib _]; subst. destruct (ideal_eval σ a) as [[|s x]|] eqn:Ea; try discriminate. destruct (ideal_eval σ b) as [[|t y]|] eqn:Eb; try discriminate. cbn [forallb]. rewrite (Ia _ eq_refl), (Ib _ eq_refl).
      destruct (text_eqb f (lit "max")) eqn:E1; [apply text_eqb_eq in E1; now subst f|destruct (text_eqb f (lit "min")) eqn:E2; [apply text_eqb_eq in E2; now subst f|discriminate]].
  - destruct (ideal_eval σ a) as [x|] eqn:Ea; [|destruct op; discriminate]. rewrite (IHa _ eq_refl). destruct op; try discriminate; reflexivity.
  - destruct (ideal_eval σ a) as [x|] eqn:Ea; [|discriminate]. destruct (ideal_eval σ b) as [y|] eqn:Eb; [|discriminate]. rewrite (IHa _ eq_refl), (IHb _ eq_refl). destruct (existsb _ infix_ops); [reflexivity|discriminate].
  - destruct (ideal_eval σ c) as [[cc|]|] eqn:Ec; try discriminate. destruct (ideal_eval σ a) as [x|] eqn:Ea; [|discriminate]. destruct (ideal_eval σ b) as [y|] eqn:Eb; [|destruct x; discriminate]. now rewrite (IHc _ eq_refl), (IHa _ eq_refl), (IHb _ eq_refl).
Qed.
End Eval.

Lemma params_types l : Forall (fun p => fst p <> TVoid) (params_of l).
Proof. apply Forall_map, Forall_forall. intros [x [b|n z]] _; discriminate. Qed.
Lemma params_names l : map snd (params_of l) = map fst l.
Proof. unfold params_of. rewrite map_map. now apply map_ext. Qed.
Lemma bind_other ps : forall (vs : list val) ρ x, ~ In x (map snd ps) -> Codegen_Spec.bind_args ps vs ρ x = ρ x.
Proof.
  induction ps as [|[t y] ps IH]; intros [|v vs] ρ x H; cbn [Codegen_Spec.bind_args]; auto. rewrite IH by (intros I; apply H; now right).
  unfold set_var. destruct (text_eqb x y) eqn:E; [|reflexivity]. apply text_eqb_eq in E. subst. exfalso. apply H. now left.
Qed.
Lemma start_agree l : NoDup (map fst l) -> forallb (fun p => fits_type (snd p)) l = true ->
  forall ρ, agree (ideal_env l) (Codegen_Spec.bind_args (params_of l) (args_of l) ρ).
Proof.
  unfold ideal_env. induction l as [|[y m] l IH]; intros ND F ρ x i H; cbn [find_text] in H; [discriminate|]. cbn [map fst] in ND. inversion ND as [|? ? N ND']; subst. cbn [forallb snd] in F. apply andb_true_iff in F as [F1 F2].
  change (Codegen_Spec.bind_args (params_of ((y, m) :: l)) (args_of ((y, m) :: l)) ρ) with (Codegen_Spec.bind_args (params_of l) (args_of l) (set_var ρ y (ideal_type m) (machine m))).
  destruct (text_eqb y x) eqn:E.
  - apply text_eqb_eq in E. subst y. injection H as <-. split; [exact F1|]. rewrite bind_other by (now rewrite params_names). unfold set_var. now rewrite text_eqb_refl.
  - apply (IH ND' F2 _ x i H).
Qed.
Section Return.
Context {W : Type}.
Variable lib : optok -> vty -> list val -> option val.
Variable ext : text -> W -> list val -> W * val.
Variable llvm19 : bool.
Variable op_fun : optok -> vty -> option vty.
Variable fsig : text -> option (list vty * vty).
Theorem ideal_return l ret o F w m r : proper l -> ideal_eval (ideal_env l) (denote o) = Some m -> returned ret m = Some r ->
  compile llvm19 op_fun fsig ret (params_of l) [S_return (Some o)] = Ret F ->
  exists k0, forall k, (k0 <= k)%nat -> Ir_Model.call (ir_prim (Scalar_Model.oper lib) cast) (total ext) konst_val truth (args_of l) k F w = Ret (Some r, w).
Proof.
  intros [P1 P2 P3 P4] HI HR HF.
  assert (FIT : fits (params_of l) (args_of l) [S_return (Some o)]).
  { apply Codegen_Results2.return_fits; try rewrite params_names; auto. apply params_types. unfold args_of, params_of. now rewrite !map_length. apply (ideal_pure _ _ _ HI). }
  pose proof (Codegen_Results2.return_value (Scalar_Model.oper lib) cast ext konst_val truth llvm19 op_fun fsig ret (params_of l) (args_of l) o F w FIT HF) as H.
  destruct (ideal_ok lib ext llvm19 op_fun fsig _ _ (start_agree l P1 P4 (fun _ => None)) _ _ w HI) as [Fm E].
  cbn zeta in H. rewrite E in H. cbn [obind] in H.
  assert (C : Codegen_Spec.convert cast (ideal_type m, machine m) ret = Ret r /\ ret <> TVoid).
  { destruct ret as [| |n], m as [b|n' z]; cbn [returned] in HR; try discriminate.
    - injection HR as <-. split; [reflexivity|discriminate].
    - destruct (holds n z) eqn:Hz; [|discriminate]. injection HR as <-. split; [|discriminate]. apply convert_int; [exact Fm|apply (holds_int _ _ Hz)]. }
  destruct C as [C N]. rewrite C in H. cbn [obind] in H. apply vty_eqb_neq in N. rewrite N in H. exact H.
Qed.
End Return.

Section Two.
Context {W : Type}.
Variable lib : optok -> vty -> list val -> option val.
Variable ext : text -> W -> list val -> W * val.
Variable llvm19 : bool.
Variable op_fun : optok -> vty -> option vty.
Variable fsig : text -> option (list vty * vty).
Notation call args := (Ir_Model.call (ir_prim (Scalar_Model.oper lib) cast) (total ext) konst_val truth args).
Notation compile := (compile llvm19 op_fun fsig).
Lemma two_names (a b : text) : a <> b -> NoDup [a; b].
Proof. intros N. constructor; [intros [E|[]]; now apply N|constructor; [intros []|constructor]]. Qed.
Lemma mixed_comparison ta tb a b x y op f o F w :
  a <> b -> ~ In (lit "pi") [a; b] -> ~ In (lit "e") [a; b] ->
  compares op = Some f -> denote o = EBin op (EVar a) (EVar b) ->
  holds ta x = true -> holds tb y = true -> holds (wider ta tb) x = true -> holds (wider ta tb) y = true ->
  compile TBit [(TNum ta, a); (TNum tb, b)] [S_return (Some o)] = Ret F ->
  exists k0, forall k, (k0 <= k)%nat -> call [encode ta x; encode tb y] k F w = Ret (Some (VInt (if f x y then 1 else 0)), w).
Proof.
  intros N Np Ne Hf Ho Hx Hy Hx' Hy' HF.
  apply (ideal_return lib ext llvm19 op_fun fsig [(a, MInt ta x); (b, MInt tb y)] TBit o F w (MBool (f x y)) (VInt (if f x y then 1 else 0))); auto.
  - constructor; [now apply two_names|exact Np|exact Ne|]. cbn [forallb snd fits_type]. now rewrite Hx, Hy.
  - rewrite Ho. unfold ideal_env. cbn [ideal_eval find_text]. rewrite !text_eqb_refl. destruct (text_eqb a b) eqn:E; [apply text_eqb_eq in E; contradiction|].
    assert (I : existsb (optok_eqb op) infix_ops = true) by (destruct op; cbn in Hf; try discriminate; reflexivity). rewrite I. cbn [both]. rewrite Hx', Hy'. cbn [andb]. now rewrite Hf.
Qed.
Lemma common_type ta tb :
  normalize [TNum ta; TNum tb] = normalize [TNum tb; TNum ta] /\
  (normalize [TNum ta; TNum tb] = Ret (TNum ta) \/ normalize [TNum ta; TNum tb] = Ret (TNum tb)).
Proof. destruct ta, tb; split; try reflexivity; (left; reflexivity) || (right; reflexivity). Qed.

(** Operands of one type: no conversion *)
Lemma two_return n a b va vb op o F w v :
  a <> b -> ~ In (lit "pi") [a; b] -> ~ In (lit "e") [a; b] -> denote o = EBin op (EVar a) (EVar b) ->
  comparison op = true -> Scalar_Model.oper lib op (TNum n) [va; vb] = Some v ->
  compile TBit [(TNum n, a); (TNum n, b)] [S_return (Some o)] = Ret F ->
  exists k0, forall k, (k0 <= k)%nat -> call [va; vb] k F w = Ret (Some v, w).
Proof.
  intros N Np Ne Ho Hc Hv HF.
  assert (FIT : fits [(TNum n, a); (TNum n, b)] [va; vb] [S_return (Some o)]).
  { apply Codegen_Results2.return_fits; cbn [map snd]; auto. now apply two_names. repeat constructor; discriminate. rewrite Ho. cbn [pure]. rewrite !andb_true_r. unfold comparison in Hc. destruct op; try discriminate Hc; reflexivity. }
  pose proof (Codegen_Results2.return_value (Scalar_Model.oper lib) cast ext konst_val truth llvm19 op_fun fsig TBit _ _ o F w FIT HF) as H.
  rewrite Ho in H. cbn [Codegen_Spec.eval Codegen_Spec.bind_args] in H. unfold set_var in H. rewrite !text_eqb_refl in H. destruct (text_eqb a b) eqn:E; [apply text_eqb_eq in E; contradiction|]. cbn [obind] in H.
  unfold Codegen_Spec.apply_op in H. cbn [map fst] in H. rewrite common_int, wider_self in H. cbn [typed obind] in H.
  assert (R : Codegen_Spec.result_type llvm19 op_fun op (TNum n) = Some TBit) by (unfold comparison in Hc; destruct op; try discriminate Hc; reflexivity). rewrite R in H. cbn [typed obind Codegen_Spec.convert_all] in H. unfold Codegen_Spec.convert in H at 1 2. rewrite vty_refl in H. cbn [obind] in H. rewrite Hv in H. cbn [defined obind Codegen_Spec.convert] in H. rewrite vty_refl in H. cbn [obind] in H.
  exact H.
Qed.
Lemma of_int n x : of_type n (VInt x) -> ty_integer n = true.
Proof. destruct n; cbn; tauto. Qed.
Lemma of_flt n f : of_type n (VFlt f) -> ty_integer n = false.
Proof. destruct n; cbn; discriminate || auto. Qed.
Lemma sf_compare_some f g : f <> S754_nan -> g <> S754_nan -> exists c, SFcompare f g = Some c.
Proof. intros Hf Hg. destruct f as [s|s| |s m e], g as [s'|s'| |s' m' e']; try contradiction; cbn [SFcompare]; eauto; try (destruct s, s'; eauto; fail); destruct s; eauto; destruct s'; eauto. Qed.
Lemma both_limits (A B : nat -> Prop) : (exists k0, forall k, (k0 <= k)%nat -> A k) -> (exists k0, forall k, (k0 <= k)%nat -> B k) -> exists k0, forall k, (k0 <= k)%nat -> A k /\ B k.
Proof. intros [x Hx] [y Hy]. exists (Nat.max x y). intros k Hk. split; [apply Hx|apply Hy]; lia. Qed.
Lemma exactly_one n a b va vb oe on F1 F2 w :
  a <> b -> ~ In (lit "pi") [a; b] -> ~ In (lit "e") [a; b] ->
  denote oe = EBin OP_EQUAL (EVar a) (EVar b) -> denote on = EBin OP_NOT_EQUAL (EVar a) (EVar b) ->
  of_type n va -> of_type n vb -> va <> VFlt S754_nan -> vb <> VFlt S754_nan ->
  compile TBit [(TNum n, a); (TNum n, b)] [S_return (Some oe)] = Ret F1 ->
  compile TBit [(TNum n, a); (TNum n, b)] [S_return (Some on)] = Ret F2 ->
  exists (r : bool) k0, forall k, (k0 <= k)%nat ->
    call [va; vb] k F1 w = Ret (Some (VInt (if r then 1 else 0)), w) /\
    call [va; vb] k F2 w = Ret (Some (VInt (if r then 0 else 1)), w).
Proof.
  intros N Np Ne He Hn Ta Tb Na Nb H1 H2.
  assert (exists r : bool, Scalar_Model.oper lib OP_EQUAL (TNum n) [va; vb] = Some (VInt (if r then 1 else 0)) /\ Scalar_Model.oper lib OP_NOT_EQUAL (TNum n) [va; vb] = Some (VInt (if r then 0 else 1))) as (r & E1 & E2).
  { destruct va as [x|f], vb as [y|g]; try apply of_int in Ta; try apply of_int in Tb; try apply of_flt in Ta; try apply of_flt in Tb; [| congruence|congruence|].
    - exists (x =? y). cbn [Scalar_Model.oper]. rewrite Ta. cbn [int_binary option_map]. destruct (x =? y); auto.
    - cbn [Scalar_Model.oper]. rewrite Ta. cbn [flt_binary]. unfold f_cmp. destruct (sf_compare_some f g) as (c & ->); [congruence|congruence|]. destruct c; [exists true|exists false|exists false]; auto. }
  exists r. apply both_limits; [apply (two_return n a b va vb OP_EQUAL oe)|apply (two_return n a b va vb OP_NOT_EQUAL on)]; auto.
Qed.
Lemma nan_neither n a b va vb oe on F1 F2 w :
  a <> b -> ~ In (lit "pi") [a; b] -> ~ In (lit "e") [a; b] ->
  denote oe = EBin OP_EQUAL (EVar a) (EVar b) -> denote on = EBin OP_NOT_EQUAL (EVar a) (EVar b) ->
  of_type n va -> of_type n vb -> va = VFlt S754_nan \/ vb = VFlt S754_nan ->
  compile TBit [(TNum n, a); (TNum n, b)] [S_return (Some oe)] = Ret F1 ->
  compile TBit [(TNum n, a); (TNum n, b)] [S_return (Some on)] = Ret F2 ->
  exists k0, forall k, (k0 <= k)%nat -> call [va; vb] k F1 w = Ret (Some (VInt 0), w) /\ call [va; vb] k F2 w = Ret (Some (VInt 0), w).
Proof.
  intros N Np Ne He Hn Ta Tb HN H1 H2.
  assert (forall op, op = OP_EQUAL \/ op = OP_NOT_EQUAL -> Scalar_Model.oper lib op (TNum n) [va; vb] = Some (VInt 0)) as E.
  { intros op Hop. destruct va as [x|f], vb as [y|g]; try apply of_int in Ta; try apply of_int in Tb; try apply of_flt in Ta; try apply of_flt in Tb; [destruct HN; discriminate| congruence|congruence|].
    cbn [Scalar_Model.oper]. rewrite Ta. assert (SFcompare f g = None) as C by (destruct HN as [E|E]; injection E as ->; [reflexivity|destruct f as [| |[]|[]]; reflexivity]).
    destruct Hop as [ -> | -> ]; cbn [flt_binary]; unfold f_cmp; now rewrite C. }
  apply both_limits; [apply (two_return n a b va vb OP_EQUAL oe)|apply (two_return n a b va vb OP_NOT_EQUAL on)]; auto.
Qed.
End Two.
