(** Proofs about loading compiled functions. *)
From Coq Require Import Ascii String List Bool Arith ZArith Lia.
Import ListNotations.
From Verif Require Import Base Lexer_Model Lexer_Proofs DType_Spec DType_Model DType_Proofs Load_Spec Load_Model.

(** ** Signatures *)
Definition type_ok (t : cpptype) : Prop := supported 2047 t /\ no_arrays t.
Lemma compare_args_ok gs ps : Forall type_ok gs -> Forall type_ok ps -> length gs = length ps ->
  exists r, compare_args (map get_dtype gs) (map get_dtype ps) = Ret r /\ (r = true <-> gs = ps).
Proof.
  revert ps. induction gs as [|g gs IH]; intros [|p ps] G P L; try discriminate; cbn [map compare_args].
  - exists true. easy.
  - inversion G as [|? ? [G1 G2] G']; inversion P as [|? ? [P1 P2] P']; subst.
    destruct (eqb_iff_same g p G1 P1 G2 P2) as (r & -> & R). cbn [obind]. destruct r.
    + destruct (IH ps G' P' ltac:(now injection L)) as (r & -> & R'). exists r. split; [reflexivity|].
      rewrite R'. rewrite (proj1 R eq_refl). split; [now intros ->|now intros [= ->]].
    + exists false. split; [reflexivity|]. split; [discriminate|]. intros [= -> _]. now apply R.
Qed.
Lemma compare_signature_ok u s : signature_ok (udf_signature u) -> signature_ok s ->
  exists r, compare_signature u (get_dtype (s_return s)) (map get_dtype (s_args s)) = Ret r /\
    (r = true <-> udf_signature u = s).
Proof.
  intros U S. inversion U as [|? ? [U1 U2] U']; inversion S as [|? ? [S1 S2] S']; subst. unfold compare_signature.
  cbn [udf_signature s_return] in *. destruct s as [rt ts]. cbn [s_return s_args] in *. unfold udf_signature in *. cbn [s_return s_args] in *.
  destruct (eqb_iff_same (u_return u) rt U1 S1 U2 S2) as (r & -> & R). cbn [obind]. destruct r; cbn [negb].
  2:{ exists false. split; [reflexivity|]. split; [discriminate|]. intros [= E _]. now apply R in E. }
  rewrite (proj1 R eq_refl). destruct (u_args u) as [ps|]; cbn [udf_signature s_args] in *.
  - rewrite map_length. destruct (Nat.eqb_spec (length ts) (length ps)) as [L|L]; cbn [negb].
    + destruct (compare_args_ok ts ps S' U' L) as (r & -> & R'). exists r. split; [reflexivity|]. rewrite R'.
      split; [now intros ->|now intros [= ->]].
    + exists false. split; [reflexivity|]. split; [discriminate|]. intros [= E]. now subst.
  - exists (match ts with [] => true | _ => false end). destruct ts; cbn; split; easy.
Qed.

(** ** Lookups *)
Definition named (name : text) (us : list udf) : option udf := find (fun u => text_eqb (u_name u) name) us.
Lemma verify_ok us name s : Forall (fun u => signature_ok (udf_signature u)) us -> signature_ok s ->
  verify_signature us name (get_dtype (s_return s)) (map get_dtype (s_args s)) =
  match named name us with Some _ => Ret name | None => Err end.
Proof.
  intros U S. induction us as [|u us IH]; cbn [verify_signature named find]; [reflexivity|].
  inversion U; subst. destruct (text_eqb name (u_name u)) eqn:E.
  - apply text_eqb_eq in E. subst name. rewrite (proj2 (text_eqb_eq _ _) eq_refl).
    destruct (compare_signature_ok u s) as (r & -> & _); [assumption..|]. reflexivity.
  - destruct (text_eqb (u_name u) name) eqn:E'; [|now apply IH].
    apply text_eqb_eq in E'. subst. rewrite (proj2 (text_eqb_eq _ _) eq_refl) in E. discriminate.
Qed.

(** ** Lists *)
Lemma set_nth_length {A} n (x : A) l : length (set_nth n x l) = length l.
Proof. revert n. induction l; intros [|n]; cbn; auto. Qed.
Lemma nth_set_nth {A} n (x : A) l m : nth_error (set_nth n x l) m =
  if (m =? n)%nat then match nth_error l n with Some _ => Some x | None => None end else nth_error l m.
Proof.
  revert n m. induction l as [|y l IH]; intros [|n] [|m]; cbn; try reflexivity.
  - now destruct (m =? n)%nat.
  - rewrite IH. reflexivity.
Qed.
Lemma Forall2_set_nth {A B} (P : A -> B -> Prop) n x y l m : Forall2 P l m -> P x y -> Forall2 P (set_nth n x l) (set_nth n y m).
Proof. intros F. revert n. induction F; intros [|n] H'; cbn; constructor; auto. Qed.
Lemma Forall2_nth {A B} (P : A -> B -> Prop) l m n y : Forall2 P l m -> nth_error m n = Some y ->
  exists x, nth_error l n = Some x /\ P x y.
Proof. intros F. revert n. induction F; intros [|n] E; cbn in *; try discriminate; [injection E as <-; eauto|eauto]. Qed.

(** How many variables hold the code generator [s]. *)
Definition holds (s : nat) (v : option jit) : nat :=
  match v with Some x => match j_resource x with Some r => if (r =? s)%nat then 1 else 0 | None => 0 end | None => 0 end.
Fixpoint holders (s : nat) (l : list (option jit)) : nat := match l with [] => 0 | v :: l => holds s v + holders s l end.
Lemma holders_app s l m : holders s (l ++ m) = (holders s l + holders s m)%nat.
Proof. induction l; cbn; [reflexivity|]. rewrite IHl. lia. Qed.
Lemma holders_set s n x l y : nth_error l n = Some y -> (holders s (set_nth n x l) + holds s y = holders s l + holds s x)%nat.
Proof.
  revert n. induction l as [|z l IH]; intros [|n] E; cbn [nth_error set_nth holders] in *; try discriminate.
  - injection E as <-. lia.
  - specialize (IH n E). lia.
Qed.
Lemma holders_in s l n x : nth_error l n = Some x -> (holds s x <= holders s l)%nat.
Proof.
  revert n. induction l as [|z l IH]; intros [|n] E; cbn [nth_error holders] in *; try discriminate.
  - injection E as <-. lia.
  - specialize (IH n E). lia.
Qed.
Definition here (s : nat) (r : option nat) : nat := match r with Some t => if (t =? s)%nat then 1 else 0 | None => 0 end.
Lemma acquire_count r h s : acquire r h s = (h s + here s r)%nat.
Proof.
  destruct r as [t|]; cbn [acquire here]; [|lia]. unfold upd. rewrite (Nat.eqb_sym t s).
  destruct (Nat.eqb_spec s t); [subst; lia|lia].
Qed.
Lemma release_count r h s : (forall t, r = Some t -> 1 <= h t)%nat -> (release r h s + here s r)%nat = h s.
Proof.
  intros P. destruct r as [t|]; cbn [release here]; [|lia]. specialize (P t eq_refl). unfold upd. rewrite (Nat.eqb_sym t s).
  destruct (Nat.eqb_spec s t); [subst; lia|lia].
Qed.

(** ** The invariant *)
Definition same_var (v : option jit) (i : var) : Prop :=
  match v, i with
  | Some x, VEmpty => j_resource x = None
  | Some x, VCode c => exists s, j_resource x = Some s /\ j_f x = Some (s, c)
  | Some x, VMoved => j_resource x = None
  | None, VGone => True
  | _, _ => False
  end.
Definition ok_udfs (us : list udf) : Prop := Forall (fun u => signature_ok (udf_signature u)) us.
Lemma ok_one u : signature_ok (udf_signature u) -> ok_udfs [u].
Proof. intros H. constructor; [exact H|constructor]. Qed.
Record inv (st : state) (i : ideal) : Prop := Inv
  { I_count : forall s, h_count st s = (here s (c_codegen st) + holders s (vars st))%nat;
    I_next : forall s, (h_next st <= s)%nat -> h_count st s = 0%nat;
    I_vars : Forall2 same_var (vars st) (i_vars i);
    I_known : match i_known i with
              | None => c_alive st = false /\ c_codegen st = None
              | Some us => c_alive st = true /\ ok_udfs (c_parsed st) /\
                  match c_codegen st with
                  | None => us = []
                  | Some s => h_code st s = us /\ (us <> [] -> c_parsed st = us)
                  end
              end }.

Lemma inv_new st i : inv st i -> i_known i <> None ->
  let st' := new_codegen st in
  inv st' (Ideal (Some []) (i_vars i)) /\ c_codegen st' = Some (h_next st) /\ c_parsed st' = [] /\ vars st' = vars st.
Proof.
  intros [C N V K] A. cbn [new_codegen c_codegen c_parsed vars]. split; [|auto].
  assert (forall t, c_codegen st = Some t -> t < h_next st)%nat as B.
  { intros t E. destruct (Nat.lt_ge_cases t (h_next st)); [assumption|]. specialize (N t H). specialize (C t).
    rewrite E in C. cbn [here] in C. rewrite Nat.eqb_refl in C. lia. }
  assert (forall s, release (c_codegen st) (upd (h_next st) 1%nat (h_count st)) s + here s (c_codegen st) =
    upd (h_next st) 1%nat (h_count st) s)%nat as R.
  { intros s. apply release_count. intros t E. unfold upd. destruct (Nat.eqb_spec t (h_next st)); [lia|].
    rewrite (C t), E. cbn [here]. rewrite Nat.eqb_refl. lia. }
  constructor; cbn [new_codegen h_count c_codegen vars h_next i_vars i_known c_alive c_parsed h_code].
  - intros s. specialize (R s). cbn [here]. rewrite (Nat.eqb_sym (h_next st) s).
    set (hs := release _ _ s) in *. unfold upd in R.
    destruct (Nat.eqb_spec s (h_next st)) as [D0|D]; [subst s|].
    + assert (here (h_next st) (c_codegen st) = 0)%nat as Z.
      { destruct (c_codegen st) as [t|]; [|reflexivity]. cbn. destruct (Nat.eqb_spec t (h_next st)); [|reflexivity].
        specialize (B t eq_refl). lia. }
      specialize (C (h_next st)). rewrite (N (h_next st)) in C by lia. cbv iota. lia.
    + specialize (C s). cbv iota. lia.
  - intros s L. specialize (R s). set (hs := release _ _ s) in *. unfold upd in R. destruct (Nat.eqb_spec s (h_next st)); [lia|].
    rewrite (N s) in R by lia. lia.
  - assumption.
  - destruct (i_known i); [|contradiction]. destruct K as (K1 & _). split; [assumption|]. split; [constructor|].
    unfold upd. rewrite Nat.eqb_refl. split; [reflexivity|]. intros []. reflexivity.
Qed.

Lemma inv_compile st i us fin s : inv st i -> i_known i <> None -> c_codegen st = Some s -> h_code st s = [] -> ok_udfs us ->
  inv (compile_functions us fin st) (Ideal (Some (if fin then us else [])) (i_vars i)).
Proof.
  intros [C N V K] A E H U. destruct (i_known i) as [ks|] eqn:Ek; [|contradiction]. destruct K as (K1 & K2 & K3).
  constructor; cbn [compile_functions h_count c_codegen vars h_next i_vars i_known c_alive c_parsed h_code]; try assumption.
  rewrite E in *. destruct fin.
  - unfold upd. rewrite Nat.eqb_refl. auto.
  - split; [assumption|]. split; [assumption|]. split; [assumption|]. intros []. reflexivity.
Qed.

Lemma inv_var st i s name u us : inv st i -> i_known i = Some us -> c_codegen st = Some s -> h_code st s = us ->
  inv (new_var name (s, u) st) (Ideal (Some us) (i_vars i ++ [VCode u])).
Proof.
  intros [C N V K] A E H. rewrite A in K. destruct K as (K1 & K2 & K3).
  constructor; cbn [new_var h_count c_codegen vars h_next i_vars i_known c_alive c_parsed h_code].
  - intros t. rewrite acquire_count, holders_app. cbn [holders holds j_resource]. rewrite (C t), E. cbn [here]. lia.
  - intros t L. rewrite acquire_count, (N t L), E. cbn [here]. destruct (Nat.eqb_spec s t); [|reflexivity]. subst t.
    specialize (N s L). specialize (C s). rewrite E in C. cbn [here] in C. rewrite Nat.eqb_refl in C. lia.
  - apply Forall2_app; [assumption|]. constructor; [|constructor]. cbn. exists s. auto.
  - auto.
Qed.

Section Run.
Variable source : Type.
Variable functions : source -> built (list udf).
Variable function : source -> built udf.
Variable expression : source -> signature -> built nat.
Hypothesis functions_ok : forall src us, functions src = Code us \/ functions src = NoCode us -> ok_udfs us.
Hypothesis function_ok : forall src u, function src = Code u \/ function src = NoCode u -> signature_ok (udf_signature u).

Lemma udf_sig_expr s c name : signature_ok s -> signature_ok (udf_signature (Udf name (s_return s) (match s_args s with [] => None | l => Some l end) c)).
Proof. intros S. destruct s as [r [|a l]]; cbn in *; exact S. Qed.

Theorem step_ok st i o i' e : inv st i -> op_ok o -> ideal_step source functions function expression i o = Some (i', e) ->
  exists st', step source functions function expression st o = Ret (st', e) /\ inv st' i'.
Proof.
  intros I O E. pose proof (I_known st i I) as K. destruct o; cbn [ideal_step step] in *.
  - (* CompileSource *)
    destruct (i_known i) as [us0|] eqn:Ek; [|discriminate]. destruct K as (K1 & K2 & K3). rewrite K1.
    assert (i_known i <> None) as A by congruence.
    destruct (inv_new st i I A) as (J & J1 & J2 & J3). unfold compile_source.
    assert (h_code (new_codegen st) (h_next st) = []) as Hc by (cbn; unfold upd; now rewrite Nat.eqb_refl).
    destruct (functions src) as [|us|us] eqn:F.
    + injection E as <- <-. eexists. split; [reflexivity|exact J].
    + injection E as <- <-. eexists. split; [reflexivity|].
      exact (inv_compile _ (Ideal (Some []) (i_vars i)) us false _ J ltac:(discriminate) J1 Hc (functions_ok _ _ (or_intror F))).
    + injection E as <- <-. eexists. split; [reflexivity|].
      exact (inv_compile _ (Ideal (Some []) (i_vars i)) us true _ J ltac:(discriminate) J1 Hc (functions_ok _ _ (or_introl F))).
  - (* Load *)
    destruct (i_known i) as [us|] eqn:Ek; [|discriminate]. destruct K as (K1 & K2 & K3). rewrite K1. unfold load_function.
    destruct (c_codegen st) as [g|] eqn:Eg.
    2:{ subst us. cbn in E. injection E as <- <-. eexists. split; [reflexivity|assumption]. }
    destruct K3 as [K3 K4]. rewrite (verify_ok (c_parsed st) name s K2 O). unfold function_ptr. rewrite Eg, K3.
    unfold code_of in E. fold (named name us) in *.
    destruct (named name us) as [u|] eqn:En; cbn [option_map] in E.
    + injection E as <- <-. rewrite K4 by (intros ->; discriminate). rewrite En. cbn [obind].
      eexists. split; [reflexivity|]. now apply (inv_var st i g name (u_code u) us).
    + injection E as <- <-. exists st. split; [|assumption]. destruct (named name (c_parsed st)); reflexivity.
  - (* CompileFunction *)
    destruct (i_known i) as [us0|] eqn:Ek; [|discriminate]. destruct K as (K1 & K2 & K3). rewrite K1.
    assert (i_known i <> None) as A by congruence.
    destruct (inv_new st i I A) as (J & J1 & J2 & J3). unfold compile_function.
    assert (h_code (new_codegen st) (h_next st) = []) as Hc by (cbn; unfold upd; now rewrite Nat.eqb_refl).
    destruct (function src) as [|u|u] eqn:F.
    + injection E as <- <-. eexists. split; [reflexivity|exact J].
    + injection E as <- <-. eexists. split; [reflexivity|].
      exact (inv_compile _ (Ideal (Some []) (i_vars i)) [u] false _ J ltac:(discriminate) J1 Hc (ok_one _ (function_ok _ _ (or_intror F)))).
    + injection E as <- <-. pose proof (function_ok _ _ (or_introl F)) as U.
      pose proof (inv_compile _ (Ideal (Some []) (i_vars i)) [u] true _ J ltac:(discriminate) J1 Hc (ok_one _ U)) as J'.
      set (st1 := compile_functions [u] true (new_codegen st)) in *.
      assert (c_codegen st1 = Some (h_next st)) as G1 by reflexivity.
      assert (h_code st1 (h_next st) = [u]) as G2 by (cbn; unfold upd; now rewrite Nat.eqb_refl).
      change (c_parsed st1) with [u].
      rewrite (verify_ok [u] (u_name u) s (ok_one _ U) O). cbn [named find].
      rewrite (proj2 (text_eqb_eq _ _) eq_refl). unfold function_ptr. rewrite G1, G2. cbn [find].
      rewrite (proj2 (text_eqb_eq _ _) eq_refl). cbn [obind]. eexists. split; [reflexivity|].
      exact (inv_var st1 (Ideal (Some [u]) (i_vars i)) (h_next st) (u_name u) (u_code u) [u] J' eq_refl G1 G2).
  - (* CompileExpression *)
    destruct (i_known i) as [us0|] eqn:Ek; [|discriminate]. destruct K as (K1 & K2 & K3). rewrite K1.
    assert (i_known i <> None) as A by congruence.
    destruct (inv_new st i I A) as (J & J1 & J2 & J3). unfold compile_expression.
    assert (h_code (new_codegen st) (h_next st) = []) as Hc by (cbn; unfold upd; now rewrite Nat.eqb_refl).
    destruct (expression src s) as [|c|c] eqn:F.
    + injection E as <- <-. eexists. split; [reflexivity|exact J].
    + injection E as <- <-. eexists. split; [reflexivity|].
      exact (inv_compile _ (Ideal (Some []) (i_vars i)) [_] false _ J ltac:(discriminate) J1 Hc (ok_one _ (udf_sig_expr s c _ O))).
    + injection E as <- <-.
      pose proof (inv_compile _ (Ideal (Some []) (i_vars i)) [_] true _ J ltac:(discriminate) J1 Hc (ok_one _ (udf_sig_expr s c (lit "rapidudf_expresion") O))) as J'.
      match type of J' with inv ?x _ => set (st1 := x) in * end.
      assert (c_codegen st1 = Some (h_next st)) as G1 by reflexivity.
      match type of J' with inv _ (Ideal (Some (if true then ?x else _)) _) =>
        assert (h_code st1 (h_next st) = x) as G2 by (cbn; unfold upd; now rewrite Nat.eqb_refl) end.
      unfold function_ptr. rewrite G1, G2. cbn [find u_name].
      rewrite (proj2 (text_eqb_eq _ _) eq_refl). cbn [obind u_code]. eexists. split; [reflexivity|].
      exact (inv_var st1 _ (h_next st) _ c _ J' eq_refl G1 G2).
  - (* Default *)
    injection E as <- <-. eexists. split; [reflexivity|]. destruct I as [C N V _].
    constructor; cbn [with_vars h_count c_codegen vars h_next i_vars i_known c_alive c_parsed h_code]; try assumption.
    + intros s. rewrite holders_app, (C s). cbn. lia.
    + apply Forall2_app; [assumption|]. constructor; [reflexivity|constructor].
  - (* MoveNew *)
    destruct (nth_error (i_vars i) a) as [[|code| |]|] eqn:Ea; try (destruct (i_known i); discriminate).
    assert (Some (Ideal (i_known i) (set_nth a VMoved (i_vars i) ++ [VCode code]), Done true) = Some (i', e)) as E' by (destruct (i_known i); exact E).
    injection E' as <- <-. destruct I as [C N V _].
    destruct (Forall2_nth _ _ _ _ _ V Ea) as (x & Ex & Sx). rewrite Ex. destruct x as [x|]; [|contradiction].
    destruct Sx as (s & Rx & Fx). eexists. split; [reflexivity|].
    constructor; cbn [with_vars h_count c_codegen vars h_next i_vars i_known c_alive c_parsed h_code]; try assumption.
    + intros t. rewrite holders_app, (C t). pose proof (holders_set t a (Some (moved_from x)) (vars st) (Some x) Ex) as H.
      cbn [holds holders moved_from moved_into j_resource] in *. lia.
    + apply Forall2_app; [now apply Forall2_set_nth|]. constructor; [|constructor]. cbn. eauto.
  - (* Move *)
    assert (exists c w, nth_error (i_vars i) a = Some (VCode c) /\ nth_error (i_vars i) b = Some w /\ w <> VGone /\
      i' = Ideal (i_known i) (set_nth b (VCode c) (set_nth a VMoved (i_vars i))) /\ e = Done true) as (c & w & Ea & Eb & W & -> & ->).
    { destruct (nth_error (i_vars i) a) as [[|c| |]|]; try (destruct (i_known i); discriminate).
      destruct (nth_error (i_vars i) b) as [[|c'| |]|]; try (destruct (i_known i); discriminate);
        exists c; eexists; (split; [reflexivity|]); (split; [reflexivity|]); (split; [discriminate|]);
        destruct (i_known i); injection E as <- <-; auto. }
    clear E. destruct I as [C N V _].
    destruct (Forall2_nth _ _ _ _ _ V Ea) as (x & Ex & Sx). rewrite Ex. destruct x as [x|]; [|contradiction].
    destruct (Forall2_nth _ _ _ _ _ V Eb) as (y & Ey & Sy). rewrite Ey. destruct y as [y|]; [|destruct w; contradiction || (exfalso; now apply W)].
    destruct Sx as (s & Rx & Fx). destruct (Nat.eqb_spec a b) as [<-|D].
    + eexists. split; [reflexivity|]. constructor; cbn [i_vars i_known]; try assumption.
      replace (set_nth a (VCode c) (set_nth a VMoved (i_vars i))) with (i_vars i); [assumption|].
      clear -Ea. revert a Ea. induction (i_vars i) as [|z l IH]; intros [|a] Ea; cbn in *; try discriminate.
      * now injection Ea as ->.
      * f_equal. now apply IH.
    + eexists. split; [reflexivity|].
      pose proof (holders_set s a (Some (moved_from x)) (vars st) (Some x) Ex) as Ha'.
      assert (nth_error (set_nth a (Some (moved_from x)) (vars st)) b = Some (Some y)) as Ey'.
      { rewrite nth_set_nth. destruct (Nat.eqb_spec b a); [congruence|]. assumption. }
      assert (forall t, release (j_resource y) (h_count st) t + here t (j_resource y) = h_count st t)%nat as R.
      { intros t. apply release_count. intros t' Et. rewrite (C t').
        pose proof (holders_in t' (vars st) b (Some y) Ey) as Hi. cbn [holds] in Hi. rewrite Et, Nat.eqb_refl in Hi. lia. }
      constructor; cbn [with_vars h_count c_codegen vars h_next i_vars i_known c_alive c_parsed h_code]; try assumption.
      * intros t. specialize (R t). pose proof (holders_set t a (Some (moved_from x)) (vars st) (Some x) Ex) as H1.
        pose proof (holders_set t b (Some (moved_into x y)) _ (Some y) Ey') as H2. specialize (C t).
        cbn [holds moved_from moved_into j_resource] in H1, H2. unfold here in R. unfold here in C. unfold here. lia.
      * intros t L. specialize (R t). rewrite (N t L) in R. lia.
      * apply Forall2_set_nth; [now apply Forall2_set_nth|]. cbn. eauto.
  - (* Drop *)
    assert (exists w, nth_error (i_vars i) a = Some w /\ w <> VGone /\
      i' = Ideal (i_known i) (set_nth a VGone (i_vars i)) /\ e = Done true) as (w & Ea & W & -> & ->).
    { destruct (nth_error (i_vars i) a) as [[|c| |]|]; try (destruct (i_known i); discriminate);
        eexists; (split; [reflexivity|]); (split; [discriminate|]); destruct (i_known i); injection E as <- <-; auto. }
    clear E. destruct I as [C N V _].
    destruct (Forall2_nth _ _ _ _ _ V Ea) as (y & Ey & Sy). rewrite Ey. destruct y as [y|]; [|destruct w; contradiction || (exfalso; now apply W)].
    eexists. split; [reflexivity|].
    assert (forall t, release (j_resource y) (h_count st) t + here t (j_resource y) = h_count st t)%nat as R.
    { intros t. apply release_count. intros t' Et. rewrite (C t').
      pose proof (holders_in t' (vars st) a (Some y) Ey) as Hi. cbn [holds] in Hi. rewrite Et, Nat.eqb_refl in Hi. lia. }
    constructor; cbn [with_vars h_count c_codegen vars h_next i_vars i_known c_alive c_parsed h_code]; try assumption.
    + intros t. specialize (R t). pose proof (holders_set t a None (vars st) (Some y) Ey) as H2. specialize (C t).
      cbn [holds] in H2. unfold here in R. unfold here in C. unfold here. lia.
    + intros t L. specialize (R t). rewrite (N t L) in R. lia.
    + now apply Forall2_set_nth.
  - (* Call *)
    assert (exists c, nth_error (i_vars i) a = Some (VCode c) /\ i' = i /\ e = Ran c) as (c & Ea & -> & ->).
    { destruct (nth_error (i_vars i) a) as [[|c| |]|]; try (destruct (i_known i); discriminate).
      exists c. destruct (i_known i); injection E as <- <-; auto. }
    clear E. pose proof (I_vars _ _ I) as V. pose proof (I_count _ _ I) as C.
    destruct (Forall2_nth _ _ _ _ _ V Ea) as (x & Ex & Sx). rewrite Ex. destruct x as [x|]; [|contradiction].
    destruct Sx as (s & Rx & Fx). rewrite Fx. exists st. split; [|assumption].
    pose proof (holders_in s (vars st) a (Some x) Ex) as Hi. cbn [holds] in Hi. rewrite Rx, Nat.eqb_refl in Hi. specialize (C s).
    destruct (Nat.eqb_spec (h_count st s) 0); [lia|reflexivity].
  - (* DropCompiler *)
    destruct (i_known i) as [us|] eqn:Ek; [|discriminate]. injection E as <- <-. destruct K as (K1 & _). rewrite K1.
    eexists. split; [reflexivity|]. destruct I as [C N V _].
    assert (forall t, release (c_codegen st) (h_count st) t + here t (c_codegen st) = h_count st t)%nat as R.
    { intros t. apply release_count. intros t' Et. rewrite (C t'), Et. cbn [here]. rewrite Nat.eqb_refl. lia. }
    constructor; cbn [h_count c_codegen vars h_next i_vars i_known c_alive c_parsed h_code]; try assumption.
    + intros t. specialize (R t). specialize (C t). cbn [here]. lia.
    + intros t L. specialize (R t). rewrite (N t L) in R. lia.
    + auto.
Qed.

Lemma inv_start : inv start (Ideal (Some []) []).
Proof.
  constructor; cbn; auto. split; [reflexivity|]. split; [constructor|reflexivity].
Qed.
Theorem run_ok os es : Forall op_ok os ->
  ideal_run source functions function expression (Ideal (Some []) []) os = Some es ->
  run source functions function expression start os = Ret es.
Proof.
  pose proof inv_start as I. revert I. generalize start. generalize (Ideal (Some []) []). intros i st I O. revert st i es I.
  induction O as [|o os Ho O IH]; intros st i es I E; cbn [ideal_run run] in *.
  - now injection E as <-.
  - destruct (ideal_step source functions function expression i o) as [[i' e]|] eqn:Es; [|discriminate].
    destruct (step_ok st i o i' e I Ho Es) as (st' & -> & I'). cbn [obind].
    destruct (ideal_run source functions function expression i' os) as [es'|] eqn:Er; [|discriminate].
    injection E as <-. now rewrite (IH st' i' es' I' Er).
Qed.
End Run.

(** ** Consequences *)
Section Consequences.
Variable source : Type.
Variable functions : source -> built (list udf).
Variable function : source -> built udf.
Variable expression : source -> signature -> built nat.
Hypothesis functions_ok : forall src us, functions src = Code us \/ functions src = NoCode us -> ok_udfs us.
Hypothesis function_ok : forall src u, function src = Code u \/ function src = NoCode u -> signature_ok (udf_signature u).
Notation ideal_run := (ideal_run source functions function expression).
Notation ideal_step := (ideal_step source functions function expression).
Notation run := (run source functions function expression).

Fixpoint ideal_final (i : ideal) (os : list (op source)) : ideal :=
  match os with
  | [] => i
  | o :: os => match ideal_step i o with Some (i', _) => ideal_final i' os | None => i end
  end.
Lemma ideal_run_app i os os' es : ideal_run i os = Some es ->
  ideal_run i (os ++ os') = option_map (app es) (ideal_run (ideal_final i os) os').
Proof.
  revert i es. induction os as [|o os IH]; intros i es E; cbn in *.
  - injection E as <-. now destruct (ideal_run i os').
  - destruct (ideal_step i o) as [[i' e]|]; [|discriminate]. destruct (ideal_run i' os) as [es'|] eqn:E'; [|discriminate].
    injection E as <-. rewrite (IH i' es' E'). now destruct (ideal_run (ideal_final i' os) os').
Qed.
Lemma compiler_lives i os es : ~ In ODropCompiler os -> i_known i <> None -> ideal_run i os = Some es -> i_known (ideal_final i os) <> None.
Proof.
  revert i es. induction os as [|o os IH]; intros i es D K E; cbn in *; [assumption|].
  destruct (ideal_step i o) as [[i' e]|] eqn:Es; [|discriminate]. destruct (ideal_run i' os) as [es'|] eqn:E'; [|discriminate].
  apply (IH i' es'); [intros H; apply D; now right| |exact E'].
  destruct o; cbn in Es; try (exfalso; apply D; now left);
    repeat match type of Es with context [match ?x with _ => _ end] => destruct x eqn:? end; try discriminate;
    injection Es as <- <-; cbn; congruence.
Qed.

Lemma load_any pre src us name s es : Forall op_ok pre -> ~ In ODropCompiler pre -> signature_ok s ->
  ideal_run (Ideal (Some []) []) pre = Some es -> functions src = Code us ->
  run start (pre ++ [OCompileSource src; OLoad name s]) =
  Ret (es ++ [Done true; Done (match find (fun u => text_eqb (u_name u) name) us with Some _ => true | None => false end)]).
Proof.
  intros P D S E F. apply (run_ok source functions function expression functions_ok function_ok).
  - apply Forall_app. split; [assumption|]. constructor; [exact Logic.I|]. constructor; [exact S|constructor].
  - rewrite (ideal_run_app _ _ _ _ E). pose proof (compiler_lives (Ideal (Some []) []) pre es D ltac:(discriminate) E) as K.
    destruct (ideal_final (Ideal (Some []) []) pre) as [kn vs]. cbn [i_known] in K. destruct kn as [ks|]; [|contradiction].
    cbn. rewrite F. cbn. unfold code_of. destruct (find _ us); reflexivity.
Qed.
Lemma compile_any pre src u s es : Forall op_ok pre -> ~ In ODropCompiler pre -> signature_ok s ->
  ideal_run (Ideal (Some []) []) pre = Some es -> function src = Code u ->
  run start (pre ++ [OCompileFunction src s]) = Ret (es ++ [Done true]).
Proof.
  intros P D S E F. apply (run_ok source functions function expression functions_ok function_ok).
  - apply Forall_app. split; [assumption|]. constructor; [exact S|constructor].
  - rewrite (ideal_run_app _ _ _ _ E). pose proof (compiler_lives (Ideal (Some []) []) pre es D ltac:(discriminate) E) as K.
    destruct (ideal_final (Ideal (Some []) []) pre) as [kn vs]. cbn [i_known] in K. destruct kn as [ks|]; [|contradiction].
    cbn. rewrite F. reflexivity.
Qed.
End Consequences.
