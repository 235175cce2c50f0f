(** Proofs for C75. *)
From Coq Require Import Ascii String List Bool Arith ZArith Lia.
Import ListNotations.
From Verif Require Import Base Lexer_Model Lexer_Proofs DType_Spec DType_Model DType_Proofs DynObject_Model Function_Model
  Names_Spec Names_Model Names_Proofs Members_Spec Members_Model Members_Proofs Access_Spec Access_Model.
Local Open Scope Z_scope.

(** ** Types *)
Definition pointee (t : cpptype) : cpptype := match t with CPtr t => t | t => t end.
Lemma plain_pointee t : plain t -> plain (pointee t).
Proof. intros [S F]. destruct t; cbn [pointee]; try (split; assumption). split; [exact S|]. destruct t; try discriminate F; exact F. Qed.
Lemma plain_not_ptrptr t : plain (CPtr t) -> isP t = false.
Proof. intros [_ F]. destruct t; try reflexivity. discriminate F. Qed.
Lemma L2047 : lim_ok 2047.
Proof. apply lim_ok_2047. lia. Qed.

(** The words that describe plain types. *)
Lemma plain_word t : plain t -> isP t = false -> exists k a b n, get_dtype t = DT (mk_ctrl k 0 a b n) None /\ 1 <= a < 2047 /\
  match t with
  | CBase f => k = 0 /\ a = f
  | CPtr _ => False
  | CSeq KVector _ => k = COLLECTION_VECTOR
  | CSeq KSet _ => k = COLLECTION_SET
  | CSeq KUnorderedSet _ => k = COLLECTION_UNORDERED_SET
  | CSeq KAbslSpan _ => k = COLLECTION_ABSL_SPAN
  | CSeq KSimdVector _ => k = COLLECTION_SIMD_VECTOR
  | CArray _ _ => k = COLLECTION_ARRAY
  | CMap o _ _ => k = if o then COLLECTION_MAP else COLLECTION_UNORDERED_MAP
  | CPair _ _ | CTuple1 _ => k = COLLECTION_TUPLE
  end.
Proof.
  intros [S F] P. pose proof L2047 as L. destruct t; try discriminate P; cbn [flat] in F.
  - rewrite (shape_base 2047) by assumption. cbn in S. exists 0, f, 0, 0. repeat split; lia.
  - destruct t; try discriminate F. rewrite (shape_seq 2047) by assumption. cbn in S. exists (seq_code k), f, 0, 0.
    repeat split; try lia. destruct k; reflexivity.
  - destruct t; try discriminate F. rewrite (shape_array 2047) by assumption. cbn in S. destruct S as [(g & [= <-] & S) _].
    exists 1, f, 0, n. repeat split; lia.
  - apply andb_true_iff in F. destruct F as [F1 F2]. destruct t1, t2; try discriminate. destruct S as [S1 S2].
    rewrite (shape_map 2047) by assumption. cbn in S1. eexists _, _, _, _. split; [reflexivity|]. cbn. split; [lia|]. destruct ordered; reflexivity.
  - apply andb_true_iff in F. destruct F as [F1 F2]. destruct t1, t2; try discriminate. destruct S as [S1 S2].
    rewrite (shape_pair 2047) by assumption. cbn in S1. eexists _, _, _, _. split; [reflexivity|]. cbn. split; [lia|reflexivity].
  - destruct t; try discriminate F. rewrite (shape_tuple1 2047) by assumption. cbn in S. eexists _, _, _, _. split; [reflexivity|]. cbn. split; [lia|reflexivity].
Qed.

Lemma plain_ptr_word t : plain (CPtr t) -> get_dtype (CPtr t) = to_ptr (get_dtype t).
Proof.
  intros P. rewrite (shape_ptr 2047) by (exact L2047 || apply P). now rewrite (plain_not_ptrptr t P).
Qed.
Lemma is_ptr_plain t : plain t -> is_ptr (get_dtype t) = isP t.
Proof. intros [S _]. now apply (is_ptr_get 2047); [exact L2047|]. Qed.
Lemma ptr_to_plain t : plain t -> ptr_to (get_dtype t) = Ret (get_dtype (pointee t)).
Proof.
  intros P. pose proof (plain_pointee t P) as Q. assert (isP (pointee t) = false) as NP.
  { destruct t; cbn; try reflexivity. now apply plain_not_ptrptr. }
  destruct (plain_word (pointee t) Q NP) as (k & a & b & n & W & A & _).
  assert (get_dtype t = get_dtype (pointee t) \/ get_dtype t = to_ptr (get_dtype (pointee t))) as [-> | ->].
  { destruct t; auto. right. now apply plain_ptr_word. }
  - rewrite W. unfold ptr_to, is_complex. cbn. unfold DATA_COMPLEX_OBJECT. destruct (Z.eqb_spec a (2 ^ 14 - 1)); [lia|reflexivity].
  - rewrite W. unfold ptr_to, is_complex. cbn. unfold DATA_COMPLEX_OBJECT. destruct (Z.eqb_spec a (2 ^ 14 - 1)); [lia|reflexivity].
Qed.

(** The checks and the code generator agree on which fields are values, but for bool. *)
Definition field_is_value (f : dtype) : bool :=
  is_number f || is_string_view f || is_std_string_view f || is_simd_vector f || is_absl_span f || is_ptr f.
Definition field_is_inner (f : dtype) : bool :=
  negb (is_primitive f) && negb (is_ptr f) && negb (is_simd_vector f) && negb (is_std_string_view f) &&
  negb (is_string_view f) && negb (is_absl_span f).
Ltac bools := unfold is_number, is_string_view, is_std_string_view, is_simd_vector, is_simd_vector_any, is_absl_span, is_ptr,
  is_primitive, is_data, is_fundamental, is_collection, llvm_size, DATA_BIT, DATA_U8, DATA_I8, DATA_U16, DATA_I16, DATA_F16, DATA_U32, DATA_I32,
  DATA_F32, DATA_U64, DATA_I64, DATA_F64, DATA_F80, DATA_STD_STRING_VIEW, DATA_STRING_VIEW, COLLECTION_ABSL_SPAN, COLLECTION_SIMD_VECTOR in *;
  cbn [ctrl_of container ptr_bit t0].
(** Comparisons of a large number. *)
Ltac large := repeat match goal with
  | |- context [?a =? ?b] => replace (a =? b) with false by (symmetry; apply Z.eqb_neq; lia)
  | |- context [?a <=? ?b] =>
      first [replace (a <=? b) with false by (symmetry; apply Z.leb_gt; lia)|replace (a <=? b) with true by (symmetry; apply Z.leb_le; lia)]
  end.
Lemma field_kind f : plain f -> f <> CBase 3 ->
  field_is_value (get_dtype f) = negb (field_is_inner (get_dtype f)) /\
  (field_is_value (get_dtype f) = true <-> value_type f) /\
  (field_is_value (get_dtype f) = true -> llvm_size (get_dtype f) = Some (size_in_bytes f)).
Proof.
  intros P N. destruct (isP f) eqn:PT.
  - destruct f; try discriminate PT. unfold field_is_value, field_is_inner. unfold llvm_size. rewrite !(is_ptr_plain _ P). cbn [isP negb].
    rewrite !orb_true_r, !andb_false_r. cbn. repeat split; auto.
  - destruct (plain_word f P PT) as (k & a & b & n & W & A & K). unfold field_is_value, field_is_inner. rewrite W. bools.
    destruct f; try discriminate PT; cbn [value_type size_in_bytes].
    + destruct K as [-> ->]. assert (f <> 3) by congruence. clear W P PT N. cbn [Z.eqb negb andb orb].
      destruct (Z_lt_dec f 26) as [B|B].
      * assert (In f (map Z.of_nat (seq 1 25))) as I by (apply in_map_iff; exists (Z.to_nat f); split; [lia|apply in_seq; lia]).
        cbn in I. repeat (destruct I as [<-|I]; [cbn; repeat split; intros; try reflexivity; try discriminate; try lia; auto|]). destruct I.
      * large. cbn. repeat split; intros; try discriminate; lia.
    + destruct k0; subst k; unfold COLLECTION_VECTOR, COLLECTION_SET, COLLECTION_UNORDERED_SET; cbn;
        (split; [reflexivity|]); (split; [split; [intros X; try discriminate X; auto|intros [X|X]; try discriminate X; reflexivity]|]); try discriminate; auto.
    + subst k. unfold COLLECTION_ARRAY. cbn. split; [reflexivity|]. split; [split; [discriminate|tauto]|discriminate].
    + destruct ordered; subst k; unfold COLLECTION_MAP, COLLECTION_UNORDERED_MAP; cbn; (split; [reflexivity|]); (split; [split; [discriminate|tauto]|discriminate]).
    + subst k. unfold COLLECTION_TUPLE. cbn. split; [reflexivity|]. split; [split; [discriminate|tauto]|discriminate].
    + subst k. unfold COLLECTION_TUPLE. cbn. split; [reflexivity|]. split; [split; [discriminate|tauto]|discriminate].
Qed.

Lemma plain_ptr_of f : plain f -> isP f = false -> plain (CPtr f).
Proof. intros [S F] N. split; [exact S|]. destruct f; try discriminate N; exact F. Qed.
Lemma first_in {A} (P : A -> Prop) l a : first P l a -> In a l /\ P a.
Proof. intros (l1 & l2 & -> & H & _). split; [apply in_or_app; right; now left|exact H]. Qed.

(** On which values methods are called. *)
Definition receives (d : dtype) : bool := is_simd_vector d || is_ptr d || is_string_view d || is_std_string_view d.
Lemma receives_ok u : plain u -> (receives (get_dtype u) = true <-> isP u = true \/ by_value u).
Proof.
  intros P. unfold receives. rewrite (is_ptr_plain u P). destruct (isP u) eqn:N; [rewrite orb_true_r; cbn; tauto|]. rewrite orb_false_r.
  destruct (plain_word u P N) as (k & a & b & n & W & A & K). rewrite W.
  unfold is_simd_vector, is_simd_vector_any, is_string_view, is_std_string_view, is_data, is_fundamental, DATA_STRING_VIEW, DATA_STD_STRING_VIEW, COLLECTION_SIMD_VECTOR.
  cbn [ctrl_of container ptr_bit t0]. destruct u; try discriminate N; cbn [by_value].
  - destruct K as [-> ->]. cbn [Z.eqb andb orb]. rewrite orb_false_r, !orb_true_iff, !Z.eqb_eq. intuition discriminate.
  - destruct k0; subst k; cbn; intuition discriminate.
  - subst k. cbn; intuition discriminate.
  - destruct ordered; subst k; cbn; intuition discriminate.
  - subst k. cbn; intuition discriminate.
  - subst k. cbn; intuition discriminate.
Qed.
Lemma receives_neg d : negb (is_simd_vector d) && negb (is_ptr d) && negb (is_string_view d) && negb (is_std_string_view d) = negb (receives d).
Proof. unfold receives. now rewrite !negb_orb. Qed.

Section Chain.
Context {E : Type}.
Variable arg_ty : E -> option dtype.
Variable arg_value : E -> mem -> outcome (dtype * Z).
Variable var : text -> option (dtype * Z).
Variable text_word : text -> Z.
Variable conv : dtype -> dtype -> Z -> mem -> outcome Z.
Variable ext : Z -> list Z -> mem -> outcome (Z * mem).
Variable json : bool -> desc.
Variable F : factory.
Variable os : list offer.
Notation R := (fst (offer_members os [])).
Hypothesis OS : Forall (ordinary plain) os.
Hypothesis CONV : forall d p w m, dtype_eqb d p = Ret true -> conv d p w m = Ret w.
Hypothesis APART : methods_apart (fun t => member_name F (get_dtype t)) json_name os.
Hypothesis JNAME : forall b, d_name (json b) = json_name b.
Hypothesis JRET : forall b, d_return (json b) = get_dtype (CPtr (CBase 20)).

Notation kv := (fun k (_ : mem) => key_value var text_word k).
Notation step := (step os arg_value kv conv ext (fun b => d_args (json b)) (fun b => d_func (json b))).
Notation steps := (steps os arg_value kv conv ext (fun b => d_args (json b)) (fun b => d_func (json b))).
Notation validate_chain := (validate_chain arg_ty var json F R).
Notation validate_access := (validate_access arg_ty var json F R).

Lemma REG : Forall (registrable plain) os.
Proof. eapply Forall_impl; [|exact OS]. intros o H. apply H. Qed.

Lemma found t n mb : plain t -> get_member R (get_dtype t) n = Some mb ->
  (forall d, m_field mb = Some d -> exists f off, first (a_field t n) os (OField t n f off) /\ d = get_dtype f /\ m_offset mb = off /\
     plain f /\ f <> CBase 3 /\ 0 <= off < 2 ^ 31) /\
  (forall d, m_func mb = Some d -> exists by_ptr ret args f, first (a_method t n) os (OMethod t n by_ptr ret args f) /\ plain ret /\
     d = Desc n (get_dtype ret) (get_dtype (if by_ptr then CPtr t else t) :: map get_dtype args) f None false).
Proof.
  intros P G. pose proof (first_wins os REG t n P) as H. rewrite G in H. destruct H as (_ & _ & HF & HM). split.
  - intros d D. unfold says_field in HF. rewrite D in HF. destruct HF as (f & off & Hf & -> & <-). exists f, (m_offset mb).
    destruct (first_in _ _ _ Hf) as [I _]. pose proof (proj1 (Forall_forall _ _) OS _ I) as ((_ & _ & B) & C & D' & D'').
    exact (conj Hf (conj eq_refl (conj eq_refl (conj C (conj D' (conj (proj1 B) D'')))))) .
  - intros d D. unfold says_method in HM. rewrite D in HM. destruct HM as (b & ret & args & f & Hf & ->). exists b, ret, args, f.
    destruct (first_in _ _ _ Hf) as [I _]. pose proof (proj1 (Forall_forall _ _) OS _ I) as (_ & C). auto.
Qed.

(** The functions that the checks ask to declare. *)
Definition use_ok (u : use) : Prop :=
  match u with
  | UMember P n f => exists t mb, plain t /\ P = get_dtype t /\ get_member R P n = Some mb /\ m_func mb = Some f
  | UFunc f => exists b, f = json b
  end.
(** Types that the checks meet. *)
Definition checked (T : dtype) : Prop := exists t, plain t /\ T = get_dtype t.
Lemma checked_ptr t : plain t -> ptr_to (get_dtype t) = Ret (get_dtype (pointee t)) /\ plain (pointee t).
Proof. intros P. split; [now apply ptr_to_plain|now apply plain_pointee]. Qed.

Definition inner_of (f : dtype) : dtype := if field_is_inner f then to_ptr f else f.
Definition field_type (f : cpptype) : cpptype := if field_is_value (get_dtype f) then f else CPtr f.
Lemma field_type_ok f : plain f -> f <> CBase 3 -> plain (field_type f) /\ get_dtype (field_type f) = inner_of (get_dtype f) /\
  (field_is_value (get_dtype f) = false -> get_dtype (CPtr f) = to_ptr (get_dtype f)).
Proof.
  intros P N. destruct (field_kind f P N) as (K & _ & _). unfold field_type, inner_of. rewrite K.
  destruct (field_is_inner (get_dtype f)) eqn:I; cbn [negb].
  - assert (isP f = false) as NP. { destruct f; try reflexivity. unfold field_is_inner in I. rewrite (is_ptr_plain _ P) in I. cbn [isP negb] in I. now rewrite andb_false_r in I. }
    assert (plain (CPtr f)) by now apply plain_ptr_of. repeat split; try apply H; intros; now apply plain_ptr_word.
  - repeat split; try apply P. discriminate.
Qed.

Ltac bind H := unfold obind at 1 in H;
  match type of H with
  | match ?e with _ => _ end = _ => let B := fresh "B" in destruct e eqn:B; try discriminate H
  end.

Lemma number_plain t : plain t -> is_integer (get_dtype t) || is_float (get_dtype t) = true -> exists f, t = CBase f /\ 4 <= f <= 15.
Proof.
  intros P H. destruct (isP t) eqn:N.
  - exfalso. assert (ptr_bit (ctrl_of (get_dtype t)) =? 0 = false) as B.
    { pose proof (is_ptr_plain t P) as I. unfold is_ptr in I. rewrite N in I. destruct (Z.eqb_spec (ptr_bit (ctrl_of (get_dtype t))) 0) as [X|X]; [|reflexivity].
      rewrite X in I. discriminate I. }
    unfold is_integer, is_float, is_data, is_fundamental in H. rewrite B in H. discriminate H.
  - destruct (plain_word t P N) as (k & a & b & n & W & A & K). rewrite W in H.
    unfold is_integer, is_float, is_data, is_fundamental in H. cbn [ctrl_of container ptr_bit t0] in H.
    assert (k = 0) as K0. { destruct (Z.eqb_spec k 0) as [|X]; [assumption|]. cbn in H. discriminate H. }
    destruct t; try discriminate N; [|exfalso..]; [|try (destruct k0); try (destruct ordered); rewrite K0 in K; discriminate K..].
    destruct K as [_ ->]. subst k. cbn [Z.eqb andb orb] in H. exists f. split; [reflexivity|].
    unfold DATA_U8, DATA_I64, DATA_F16, DATA_F32, DATA_F64, DATA_F80 in H. rewrite !orb_true_iff, !andb_true_iff, !Z.leb_le, !Z.eqb_eq in H. lia.
Qed.

Lemma validate_access_ok t a T' r us ns : plain t -> validate_access (get_dtype t) a = Ret (T', r, us, ns) ->
  Forall use_ok us /\ length ns = (if is_index a then 1 else 0)%nat.
Proof.
  intros P V. destruct (checked_ptr t P) as [PT PP]. destruct a as [n|n es|k]; cbn [Access_Model.validate_access] in V.
  - unfold validate_field in V. rewrite PT in V. cbn [obind] in V. destruct (get_member R (get_dtype (pointee t)) n) as [mb|]; [|discriminate V].
    destruct (m_field mb); [|discriminate V]. injection V as <- <- <- <-. split; [constructor|reflexivity].
  - unfold validate_call in V. destruct (forallb _ es); [|discriminate V]. rewrite PT in V. cbn [obind] in V.
    destruct (get_member R (get_dtype (pointee t)) n) as [mb|] eqn:G; [|discriminate V].
    destruct (m_func mb) as [f|] eqn:M; [|discriminate V]. injection V as <- <- <- <-. split; [|reflexivity].
    constructor; [|constructor]. cbn. exists (pointee t), mb. auto.
  - unfold validate_index in V. destruct (is_ptr_to DATA_JSON (get_dtype t)) as [j| | |] eqn:J; try discriminate V. cbn [obind] in V.
    destruct (has_get (get_dtype t)) as [g| | |] eqn:G; try discriminate V. cbn [obind] in V.
    destruct (j || g); [|discriminate V]. cbn [negb] in V. destruct j.
    + destruct (json_by_name var k) as [b| | |]; try discriminate V. cbn [obind] in V. injection V as <- <- <- <-. split; [|reflexivity].
      constructor; [|constructor]. cbn. eauto.
    + rewrite PT in V. cbn [obind] in V. destruct (get_member R (get_dtype (pointee t)) (lit "get")) as [mb|] eqn:GM; [|discriminate V].
      destruct (m_func mb) as [f|] eqn:M; [|discriminate V].
      destruct (if is_ptr (d_return f) then _ else _) as [ret| | |]; try discriminate V. cbn [obind] in V.
      destruct (member_name F (get_dtype (pointee t)) (lit "get")) as [nm| | |]; try discriminate V. cbn [obind] in V.
      injection V as <- <- <- <-. split; [|reflexivity]. constructor; [|constructor]. cbn. exists (pointee t), mb. auto.
Qed.

(** The checked type and the type of the value. *)
Definition seen (t u : cpptype) : Prop := t = u \/ (exists f, t = CBase f /\ u = CPtr (CBase f) /\ 4 <= f <= 15).
Lemma seen_pointee t u : seen t u -> pointee t = pointee u.
Proof. intros [->|(f & -> & -> & _)]; reflexivity. Qed.

Definition known (X : list (text * desc)) : Prop := forall s f, find_text X s = Some f ->
  (exists t n mb, plain t /\ member_name F (get_dtype t) n = Ret s /\ get_member R (get_dtype t) n = Some mb /\ m_func mb = Some f) \/
  (exists b, f = json b /\ s = json_name b).
Lemma externs_known us : Forall use_ok us -> forall X acc, known acc -> externs F us acc = Ret X -> known X.
Proof.
  induction 1 as [|u us U _ IH]; intros X acc A E1; cbn in E1.
  - now injection E1 as <-.
  - destruct u as [P n f|f].
    + destruct (member_name F P n) as [s| | |] eqn:N; try discriminate E1. cbn in E1. eapply IH; [|exact E1].
      intros s' f' H. cbn in H. destruct (text_eqb s s') eqn:Q; [|now apply A].
      apply text_eqb_eq in Q. subst s'. injection H as <-. left. destruct U as (t & mb & PT & -> & G & M). eauto 10.
    + eapply IH; [|exact E1]. intros s' f' H. cbn in H. destruct (text_eqb (d_name f) s') eqn:Q; [|now apply A].
      apply text_eqb_eq in Q. subst s'. injection H as <-. right. destruct U as (b & ->). exists b. split; [reflexivity|apply JNAME].
Qed.
Lemma method_known X t n mb f s g : known X -> plain t -> get_member R (get_dtype t) n = Some mb -> m_func mb = Some f ->
  member_name F (get_dtype t) n = Ret s -> find_text X s = Some g -> g = f.
Proof.
  intros K P G M N FI. destruct (found t n mb P G) as [_ FM]. destruct (FM f M) as (b & ret & args & fn & H & _).
  destruct (first_in _ _ _ H) as [I _]. destruct (APART _ _ _ _ _ _ I _ N) as [A1 A2].
  destruct (K _ _ FI) as [(t' & n' & mb' & P' & N' & G' & M')|(j & _ & ->)]; [|destruct (A1 j eq_refl)].
  destruct (found t' n' mb' P' G') as [_ FM']. destruct (FM' g M') as (b' & ret' & args' & fn' & H' & _).
  destruct (first_in _ _ _ H') as [I' _]. destruct (A2 _ _ _ _ _ _ I' N') as [-> ->]. congruence.
Qed.
Lemma json_known X b g : known X -> find_text X (json_name b) = Some g -> g = json b.
Proof.
  intros K FI. destruct (K _ _ FI) as [(t' & n' & mb' & P' & N' & G' & M')|(j & -> & J)].
  - destruct (found t' n' mb' P' G') as [_ FM']. destruct (FM' g M') as (b' & ret' & args' & fn' & H' & _).
    destruct (first_in _ _ _ H') as [I' _]. destruct (APART _ _ _ _ _ _ I' _ N') as [A1 _]. destruct (A1 b eq_refl).
  - destruct b, j; try reflexivity; discriminate J.
Qed.

Lemma call_words_passes m : forall vs ps ws, call_words conv vs ps m = Ret ws -> passes conv m vs ps ws.
Proof.
  induction vs as [|[d w] vs IH]; intros [|p ps] ws H; cbn in H; try discriminate H.
  - injection H as <-. split; [constructor|reflexivity].
  - destruct (dtype_eqb d p) as [same| | |] eqn:Q; try discriminate H. cbn in H.
    destruct (if same then Ret w else conv d p w m) as [w'| | |] eqn:C; try discriminate H. cbn in H.
    destruct (call_words conv vs ps m) as [ws'| | |] eqn:W; try discriminate H. cbn in H. injection H as <-.
    destruct (IH ps ws' W) as [A B]. split; [|cbn; congruence]. cbn. constructor; [|exact A]. cbn.
    destruct same; [|exact C]. injection C as <-. now apply CONV.
Qed.
Lemma call_function_ok X s f vs m v' m' : find_text X s = Some f -> call_function conv ext X s vs m = Ret (v', m') ->
  exists ws x, passes conv m vs (d_args f) ws /\ ext (d_func f) ws m = Ret (x, m') /\ v' = Val (d_return f) (Imm x).
Proof.
  intros FI C. unfold call_function in C. rewrite FI in C. destruct (negb _); [discriminate C|].
  destruct (call_words conv vs (d_args f) m) as [ws| | |] eqn:W; try discriminate C. cbn in C.
  destruct (ext (d_func f) ws m) as [[x m1]| | |] eqn:X1; try discriminate C. cbn in C. injection C as <- <-.
  exists ws, x. split; [now apply call_words_passes|auto].
Qed.
Lemma call_found X s vs m r : call_function conv ext X s vs m = Ret r -> exists f, find_text X s = Some f.
Proof. unfold call_function. destruct (find_text X s); [eauto|discriminate]. Qed.
Lemma arg_values_ok es m : forall vs, arg_values arg_value es m = Ret vs -> Forall2 (fun e v => arg_value e m = Ret v) es vs.
Proof.
  induction es as [|e es IH]; intros vs H; cbn in H; [injection H as <-; constructor|].
  destruct (arg_value e m) as [v| | |] eqn:V; try discriminate H. cbn in H. destruct (arg_values arg_value es m) as [vs'| | |]; try discriminate H.
  cbn in H. injection H as <-. constructor; auto.
Qed.
Lemma offset_wraps w off : 0 <= off < 2 ^ 31 -> wrapu 64 (w + wraps 32 off) = (w + off) mod 2 ^ 64.
Proof.
  intros H. unfold wrapu, wraps. f_equal. f_equal. change (2 ^ 31) with 2147483648 in H.
  change (2 ^ 32) with 4294967296. change (2 ^ (32 - 1)) with 2147483648. rewrite Z.mod_small by lia.
  destruct (Z.ltb_spec off 2147483648); [reflexivity|lia].
Qed.

Lemma json_ptr t : plain t -> is_ptr_to DATA_JSON (get_dtype t) = Ret true -> t = CPtr (CBase 20).
Proof.
  intros P H. unfold is_ptr_to in H. rewrite (is_ptr_plain t P) in H. destruct (isP t) eqn:N; [|discriminate H].
  destruct (checked_ptr t P) as [PT PP]. rewrite PT in H. cbn [obind] in H. injection H as H.
  destruct t; try discriminate N. cbn [pointee] in *.
  destruct (plain_word t PP (plain_not_ptrptr _ P)) as (k & a & b & n & W & A & K). rewrite W in H.
  unfold is_data, is_fundamental in H. cbn [ctrl_of container ptr_bit t0] in H. apply andb_true_iff in H. destruct H as [H1 H2].
  apply andb_true_iff in H1. destruct H1 as [_ H1]. apply Z.eqb_eq in H1, H2.
  destruct t; cbn in K; [destruct K as [_ <-]; now rewrite H2| | | | | |]; exfalso;
    [destruct K|destruct k0; rewrite K in H1; discriminate H1|rewrite K in H1; discriminate H1|
     destruct ordered; rewrite K in H1; discriminate H1|rewrite K in H1; discriminate H1|rewrite K in H1; discriminate H1].
Qed.
Lemma brackets_ptr t : plain t -> has_get (get_dtype t) = Ret true -> exists p, t = CPtr p /\ with_brackets p.
Proof.
  intros P H. unfold has_get in H. rewrite (is_ptr_plain t P) in H. destruct (isP t) eqn:N; [|discriminate H].
  destruct (checked_ptr t P) as [PT PP]. rewrite PT in H. cbn [obind] in H. injection H as H.
  destruct t; try discriminate N. cbn [pointee] in *. exists t. split; [reflexivity|].
  destruct (plain_word t PP (plain_not_ptrptr _ P)) as (k & a & b & n & W & A & K). rewrite W in H.
  unfold is_vector, is_map, is_unordered_map in H. cbn [ctrl_of container ptr_bit t0] in H.
  destruct t; cbn in K |- *; auto; [destruct K as [-> _]; discriminate H|destruct k0; auto; rewrite K in H; discriminate H|rewrite K in H; discriminate H|
     rewrite K in H; discriminate H|rewrite K in H; discriminate H].
Qed.
Lemma by_name_ok k b kx : json_by_name var k = Ret b -> key_value var text_word k = Ret kx -> by_name k (fst kx) b.
Proof.
  destruct k as [n|s|x]; cbn; try (intros; congruence). destruct (var x) as [[d w]|]; [|discriminate]. intros H [= <-]. cbn [fst].
  destruct (is_integer d) eqn:I.
  - injection H as <-. unfold is_integer, is_fundamental in I. apply andb_true_iff in I. destruct I as [I0 I]. apply andb_true_iff in I. destruct I as [I1 I2].
    apply andb_true_iff in I0. destruct I0 as [I3 I4]. apply Z.eqb_eq in I3, I4. apply Z.leb_le in I1, I2. unfold DATA_I64, DATA_U8 in *. auto.
  - destruct (is_string_view d || is_std_string_view d) eqn:S1; [|discriminate]. injection H as <-.
    apply orb_true_iff in S1. unfold is_string_view, is_std_string_view, is_data, is_fundamental, DATA_STRING_VIEW, DATA_STD_STRING_VIEW in S1.
    rewrite !andb_true_iff, !Z.eqb_eq in S1. tauto.
Qed.
Lemma access_step t u v m a T' r us ns X names idx v' m' : plain t -> plain u -> seen t u -> v_ty v = get_dtype u ->
  validate_access (get_dtype t) a = Ret (T', r, us, ns) -> known X ->
  (forall name, ns = [name] -> nth_error names idx = Some name) ->
  build_access arg_value var text_word conv ext F X names idx v r m = Ret (v', m') ->
  exists t' u', plain t' /\ plain u' /\ seen t' u' /\ T' = get_dtype t' /\ v_ty v' = get_dtype u' /\
    step (u, word v m, m) a (u', word v' m', m').
Proof.
  intros P U SN VT V K NM B. destruct (checked_ptr t P) as [PT PP]. pose proof (seen_pointee _ _ SN) as SP.
  destruct a as [n|n es|k]; cbn [Access_Model.validate_access] in V.
  - unfold validate_field in V. rewrite PT in V. cbn [obind] in V. destruct (get_member R (get_dtype (pointee t)) n) as [mb|] eqn:G; [|discriminate V].
    destruct (m_field mb) as [d|] eqn:MF; [|discriminate V]. injection V as <- <- <- <-.
    destruct (found _ _ _ PP G) as [FF _]. destruct (FF _ MF) as (f & off & H & -> & O & PF & NB & OFF). clear FF.
    cbn [build_access] in B. rewrite VT in B. rewrite (is_ptr_plain u U) in B. destruct (isP u) eqn:IU; [|discriminate B]. cbn [negb] in B.
    rewrite MF in B. destruct u as [|p| | | | |]; try discriminate IU. cbn [pointee] in SP. rewrite SP in H.
    destruct (field_type_ok f PF NB) as (FT & FG & FP). destruct (field_kind f PF NB) as (FK1 & FK2 & FK3).
    exists (field_type f), (field_type f). split; [exact FT|]. split; [exact FT|]. split; [now left|].
    split; [symmetry; exact FG|].
    unfold get_struct_field in B. fold (field_is_value (get_dtype f)) in B. rewrite O in B. rewrite (offset_wraps _ _ OFF) in B.
    unfold field_type. destruct (field_is_value (get_dtype f)) eqn:FV.
    + rewrite (FK3 eq_refl) in B. cbn [obind] in B. injection B as <- <-. split; [reflexivity|]. cbn [word v_loc]. apply step_read; [exact H|tauto].
    + cbn [obind] in B. injection B as <- <-. split; [symmetry; exact (FP eq_refl)|]. cbn [word v_loc]. apply step_inner; [exact H|].
      intros X1. apply FK2 in X1. discriminate X1.
  - unfold validate_call in V. destruct (forallb _ es); [|discriminate V]. rewrite PT in V. cbn [obind] in V.
    destruct (get_member R (get_dtype (pointee t)) n) as [mb|] eqn:G; [|discriminate V].
    destruct (m_func mb) as [f|] eqn:MF; [|discriminate V]. injection V as <- <- <- <-.
    cbn [build_access] in B. rewrite receives_neg, VT in B. destruct (receives (get_dtype u)) eqn:RC; [cbn [negb] in B|discriminate B]. rewrite MF in B.
    destruct (arg_values arg_value es m) as [vs| | |] eqn:AV; try discriminate B. cbn [obind] in B.
    destruct (checked_ptr u U) as [PU PPU]. rewrite PU in B. cbn [obind] in B. rewrite <- SP in B.
    destruct (member_name F (get_dtype (pointee t)) n) as [s| | |] eqn:NMS; try discriminate B. cbn [obind] in B.
    destruct (call_found _ _ _ _ _ B) as (g & FI). pose proof (method_known X _ _ _ _ _ _ K PP G MF NMS FI). subst g.
    destruct (call_function_ok _ _ _ _ _ _ _ FI B) as (ws & x & PS & EX & ->).
    destruct (found _ _ _ PP G) as [_ FM]. destruct (FM _ MF) as (b & ret & args & fn & H & PR & ->). cbn [d_args d_func d_return] in *.
    exists ret, ret. split; [exact PR|]. split; [exact PR|]. split; [now left|]. split; [reflexivity|]. split; [reflexivity|].
    cbn [word v_loc]. apply (step_call _ _ _ _ _ _ _ _ (pointee t) _ _ vs); [now apply arg_values_ok|].
    split; [rewrite SP; apply (receives_ok u U) in RC; destruct u; cbn in RC |- *; intuition discriminate|]. exists b, ret, args, fn, ws, x, m'. auto.
  - unfold validate_index in V. destruct (is_ptr_to DATA_JSON (get_dtype t)) as [j| | |] eqn:J; try discriminate V. cbn [obind] in V.
    destruct (has_get (get_dtype t)) as [g| | |] eqn:HG; try discriminate V. cbn [obind] in V.
    destruct (j || g) eqn:JG; [|discriminate V]. cbn [negb] in V. destruct j.
    + destruct (json_by_name var k) as [b| | |] eqn:JB; try discriminate V. cbn [obind] in V. injection V as <- <- <- <-.
      pose proof (json_ptr t P J). subst t. destruct SN as [<-|(f & X1 & _)]; [|discriminate X1].
      cbn [build_access] in B. destruct (key_value var text_word k) as [kx| | |] eqn:KV; try discriminate B. cbn [obind] in B.
      rewrite (NM _ eq_refl) in B. destruct (call_found _ _ _ _ _ B) as (g' & FI). pose proof (json_known X b g' K FI). subst g'.
      destruct (call_function_ok _ _ _ _ _ _ _ FI B) as (ws & x & PS & EX & ->).
      exists (CPtr (CBase 20)), (CPtr (CBase 20)). split; [exact P|]. split; [exact P|]. split; [now left|]. split; [reflexivity|].
      split; [apply JRET|]. cbn [word v_loc]. rewrite VT in PS.
      apply (step_json _ _ _ _ _ _ _ _ _ _ kx b ws); [exact KV|exact (by_name_ok _ _ _ JB KV)|exact PS|exact EX].
    + cbn [orb] in JG. subst g. destruct (brackets_ptr t P HG) as (p & -> & WB). cbn [pointee] in *. rewrite PT in V. cbn [obind] in V.
      destruct SN as [<-|(f & X1 & _)]; [|discriminate X1].
      destruct (get_member R (get_dtype p) (lit "get")) as [mb|] eqn:G; [|discriminate V].
      destruct (m_func mb) as [f|] eqn:MF; [|discriminate V].
      destruct (if is_ptr (d_return f) then _ else _) as [rt| | |] eqn:RT; try discriminate V. cbn [obind] in V.
      destruct (member_name F (get_dtype p) (lit "get")) as [nm| | |] eqn:MN; try discriminate V. cbn [obind] in V. injection V as <- <- <- <-.
      cbn [build_access] in B. destruct (key_value var text_word k) as [kx| | |] eqn:KV; try discriminate B. cbn [obind] in B.
      rewrite (NM _ eq_refl) in B. destruct (call_found _ _ _ _ _ B) as (g' & FI). pose proof (method_known X _ _ _ _ _ _ K PP G MF MN FI). subst g'.
      destruct (call_function_ok _ _ _ _ _ _ _ FI B) as (ws & x & PS & EX & ->).
      destruct (found _ _ _ PP G) as [_ FM]. destruct (FM _ MF) as (b & ret & args & fn & H & PR & ->). cbn [d_args d_func d_return] in *.
      assert (exists t', plain t' /\ seen t' ret /\ rt = get_dtype t') as (t' & PT' & ST' & ->).
      { rewrite (is_ptr_plain ret PR) in RT. destruct (isP ret) eqn:IR; [|injection RT as <-; exists ret; repeat split; try apply PR; now left].
        destruct (checked_ptr ret PR) as [PR1 PR2]. rewrite PR1 in RT. cbn [obind] in RT. injection RT as <-.
        destruct (is_integer (get_dtype (pointee ret)) || is_float (get_dtype (pointee ret))) eqn:NUM.
        - destruct (number_plain _ PR2 NUM) as (y & Y & YB). exists (pointee ret). split; [exact PR2|]. split; [|reflexivity]. right. exists y.
          split; [exact Y|]. split; [|exact YB]. destruct ret; try discriminate IR. cbn in Y. now rewrite Y.
        - exists ret. repeat split; try apply PR. now left. }
      exists t', ret. split; [exact PT'|]. split; [exact PR|]. split; [exact ST'|]. split; [reflexivity|]. split; [reflexivity|].
      cbn [word v_loc]. rewrite VT in PS. apply (step_get _ _ _ _ _ _ _ _ _ p _ kx); [exact WB|exact KV|].
      split; [now left|]. exists b, ret, args, fn, ws, x, m'. auto.
Qed.


Lemma validate_type t a T' r us ns : plain t -> validate_access (get_dtype t) a = Ret (T', r, us, ns) -> checked T'.
Proof.
  intros P V. destruct (checked_ptr t P) as [PT PP]. destruct a as [n|n es|k]; cbn [Access_Model.validate_access] in V.
  - unfold validate_field in V. rewrite PT in V. cbn [obind] in V. destruct (get_member R (get_dtype (pointee t)) n) as [mb|] eqn:G; [|discriminate V].
    destruct (m_field mb) as [d|] eqn:MF; [|discriminate V]. injection V as <- <- <- <-.
    destruct (found _ _ _ PP G) as [FF _]. destruct (FF _ MF) as (f & off & H & -> & O & PF & NB & OFF).
    destruct (field_type_ok f PF NB) as (FT & FG & _). exists (field_type f). split; [exact FT|symmetry; exact FG].
  - unfold validate_call in V. destruct (forallb _ es); [|discriminate V]. rewrite PT in V. cbn [obind] in V.
    destruct (get_member R (get_dtype (pointee t)) n) as [mb|] eqn:G; [|discriminate V].
    destruct (m_func mb) as [f|] eqn:MF; [|discriminate V]. injection V as <- <- <- <-.
    destruct (found _ _ _ PP G) as [_ FM]. destruct (FM _ MF) as (b & ret & args & fn & H & PR & ->). exists ret. auto.
  - unfold validate_index in V. destruct (is_ptr_to DATA_JSON (get_dtype t)) as [j| | |] eqn:J; try discriminate V. cbn [obind] in V.
    destruct (has_get (get_dtype t)) as [g| | |] eqn:HG; try discriminate V. cbn [obind] in V.
    destruct (j || g) eqn:JG; [|discriminate V]. cbn [negb] in V. destruct j.
    + destruct (json_by_name var k) as [b| | |] eqn:JB; try discriminate V. cbn [obind] in V. injection V as <- <- <- <-.
      pose proof (json_ptr t P J). subst t. exists (CPtr (CBase 20)). auto.
    + rewrite PT in V. cbn [obind] in V.
      destruct (get_member R (get_dtype (pointee t)) (lit "get")) as [mb|] eqn:G; [|discriminate V].
      destruct (m_func mb) as [f|] eqn:MF; [|discriminate V].
      destruct (found _ _ _ PP G) as [_ FM]. destruct (FM _ MF) as (b & ret & args & fn & H & PR & ->). cbn [d_return] in V.
      destruct (checked_ptr ret PR) as [PR1 PR2]. rewrite PR1 in V. cbn [obind] in V.
      destruct (if is_ptr (get_dtype ret) then _ else _) as [rt| | |] eqn:RT; try discriminate V. cbn [obind] in V.
      destruct (member_name F (get_dtype (pointee t)) (lit "get")) as [nm| | |] eqn:MN; try discriminate V. cbn [obind] in V. injection V as <- <- <- <-.
      destruct (is_ptr (get_dtype ret)); [|injection RT as <-; exists ret; split; [exact PR|reflexivity]]. injection RT as <-.
      destruct (is_integer (get_dtype (pointee ret)) || is_float (get_dtype (pointee ret))); [exists (pointee ret); split; [exact PR2|reflexivity]|exists ret; split; [exact PR|reflexivity]].
Qed.

Lemma validate_chain_cons T a l T' rs us ns : validate_chain T (a :: l) = Ret (T', rs, us, ns) ->
  exists T1 r us1 ns1 rs2 us2 ns2, validate_access T a = Ret (T1, r, us1, ns1) /\ validate_chain T1 l = Ret (T', rs2, us2, ns2) /\
    rs = r :: rs2 /\ us = us1 ++ us2 /\ ns = ns1 ++ ns2.
Proof.
  intros H. cbn [Access_Model.validate_chain] in H. destruct (validate_access T a) as [[[[T1 r] us1] ns1]| | |] eqn:A; try discriminate H. cbn [obind] in H.
  destruct (validate_chain T1 l) as [[[[T2 rs2] us2] ns2]| | |] eqn:C; try discriminate H. cbn [obind] in H. injection H as <- <- <- <-.
  repeat eexists. exact C.
Qed.
Lemma validate_chain_uses : forall l t T' rs us ns, plain t -> validate_chain (get_dtype t) l = Ret (T', rs, us, ns) -> Forall use_ok us.
Proof.
  induction l as [|a l IH]; intros t T' rs us ns P V.
  - cbn in V. injection V as _ _ <- _. constructor.
  - destruct (validate_chain_cons _ _ _ _ _ _ _ V) as (T1 & r & us1 & ns1 & rs2 & us2 & ns2 & A & C & -> & -> & ->).
    destruct (validate_access_ok _ _ _ _ _ _ P A) as [U _]. destruct (validate_type _ _ _ _ _ _ P A) as (t1 & P1 & ->).
    apply Forall_app. split; [exact U|]. exact (IH _ _ _ _ _ P1 C).
Qed.

Lemma build_chain_cons X names idx v r rs m v' m' :
  build_chain arg_value var text_word conv ext F X names idx v (r :: rs) m = Ret (v', m') ->
  exists v1 m1, build_access arg_value var text_word conv ext F X names idx v r m = Ret (v1, m1) /\
    build_chain arg_value var text_word conv ext F X names (S idx) v1 rs m1 = Ret (v', m').
Proof.
  cbn [build_chain]. destruct (build_access _ _ _ _ _ _ _ _ _ _ _ _) as [[v1 m1]| | |]; try discriminate. cbn [obind]. eauto.
Qed.
Lemma chain_steps : forall l t u v m T' rs us ns X names idx pre post v' m', plain t -> plain u -> seen t u -> v_ty v = get_dtype u ->
  validate_chain (get_dtype t) l = Ret (T', rs, us, ns) -> known X ->
  (names = pre ++ ns ++ post /\ length pre = idx /\ brackets_first l) \/ Forall (fun a => is_index a = false) l ->
  build_chain arg_value var text_word conv ext F X names idx v rs m = Ret (v', m') ->
  exists t' u', plain t' /\ plain u' /\ seen t' u' /\ T' = get_dtype t' /\ v_ty v' = get_dtype u' /\
    steps (u, word v m, m) l (u', word v' m', m').
Proof.
  induction l as [|a l IH]; intros t u v m T' rs us ns X names idx pre post v' m' P U SN VT V K SH B.
  - cbn in V. injection V as <- <- <- <-. cbn in B. injection B as <- <-. exists t, u. repeat split; try apply P; try apply U; auto. constructor.
  - destruct (validate_chain_cons _ _ _ _ _ _ _ V) as (T1 & r & us1 & ns1 & rs2 & us2 & ns2 & A & C & -> & -> & ->).
    destruct (build_chain_cons _ _ _ _ _ _ _ _ _ B) as (v1 & m1 & B1 & B2).
    destruct (validate_access_ok _ _ _ _ _ _ P A) as [_ LN].
    assert (forall name, ns1 = [name] -> nth_error names idx = Some name) as NM.
    { intros name ->. destruct SH as [(-> & <- & _)|SH].
      - rewrite nth_error_app2 by lia. now rewrite Nat.sub_diag.
      - inversion SH as [|? ? H _]. rewrite H in LN. discriminate LN. }
    destruct (access_step _ _ _ _ _ _ _ _ _ _ _ _ _ _ P U SN VT A K NM B1) as (t1 & u1 & P1 & U1 & SN1 & -> & VT1 & ST).
    destruct (IH t1 u1 v1 m1 T' rs2 us2 ns2 X names (S idx) (pre ++ ns1) post v' m' P1 U1 SN1 VT1 C K) as (t' & u' & H1 & H2 & H3 & H4 & H5 & H6); [|exact B2|].
    + destruct SH as [(-> & <- & BF)|SH].
      * cbn in BF. destruct (is_index a); [|right; exact BF]. left. split; [now rewrite !app_assoc|]. split; [|exact BF].
        rewrite app_length, LN. lia.
      * right. now inversion SH.
    + exists t', u'. repeat (split; [assumption|]). econstructor; [exact ST|exact H6].
Qed.

Theorem chain t w l m T' v m' : plain t -> brackets_first l ->
  run_chain arg_ty arg_value var text_word conv ext json F R (get_dtype t) w l m = Ret (T', v, m') ->
  exists u, v_ty v = get_dtype u /\ steps (t, w, m) l (u, word v m', m') /\
    (T' = get_dtype u \/ exists f, 4 <= f <= 15 /\ u = CPtr (CBase f) /\ T' = get_dtype (CBase f)).
Proof.
  intros P BF H. unfold run_chain in H. destruct (validate_chain (get_dtype t) l) as [[[[T1 rs] us] ns]| | |] eqn:V; try discriminate H. cbn [obind] in H.
  destruct (externs F us []) as [X| | |] eqn:EX; try discriminate H. cbn [obind] in H.
  destruct (build_chain _ _ _ _ _ _ _ _ _ _ _ _) as [[v1 m1]| | |] eqn:B; try discriminate H. cbn [obind] in H. injection H as <- <- <-.
  assert (known X) as K. { eapply externs_known; [eapply validate_chain_uses; eassumption| |exact EX]. intros s f X1. discriminate X1. }
  destruct (chain_steps l t t (Val (get_dtype t) (Imm w)) m T1 rs us ns X ns 0 [] [] v1 m1) as (t' & u' & _ & _ & SN & -> & VT & ST); auto.
  - now left.
  - left. cbn. now rewrite app_nil_r.
  - exists u'. split; [exact VT|]. split; [exact ST|]. destruct SN as [->|(f & -> & -> & B4)]; [now left|right; now exists f].
Qed.

(** ** A chain that ends in a field *)
Lemma validate_chain_app : forall l1 T l2 T' rs us ns, validate_chain T (l1 ++ l2) = Ret (T', rs, us, ns) ->
  exists T1 rs1 us1 ns1 rs2 us2 ns2, validate_chain T l1 = Ret (T1, rs1, us1, ns1) /\ validate_chain T1 l2 = Ret (T', rs2, us2, ns2) /\
    rs = rs1 ++ rs2 /\ us = us1 ++ us2 /\ ns = ns1 ++ ns2.
Proof.
  induction l1 as [|a l1 IH]; intros T l2 T' rs us ns V.
  - exists T, [], [], [], rs, us, ns. auto.
  - destruct (validate_chain_cons _ _ _ _ _ _ _ V) as (T1 & r & us1 & ns1 & rs2 & us2 & ns2 & A & C & -> & -> & ->).
    destruct (IH _ _ _ _ _ _ C) as (T2 & rs3 & us3 & ns3 & rs4 & us4 & ns4 & D1 & D2 & -> & -> & ->).
    exists T2, (r :: rs3), (us1 ++ us3), (ns1 ++ ns3), rs4, us4, ns4. cbn [Access_Model.validate_chain]. rewrite A. cbn [obind]. rewrite D1. cbn [obind].
    rewrite !app_assoc. auto.
Qed.
Lemma build_chain_app : forall rs1 X names idx v rs2 m v' m',
  build_chain arg_value var text_word conv ext F X names idx v (rs1 ++ rs2) m = Ret (v', m') ->
  exists v1 m1, build_chain arg_value var text_word conv ext F X names idx v rs1 m = Ret (v1, m1) /\
    build_chain arg_value var text_word conv ext F X names (length rs1 + idx) v1 rs2 m1 = Ret (v', m').
Proof.
  induction rs1 as [|r rs1 IH]; intros X names idx v rs2 m v' m' B; [exists v, m; auto|].
  destruct (build_chain_cons _ _ _ _ _ _ _ _ _ B) as (v1 & m1 & B1 & B2).
  destruct (IH _ _ _ _ _ _ _ _ B2) as (v2 & m2 & C1 & C2). exists v2, m2. cbn [build_chain]. rewrite B1. cbn [obind]. split; [exact C1|].
  cbn [length]. now rewrite Nat.add_succ_comm.
Qed.
Lemma brackets_first_app (l1 l2 : list (access E)) : brackets_first (l1 ++ l2) -> brackets_first l1.
Proof.
  induction l1 as [|a l1 IH]; cbn; [auto|]. destruct (is_index a); [exact IH|]. intros H. apply Forall_app in H. apply H.
Qed.
Theorem last_field t w l n m T' v m' : plain t -> brackets_first (l ++ [AField n]) ->
  run_chain arg_ty arg_value var text_word conv ext json F R (get_dtype t) w (l ++ [AField n]) m = Ret (T', v, m') ->
  exists p w1 f off, steps (t, w, m) l (CPtr p, w1, m') /\ first (a_field p n) os (OField p n f off) /\
    (value_type f -> v = Val (get_dtype f) (InMem (size_in_bytes f) ((w1 + off) mod 2 ^ 64))).
Proof.
  intros P BF H. unfold run_chain in H. destruct (validate_chain (get_dtype t) (l ++ [AField n])) as [[[[T1 rs] us] ns]| | |] eqn:V; try discriminate H. cbn [obind] in H.
  destruct (externs F us []) as [X| | |] eqn:EX; try discriminate H. cbn [obind] in H.
  destruct (build_chain _ _ _ _ _ _ _ _ _ _ _ _) as [[v1 m1]| | |] eqn:B; try discriminate H. cbn [obind] in H. injection H as <- <- <-.
  assert (known X) as K. { eapply externs_known; [eapply validate_chain_uses; eassumption| |exact EX]. intros s f X1. discriminate X1. }
  destruct (validate_chain_app _ _ _ _ _ _ _ V) as (T2 & rs1 & us1 & ns1 & rs2 & us2 & ns2 & V1 & V2 & -> & -> & ->).
  destruct (build_chain_app _ _ _ _ _ _ _ _ _ B) as (v2 & m2 & B1 & B2).
  destruct (chain_steps l t t (Val (get_dtype t) (Imm w)) m T2 rs1 us1 ns1 X (ns1 ++ ns2) 0 [] ns2 v2 m2) as (t' & u' & P' & U' & SN & -> & VT & ST); auto.
  - now left.
  - left. split; [reflexivity|]. split; [reflexivity|]. now apply brackets_first_app in BF.
  - destruct (validate_chain_cons _ _ _ _ _ _ _ V2) as (T3 & r & us3 & ns3 & rs4 & us4 & ns4 & A & C & -> & _ & _). cbn in C. injection C as <- <- _ _.
    destruct (build_chain_cons _ _ _ _ _ _ _ _ _ B2) as (v3 & m3 & B3 & B4). cbn in B4. injection B4 as <- <-. cbn [word v_loc] in ST.
    destruct (checked_ptr t' P') as [PT PP]. pose proof (seen_pointee _ _ SN) as SP.
    cbn [Access_Model.validate_access] in A.
    unfold validate_field in A. rewrite PT in A. cbn [obind] in A. destruct (get_member R (get_dtype (pointee t')) n) as [mb|] eqn:G; [|discriminate A].
    destruct (m_field mb) as [d|] eqn:MF; [|discriminate A]. injection A as <- <- _ _.
    destruct (found _ _ _ PP G) as [FF _]. destruct (FF _ MF) as (f & off & H & -> & O & PF & NB & OFF). clear FF.
    cbn [build_access] in B3. rewrite VT in B3. rewrite (is_ptr_plain u' U') in B3. destruct (isP u') eqn:IU; [|discriminate B3]. cbn [negb] in B3.
    rewrite MF in B3. destruct u' as [|q| | | | |]; try discriminate IU. cbn [pointee] in SP. rewrite SP in H.
    destruct (field_kind f PF NB) as (FK1 & FK2 & FK3).
    unfold get_struct_field in B3. fold (field_is_value (get_dtype f)) in B3. rewrite O in B3. rewrite (offset_wraps _ _ OFF) in B3.
    assert (m3 = m2) as ->.
    { destruct (field_is_value (get_dtype f)); [destruct (llvm_size (get_dtype f)); [|discriminate B3]|]; cbn [obind] in B3; now injection B3. }
    exists q, (word v2 m2), f, off. split; [exact ST|]. split; [exact H|]. intros VF. apply FK2 in VF. rewrite VF in B3.
    rewrite (FK3 VF) in B3. cbn [obind] in B3. now injection B3 as <-.
Qed.
End Chain.

(** ** Memory *)
Lemma read_ext n : forall a m m', (forall b, a <= b < a + Z.of_nat n -> m b = m' b) -> read n a m = read n a m'.
Proof.
  induction n as [|n IH]; intros a m m' H; [reflexivity|]. cbn [read]. rewrite (H a) by lia. rewrite (IH (a + 1) m m') by (intros; apply H; lia). reflexivity.
Qed.
Lemma write_outside n : forall a w m b, b < a \/ a + Z.of_nat n <= b -> write n a w m b = m b.
Proof.
  induction n as [|n IH]; intros a w m b H; [reflexivity|]. cbn [write]. destruct (Z.eqb_spec b a); [lia|]. apply IH. lia.
Qed.
Lemma read_write n : forall a w m, read n a (write n a w m) = w mod 256 ^ Z.of_nat n.
Proof.
  induction n as [|n IH]; intros a w m; [cbn; now rewrite Z.mod_1_r|]. cbn [read write]. rewrite Z.eqb_refl.
  rewrite (read_ext n (a + 1) _ (write n (a + 1) (w / 256) m)).
  2:{ intros b H. destruct (Z.eqb_spec b a); [lia|reflexivity]. }
  rewrite IH. rewrite Nat2Z.inj_succ, Z.pow_succ_r by lia. rewrite Z.rem_mul_r by (try apply Z.pow_pos_nonneg; lia). reflexivity.
Qed.

(** ** Assignments *)
Section Assign.
Context {E : Type}.
Variable arg_ty : E -> option dtype.
Variable arg_value : E -> mem -> outcome (dtype * Z).
Variable var : text -> option (dtype * Z).
Variable text_word : text -> Z.
Variable conv : dtype -> dtype -> Z -> mem -> outcome Z.
Variable ext : Z -> list Z -> mem -> outcome (Z * mem).
Variable json : bool -> desc.
Variable F : factory.
Variable os : list offer.
Notation R := (fst (offer_members os [])).
Hypothesis OS : Forall (ordinary plain) os.
Hypothesis CONV : forall d p w m, dtype_eqb d p = Ret true -> conv d p w m = Ret w.
Hypothesis APART : methods_apart (fun t => member_name F (get_dtype t)) json_name os.
Hypothesis JNAME : forall b, d_name (json b) = json_name b.
Hypothesis JRET : forall b, d_return (json b) = get_dtype (CPtr (CBase 20)).
Notation kv := (fun k (_ : mem) => key_value var text_word k).
Notation step := (step os arg_value kv conv ext (fun b => d_args (json b)) (fun b => d_func (json b))).
Notation steps := (steps os arg_value kv conv ext (fun b => d_args (json b)) (fun b => d_func (json b))).

Lemma same_type f : plain f -> dtype_eqb (get_dtype f) (get_dtype f) = Ret true.
Proof.
  intros [S _]. destruct (eqb_iff_same_up_to_lengths f f S S) as (r & -> & H). f_equal. now apply H.
Qed.
Lemma assign_place f n a x m : plain f -> assign (Val (get_dtype f) (InMem n a)) (get_dtype f) x m = Ret (write n a x m).
Proof. intros P. unfold assign. cbn [v_ty v_loc]. now rewrite (same_type f P). Qed.
Lemma ordinary_field p n f off : first (a_field p n) os (OField p n f off) -> plain f.
Proof. intros H. destruct (first_in _ _ _ H) as [I _]. pose proof (proj1 (Forall_forall _ _) OS _ I) as (_ & C & _). exact C. Qed.

Theorem assign_field t w l n m T' v m' : plain t -> brackets_first (l ++ [AField n]) ->
  run_chain arg_ty arg_value var text_word conv ext json F R (get_dtype t) w (l ++ [AField n]) m = Ret (T', v, m') ->
  exists p w1 f off, steps (t, w, m) l (CPtr p, w1, m') /\ first (a_field p n) os (OField p n f off) /\
    (value_type f -> forall x, exists m2, assign v (get_dtype f) x m' = Ret m2 /\
       let a := (w1 + off) mod 2 ^ 64 in
       (forall b, b < a \/ a + Z.of_nat (size_in_bytes f) <= b -> m2 b = m' b) /\
       step (CPtr p, w1, m2) (AField n) (f, x mod 256 ^ Z.of_nat (size_in_bytes f), m2)).
Proof.
  intros P BF H. destruct (last_field arg_ty arg_value var text_word conv ext json F os OS CONV APART JNAME JRET _ _ _ _ _ _ _ _ P BF H)
    as (p & w1 & f & off & ST & FI & V). exists p, w1, f, off. split; [exact ST|]. split; [exact FI|]. intros VF x. rewrite (V VF).
  eexists. split; [apply assign_place; eapply ordinary_field; exact FI|]. cbn zeta. split.
  - intros b B. now apply write_outside.
  - rewrite <- (read_write (size_in_bytes f) ((w1 + off) mod 2 ^ 64) x m'). now apply step_read.
Qed.
Theorem alias t w l n m T' v m' : plain t -> brackets_first (l ++ [AField n]) ->
  run_chain arg_ty arg_value var text_word conv ext json F R (get_dtype t) w (l ++ [AField n]) m = Ret (T', v, m') ->
  exists p w1 f off, steps (t, w, m) l (CPtr p, w1, m') /\ first (a_field p n) os (OField p n f off) /\
    (value_type f -> forall slot x, exists y m2, define_var slot v m' = Ret (y, m') /\ assign y (get_dtype f) x m' = Ret m2 /\
       step (CPtr p, w1, m2) (AField n) (f, x mod 256 ^ Z.of_nat (size_in_bytes f), m2)).
Proof.
  intros P BF H. destruct (last_field arg_ty arg_value var text_word conv ext json F os OS CONV APART JNAME JRET _ _ _ _ _ _ _ _ P BF H)
    as (p & w1 & f & off & ST & FI & V). exists p, w1, f, off. split; [exact ST|]. split; [exact FI|]. intros VF slot x. rewrite (V VF).
  eexists _, _. split; [reflexivity|]. split; [apply assign_place; eapply ordinary_field; exact FI|].
  rewrite <- (read_write (size_in_bytes f) ((w1 + off) mod 2 ^ 64) x m'). now apply step_read.
Qed.
End Assign.

(** ** Brackets after a field *)
Section Late.
Context {E : Type}.
Variable arg_ty : E -> option dtype.
Variable arg_value : E -> mem -> outcome (dtype * Z).
Variable var : text -> option (dtype * Z).
Variable text_word : text -> Z.
Variable conv : dtype -> dtype -> Z -> mem -> outcome Z.
Variable ext : Z -> list Z -> mem -> outcome (Z * mem).
Variable json : bool -> desc.
Variable F : factory.
Variable R : index.
Lemma access_shape T a T' r us ns : validate_access arg_ty var json F R T a = Ret (T', r, us, ns) ->
  length ns = (if is_index a then 1 else 0)%nat /\ (is_index a = true -> exists k, r = RIndex k).
Proof.
  destruct a as [n|n es|k]; cbn [validate_access is_index].
  - destruct (validate_field R T n) as [[T1 r1]| | |]; try discriminate. cbn [obind]. intros [= <- <- <- <-]. split; [reflexivity|discriminate].
  - destruct (validate_call arg_ty R T n es) as [[[T1 r1] u]| | |]; try discriminate. cbn [obind]. intros [= <- <- <- <-]. split; [reflexivity|discriminate].
  - destruct (validate_index var json F R T k) as [[[[T1 r1] u] nm]| | |] eqn:V; try discriminate. cbn [obind]. intros [= <- <- <- <-]. split; [reflexivity|].
    intros _. exists k. unfold validate_index in V.
    destruct (is_ptr_to DATA_JSON T) as [j| | |]; try discriminate V. cbn [obind] in V. destruct (has_get T) as [g| | |]; try discriminate V. cbn [obind] in V.
    destruct (negb _); [discriminate V|]. destruct j.
    + destruct (json_by_name var k); try discriminate V. cbn [obind] in V. congruence.
    + destruct (ptr_to T) as [P| | |]; try discriminate V. cbn [obind] in V. destruct (get_member R P (lit "get")) as [mb|]; [|discriminate V].
      destruct (m_func mb) as [f|]; [|discriminate V]. destruct (if is_ptr (d_return f) then _ else _); try discriminate V. cbn [obind] in V.
      destruct (member_name F P (lit "get")); try discriminate V. cbn [obind] in V. congruence.
Qed.
Lemma chain_shape : forall l T T' rs us ns, validate_chain arg_ty var json F R T l = Ret (T', rs, us, ns) ->
  length ns = length (filter is_index l) /\
  forall i a, nth_error l i = Some a -> is_index a = true -> exists k, nth_error rs i = Some (RIndex k).
Proof.
  induction l as [|a l IH]; intros T T' rs us ns V.
  - cbn in V. injection V as <- <- <- <-. split; [reflexivity|]. intros [|i] a H; discriminate H.
  - cbn [validate_chain] in V. destruct (validate_access arg_ty var json F R T a) as [[[[T1 r] us1] ns1]| | |] eqn:A; try discriminate V. cbn [obind] in V.
    destruct (validate_chain arg_ty var json F R T1 l) as [[[[T2 rs2] us2] ns2]| | |] eqn:C; try discriminate V. cbn [obind] in V. injection V as <- <- <- <-.
    destruct (access_shape _ _ _ _ _ _ A) as [LA KA]. destruct (IH _ _ _ _ _ C) as [LC KC]. split.
    + rewrite app_length, LA, LC. cbn [filter]. destruct (is_index a); reflexivity.
    + intros [|i] b H I; cbn in H |- *; [injection H as <-; destruct (KA I) as (k & ->); eauto|now apply (KC i b)].
Qed.
Lemma build_stuck X names : forall rs idx v m i k r, nth_error rs i = Some (RIndex k) -> (length names <= idx + i)%nat ->
  build_chain arg_value var text_word conv ext F X names idx v rs m <> Ret r.
Proof.
  induction rs as [|r0 rs IH]; intros idx v m i k r H L; [destruct i; discriminate H|]. cbn [build_chain].
  destruct (build_access _ _ _ _ _ _ _ _ _ _ _ _) as [[v1 m1]| | |] eqn:B; try discriminate. cbn [obind]. destruct i as [|i].
  - cbn in H. injection H as ->. cbn [build_access] in B. destruct (key_value var text_word k); try discriminate B. cbn [obind] in B.
    replace (nth_error names idx) with (@None text) in B by (symmetry; apply nth_error_None; lia). discriminate B.
  - apply (IH (S idx) v1 m1 i k r); [exact H|lia].
Qed.
Lemma filter_le {A} (f : A -> bool) l : (length (filter f l) <= length l)%nat.
Proof. induction l as [|a l IH]; cbn; [lia|]. destruct (f a); cbn; lia. Qed.
Lemma last_index (l : list (access E)) : Exists (fun a => is_index a = true) l ->
  exists l1 a l2, l = l1 ++ a :: l2 /\ is_index a = true /\ filter is_index l2 = [].
Proof.
  induction l as [|a l IH]; intros H; [inversion H|]. destruct (existsb is_index l) eqn:X.
  - apply existsb_exists in X. destruct X as (b & I & B). destruct IH as (l1 & c & l2 & -> & C & D); [apply Exists_exists; eauto|].
    exists (a :: l1), c, l2. auto.
  - inversion H as [? ? H1|? ? H1]; subst.
    + exists [], a, l. repeat split; auto. clear -X. induction l as [|b l IH]; [reflexivity|]. cbn in X |- *. apply orb_false_iff in X. destruct X as [-> X]. auto.
    + exfalso. apply Exists_exists in H1. destruct H1 as (b & I & B). assert (existsb is_index l = true) by (apply existsb_exists; eauto). congruence.
Qed.
Theorem late_brackets l1 a l2 T w m r : is_index a = false -> Exists (fun b => is_index b = true) l2 ->
  run_chain arg_ty arg_value var text_word conv ext json F R T w (l1 ++ a :: l2) m <> Ret r.
Proof.
  intros NI EX H. destruct (last_index l2 EX) as (l3 & b & l4 & -> & B & NO). unfold run_chain in H.
  destruct (validate_chain _ _ _ _ _ _ _) as [[[[T1 rs] us] ns]| | |] eqn:V; try discriminate H. cbn [obind] in H.
  destruct (externs F us []) as [X| | |]; try discriminate H. cbn [obind] in H.
  destruct (chain_shape _ _ _ _ _ _ V) as [LN KN].
  destruct (KN (length l1 + S (length l3))%nat b) as (k & K); [|exact B|].
  { rewrite nth_error_app2 by lia. replace (length l1 + S (length l3) - length l1)%nat with (S (length l3)) by lia. cbn.
    rewrite nth_error_app2 by lia. now rewrite Nat.sub_diag. }
  destruct (build_chain _ _ _ _ _ _ _ _ _ _ _ _) as [r1| | |] eqn:BC; try discriminate H.
  refine (build_stuck _ _ _ _ _ _ _ _ _ K _ BC). rewrite LN, filter_app. cbn [filter]. rewrite NI, filter_app. cbn [filter]. rewrite B, NO.
  rewrite !app_length. cbn. pose proof (filter_le is_index l1). pose proof (filter_le is_index l3). lia.
Qed.

(** ** A field of type bool *)
Theorem bool_field os t n off w m : Forall (registrable plain) os -> plain (CPtr t) -> first (a_field t n) os (OField t n (CBase 3) off) -> off < 2 ^ 31 ->
  run_chain arg_ty arg_value var text_word conv ext json F (fst (offer_members os [])) (get_dtype (CPtr t)) w [AField n] m =
    Ret (get_dtype (CBase 3), Val (get_dtype (CPtr (CBase 3))) (Imm ((w + off) mod 2 ^ 64)), m).
Proof.
  intros FR P H OFF. pose proof (first_wins os FR t n (plain_pointee _ P)) as G. destruct (first_in _ _ _ H) as [I _].
  pose proof (proj1 (Forall_forall _ _) FR _ I) as (_ & _ & OB). cbn in OB.
  unfold run_chain. cbn [validate_chain validate_access]. unfold validate_field. rewrite (ptr_to_plain _ P). cbn [obind pointee].
  destruct (get_member _ (get_dtype t) n) as [mb|] eqn:GM.
  2:{ exfalso. cbn [says] in G. pose proof (proj1 (Forall_forall _ _) G _ I) as N. apply N. split; reflexivity. }
  destruct G as (_ & _ & SF & _). unfold says_field in SF. destruct (m_field mb) as [d|] eqn:MF.
  2:{ exfalso. pose proof (proj1 (Forall_forall _ _) SF _ I) as N. apply N. repeat eexists. }
  destruct SF as (f & off' & H' & -> & MO).
  assert (f = CBase 3 /\ off' = off) as [-> ->].
  { destruct H as (l1 & l2 & E1 & Q1 & N1), H' as (k1 & k2 & E2 & Q2 & N2). rewrite E1 in E2. clear -E2 Q1 Q2 N1 N2. revert k1 E2 N2.
    induction l1 as [|x l1 IH]; intros [|y k1] E2 N2; cbn in E2.
    - now injection E2.
    - injection E2 as <- _. inversion N2. contradiction.
    - injection E2 as -> _. inversion N1. contradiction.
    - injection E2 as -> E2. inversion N1; inversion N2; subst. now apply (IH H2 k1). }
  cbn [obind externs build_chain build_access v_ty app]. rewrite (is_ptr_plain _ P). cbn [isP negb]. rewrite MF. unfold get_struct_field.
  cbn [word v_loc]. rewrite MO, offset_wraps by lia. fold (field_is_value (get_dtype (CBase 3))). fold (field_is_inner (get_dtype (CBase 3))).
  replace (field_is_value (get_dtype (CBase 3))) with false by (symmetry; vm_compute; reflexivity).
  replace (field_is_inner (get_dtype (CBase 3))) with false by (symmetry; vm_compute; reflexivity).
  replace (to_ptr (get_dtype (CBase 3))) with (get_dtype (CPtr (CBase 3))) by (vm_compute; reflexivity). reflexivity.
Qed.
End Late.
