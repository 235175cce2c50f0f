(** Proofs for C78: which comparisons are defined. *)
From Coq Require Import Ascii String List Bool Arith ZArith Reals Floats.SpecFloat Lia Lra.
Import ListNotations.
From Flocq Require Import Core BinarySingleNaN.
From Verif Require Import Base Lexer_Model DType_Spec DType_Model DynObject_Model Op_Model Number_Model Ir_Model Codegen_Spec Scalar_Model Scalar_Spec Scalar_Proofs Function_Model Names_Model
  StringView_Spec StringView_Model StringView_Proofs Access_Spec Access_Model Json_Spec Json_Model Json_Proofs JsonCmp_Proofs JsonTotal_Spec.
Local Open Scope Z_scope.

Section Total.
Variable H : heap.
Variable junk : list Z.
Lemma op_cases op : comparison_op op -> In op [OP_EQUAL; OP_NOT_EQUAL; OP_LESS; OP_LESS_EQUAL; OP_GREATER; OP_GREATER_EQUAL].
Proof. intros (b & A). destruct op; try discriminate A; cbn; auto 10. Qed.
Definition right_value (n : numty) (v : val) : Prop := match v with VInt _ => ty_integer n = true | VFlt _ => ty_integer n = false end.
Lemma verdict_defined n op v w : comparison_op op -> right_value n v -> right_value n w -> exists b, verdict n op v w = Ret b.
Proof.
  intros O Rv Rw. apply op_cases in O. unfold verdict. destruct v as [x|f], w as [y|g]; cbn [right_value] in Rv, Rw; try congruence; cbn [Scalar_Model.oper]; rewrite Rv.
  - repeat (destruct O as [<-|O]; [eexists; reflexivity|]). destruct O.
  - repeat (destruct O as [<-|O]; [eexists; reflexivity|]). destruct O.
Qed.
Lemma static_int_right n z : right_value n (static_int n z).
Proof. unfold static_int. destruct (ty_integer n) eqn:I; exact I. Qed.
Lemma extract_defined n a d : stored H a d -> (forall c, ~ out_of_type H (SJson a) (SNum n c)) ->
  json_extract H junk (dt n) a = Err \/ exists v, json_extract H junk (dt n) a = Ret (SNum n v) /\ right_value n v.
Proof.
  intros S NO. pose proof (extract_doc H junk n a d S) as E. destruct d; try (left; exact E).
  - assert (R : exists v, Ret (SNum n (static_int n (if b then 1 else 0))) = Ret (SNum n v) /\ right_value n v) by (eexists; split; [reflexivity|apply static_int_right]).
    destruct n; rewrite E; auto.
  - right. rewrite E. eexists. split; [reflexivity|apply static_int_right].
  - rewrite E. unfold static_flt. destruct (ty_integer n) eqn:I; [|right; eexists; split; [reflexivity|exact I]].
    destruct (is_finite_SF f) eqn:Fi.
    + rewrite (trunc_value f Fi). destruct (holds n (Ztrunc (SF2R radix2 f))) eqn:HO; [|exfalso; apply (NO (VInt 0)); econstructor; eauto].
      apply (holds_range n _ I) in HO.
      assert ((if d_signed n then (- 2 ^ (ty_bits n - 1) <=? Ztrunc (SF2R radix2 f)) && (Ztrunc (SF2R radix2 f) <? 2 ^ (ty_bits n - 1)) else (0 <=? Ztrunc (SF2R radix2 f)) && (Ztrunc (SF2R radix2 f) <? 2 ^ ty_bits n)) = true) as ->.
      { destruct (d_signed n); apply andb_true_iff; rewrite Z.leb_le, Z.ltb_lt; lia. }
      right. eexists. split; [reflexivity|exact I].
    + exfalso. apply (NO (VInt 0)). econstructor; eauto. congruence.
Qed.
(** Numbers *)
Lemma cast_right m n v : right_value m v -> m <> n -> wider m n = n -> exists w, cast (TNum m) (TNum n) v = Some w /\ right_value n w.
Proof.
  intros R NE W. destruct v as [x|f]; cbn [right_value cast] in *.
  - destruct (ty_integer n) eqn:I; eexists; (split; [reflexivity|exact I]).
  - assert (ty_integer n = false) as I by (destruct m, n; try discriminate W; try discriminate R; try reflexivity; contradiction). rewrite I. eexists. split; [reflexivity|exact I].
Qed.
Lemma cast_to_number fs m n v : right_value m v -> wider m n = n -> exists w, cast_to H junk fs (SNum m v) (dt n) = Ret (SNum n w) /\ right_value n w.
Proof.
  intros R W. unfold cast_to. cbn [type_of]. fold (dt m).
  assert (D : m = n \/ m <> n) by (destruct m, n; ((left; reflexivity) || (right; discriminate))). destruct D as [->|NE].
  - assert (dtype_eqb (dt n) (dt n) = Ret true) as -> by (destruct n; vm_compute; reflexivity). cbn [obind]. eauto.
  - assert (dtype_eqb (dt m) (dt n) = Ret false) as -> by (destruct m, n; try contradiction; vm_compute; reflexivity). cbn [obind].
    assert (can_cast_to (dt m) (dt n) = Ret true) as -> by (destruct m, n; vm_compute; reflexivity). cbn [obind negb].
    assert (num_of (dt n) = Some n) as -> by (destruct n; vm_compute; reflexivity).
    destruct (cast_right m n v R NE W) as (w & -> & Rw). eauto.
Qed.
Lemma wider_comm_self m n : wider m (wider m n) = wider m n /\ wider n (wider m n) = wider m n.
Proof. destruct m, n; split; reflexivity. Qed.
Lemma wider_one m n : wider m n = m \/ wider m n = n.
Proof. destruct m, n; auto. Qed.
Lemma numbers_code fs op m n v w : right_value m v -> right_value n w -> comparison_op op -> exists b, compare H junk fs op (SNum m v) (SNum n w) = Ret b.
Proof.
  intros Rv Rw O. unfold compare. cbn [type_of]. fold (dt m). fold (dt n).
  assert (check_compare (dt m) (dt n) = Ret []) as -> by (destruct m, n; vm_compute; reflexivity). cbn [obind app].
  unfold code_compare. cbn [type_of]. fold (dt m). fold (dt n).
  assert (D : m = n \/ m <> n) by (destruct m, n; ((left; reflexivity) || (right; discriminate))). destruct D as [->|NE].
  - assert (dtype_eqb (dt n) (dt n) = Ret true) as -> by (destruct n; vm_compute; reflexivity). cbn [obind]. exact (verdict_defined n op v w O Rv Rw).
  - assert (dtype_eqb (dt m) (dt n) = Ret false) as -> by (destruct m, n; try contradiction; vm_compute; reflexivity). cbn [obind].
    assert (normalize (dt m) (dt n) = Ret (dt (wider m n))) as -> by (destruct m, n; vm_compute; reflexivity). cbn [obind].
    destruct (wider_comm_self m n) as (W1 & W2). destruct (cast_to_number fs m _ v Rv W1) as (v' & -> & Rv'). destruct (cast_to_number fs n _ w Rw W2) as (w' & -> & Rw'). cbn [obind].
    exact (verdict_defined _ op v' w' O Rv' Rw').
Qed.
Lemma strings_code fs op j j' s t u v : of_string j (codes s) = Ret u -> of_string j' (codes t) = Ret v -> short s -> short t -> comparison_op op ->
  exists b, compare H junk fs op (SStr u) (SStr v) = Ret b.
Proof.
  intros U V L1 L2 O. assert (Ls : Z.of_nat (length (codes s)) < 2 ^ 31) by now rewrite codes_length. assert (Lt : Z.of_nat (length (codes t)) < 2 ^ 31) by now rewrite codes_length.
  assert (exists o, string_op op = Some o) as (o & OO) by (apply op_cases in O; repeat (destruct O as [<-|O]; [eexists; reflexivity|]); destruct O).
  destruct (relational_props o j j' (codes s) (codes t) (codes_bytes s) (codes_bytes t) Ls Lt) as (u' & v' & U' & V' & C). rewrite U in U'. injection U' as <-. rewrite V in V'. injection V' as <-.
  unfold compare. cbn [type_of]. change (check_compare (get_dtype (CBase DATA_STRING_VIEW)) (get_dtype (CBase DATA_STRING_VIEW))) with (Ret [FStringCmp]). cbn [obind app].
  unfold code_compare. cbn [type_of]. change (dtype_eqb (get_dtype (CBase DATA_STRING_VIEW)) (get_dtype (CBase DATA_STRING_VIEW))) with (@Ret bool true). cbn [obind declared fname_eqb]. rewrite OO, C. eauto.
Qed.
Lemma document_string fs op a d j t v : stored H a d -> (forall s, d = DString s -> short s) -> of_string j (codes t) = Ret v -> short t -> comparison_op op ->
  (compare H junk fs op (SJson a) (SStr v) = Err \/ exists b, compare H junk fs op (SJson a) (SStr v) = Ret b) /\
  (compare H junk fs op (SStr v) (SJson a) = Err \/ exists b, compare H junk fs op (SStr v) (SJson a) = Ret b).
Proof.
  intros S SS V L O. destruct O as (b0 & O). assert (A : forall c, exists b, answer op c = Some b) by (intros []; destruct op; try discriminate O; eexists; reflexivity).
  destruct d as [|?|?|?|s|?|?]; try (destruct (kind_string H junk fs op a _ v S) as (E1 & E2); [discriminate|split; left; assumption]).
  destruct (A (lex (codes s) (codes t))) as (b & A1). destruct (A (lex (codes t) (codes s))) as (b' & A2).
  destruct (compare_string H junk fs op a s t j v b b' S V (SS s eq_refl) L A1 A2) as (E1 & E2). split; right; eauto.
Qed.
Theorem defined fs op l r : proper H l -> proper H r -> comparison_op op -> ~ out_of_type H l r -> ~ out_of_type H r l ->
  (exists b, compare H junk fs op l r = Ret b) \/ compare H junk fs op l r = Err.
Proof.
  intros Pl Pr O N1 N2.
  assert (NUM : forall n c a, right_value n c -> proper H (SJson a) -> (~ out_of_type H (SJson a) (SNum n c)) ->
     ((exists b, compare H junk fs op (SJson a) (SNum n c) = Ret b) \/ compare H junk fs op (SJson a) (SNum n c) = Err) /\
     ((exists b, compare H junk fs op (SNum n c) (SJson a) = Ret b) \/ compare H junk fs op (SNum n c) (SJson a) = Err)).
  { intros n c a R P NO. destruct (is_f80 n) eqn:F80'.
    - destruct n; try discriminate F80'. split; right; reflexivity.
    - inversion P as [? d S _| | | |]; subst. rewrite left_code, right_code by exact F80'.
      assert (NO' : forall c', ~ out_of_type H (SJson a) (SNum n c')) by (intros c' Q; apply NO; inversion Q; subst; econstructor; eauto).
      destruct (extract_defined n a d S NO') as [E|(v & E & Rv)]; rewrite E; cbn [obind]; [auto|].
      destruct (verdict_defined n op v c O Rv R) as (b & ->). destruct (verdict_defined n op c v O R Rv) as (b' & ->). split; left; eauto. }
  destruct Pl as [a d S SS|m z I|m f I|b|j t v V L].
  - pose proof (p_document H a d S SS) as P. destruct Pr as [a' d' S' SS'|n z' I'|n g I'|b'|j' t' v' V' L'].
    + right. reflexivity.
    + apply (NUM n (VInt z') a I' P N1).
    + apply (NUM n (VFlt g) a I' P N1).
    + right. reflexivity.
    + destruct (document_string fs op a d j' t' v' S SS V' L' O) as ([E|E] & _); auto.
  - destruct Pr as [a' d' S' SS'|n z' I'|n g I'|b'|j' t' v' V' L'].
    + apply (NUM m (VInt z) a' I (p_document H a' d' S' SS') N2).
    + left. exact (numbers_code fs op m n (VInt z) (VInt z') I I' O).
    + left. exact (numbers_code fs op m n (VInt z) (VFlt g) I I' O).
    + right. destruct m; reflexivity.
    + right. destruct m; reflexivity.
  - destruct Pr as [a' d' S' SS'|n z' I'|n g I'|b'|j' t' v' V' L'].
    + apply (NUM m (VFlt f) a' I (p_document H a' d' S' SS') N2).
    + left. exact (numbers_code fs op m n (VFlt f) (VInt z') I I' O).
    + left. exact (numbers_code fs op m n (VFlt f) (VFlt g) I I' O).
    + right. destruct m; reflexivity.
    + right. destruct m; reflexivity.
  - right. destruct Pr as [a' d' S' SS'|n z' I'|n g I'|b'|j' t' v' V' L']; try reflexivity; destruct n; reflexivity.
  - destruct Pr as [a' d' S' SS'|n z' I'|n g I'|b'|j' t' v' V' L'].
    + destruct (document_string fs op a' d' j t v S' SS' V L O) as (_ & [E|E]); auto.
    + right. destruct n; reflexivity.
    + right. destruct n; reflexivity.
    + right. reflexivity.
    + left. exact (strings_code fs op j j' t t' v v' V V' L L' O).
Qed.
Theorem other_kinds fs op l r : ~ comparable l r -> compare H junk fs op l r = Err.
Proof.
  intros N. destruct l as [a|m v|b|s], r as [a'|n w|b'|t]; try reflexivity; try (exfalso; apply N; constructor; fail).
  - destruct n; try reflexivity; exfalso; apply N; constructor; discriminate.
  - destruct m; try reflexivity; exfalso; apply N; constructor; discriminate.
  - destruct m; reflexivity.
  - destruct m; reflexivity.
  - destruct n; reflexivity.
  - destruct n; reflexivity.
Qed.
Theorem undefined fs op l r : proper H l -> proper H r -> comparison_op op -> out_of_type H l r -> compare H junk fs op l r = UB /\ compare H junk fs op r l = UB.
Proof.
  intros Pl Pr O Q. destruct Q as [n c a f S I NF]. assert (is_f80 n = false) as NF' by (destruct n; try reflexivity; discriminate I).
  destruct (is_finite_SF f) eqn:Fi.
  - destruct (too_large H junk fs op n a f c I S Fi (NF eq_refl)); auto.
  - rewrite left_code, right_code by exact NF'. pose proof (extract_doc H junk n a _ S) as E. cbn beta iota in E. unfold static_flt in E. rewrite I in E.
    destruct f; try discriminate Fi; rewrite E; split; reflexivity.
Qed.
(** Returning a truth value, a string *)
Theorem return_bool fs a d : declared fs (FExtract (get_dtype (CBase DATA_BIT))) = Ret true -> stored H a d ->
  return_value H junk fs (SJson a) (get_dtype (CBase DATA_BIT)) = match d with DBool b => Ret (SBit b) | _ => Err end.
Proof.
  intros D S. unfold return_value, check_return. cbn [type_of]. change (can_cast_to json_ptr (get_dtype (CBase DATA_BIT))) with (@Ret bool true). cbn [obind]. unfold cast_to. cbn [type_of].
  change (dtype_eqb json_ptr (get_dtype (CBase DATA_BIT))) with (@Ret bool false). cbn [obind]. change (can_cast_to json_ptr (get_dtype (CBase DATA_BIT))) with (@Ret bool true). cbn [obind negb].
  change (is_primitive (get_dtype (CBase DATA_BIT))) with true. rewrite D. cbn [obind]. unfold json_extract. destruct S; rewrite H0; reflexivity.
Qed.
Theorem return_string fs a d : declared fs (FExtract (get_dtype (CBase DATA_STRING_VIEW))) = Ret true -> stored H a d -> (forall s, d = DString s -> short s) ->
  match d with
  | DString s => exists v, return_value H junk fs (SJson a) (get_dtype (CBase DATA_STRING_VIEW)) = Ret (SStr v) /\ of_string junk (codes s) = Ret v
  | _ => return_value H junk fs (SJson a) (get_dtype (CBase DATA_STRING_VIEW)) = Err
  end.
Proof.
  intros D S SS. assert (E : return_value H junk fs (SJson a) (get_dtype (CBase DATA_STRING_VIEW)) = json_extract H junk sdt a).
  { unfold return_value, check_return. cbn [type_of]. change (can_cast_to json_ptr (get_dtype (CBase DATA_STRING_VIEW))) with (@Ret bool true). cbn [obind]. unfold cast_to. cbn [type_of].
    change (dtype_eqb json_ptr (get_dtype (CBase DATA_STRING_VIEW))) with (@Ret bool false). cbn [obind]. change (can_cast_to json_ptr (get_dtype (CBase DATA_STRING_VIEW))) with (@Ret bool true). cbn [obind negb].
    change (is_primitive (get_dtype (CBase DATA_STRING_VIEW))) with true. rewrite D. reflexivity. }
  rewrite E, (extract_string H junk a d S). destruct d; try reflexivity.
  assert (L : Z.of_nat (length (codes s)) < 2 ^ 31) by (rewrite codes_length; now apply SS).
  destruct (relational_props OpEqual junk junk (codes s) (codes s) (codes_bytes s) (codes_bytes s) L L) as (u & _ & U & _). rewrite U. cbn [obind]. eauto.
Qed.
Theorem return_refused fs v d : can_cast_to (type_of v) d = Ret false -> return_value H junk fs v d = Err.
Proof. intros C. unfold return_value, check_return. now rewrite C. Qed.
End Total.
