From Coq Require Import List ZArith Bool Lia.
Import ListNotations.
From Verif Require Import Base DType_Spec DType_Model DType_Proofs DynObject_Model Column_Spec Column_Model.
Local Open Scope Z_scope.

(** ** Which fields become columns *)
Lemma pb_decide f : decide_pb f = Ret (match pb_column f with Some t => AColumn (get_dtype t) | None => Unsupported end).
Proof. destruct f as [[] []]; vm_compute; reflexivity. Qed.
Lemma fbs_decide f : decide_fbs f = Ret (match fbs_column f with Some t => AColumn (get_dtype t) | None => Unsupported end).
Proof. destruct f as [[] [] d]; vm_compute; reflexivity. Qed.

(** The exact encoding of the column of a struct member *)
Definition coltype (t : cpptype) : dtype :=
  match t with
  | CArray (CBase c) n =>
      if (c =? 16) || (c =? 18) then get_dtype (column_type true c)
      else DT (mk_ctrl 9 0 16383 0 0) (Some [Some (DT (mk_ctrl 7 0 c 0 n) None)])
  | _ => get_dtype (column_type (many t) (elem_code t))
  end.

Ltac small c H :=
  assert (c = 1 \/ c = 2 \/ c = 3 \/ c = 4 \/ c = 5 \/ c = 6 \/ c = 7 \/ c = 8 \/ c = 9 \/ c = 10 \/ c = 11 \/ c = 12
          \/ c = 13 \/ c = 14 \/ c = 15 \/ c = 16 \/ c = 17 \/ c = 18) as H by lia;
  repeat (destruct H as [H|H]); subst c.
Ltac big c :=
  repeat match goal with
  | |- context [c =? ?k] => replace (c =? k) with false by (symmetry; apply Z.eqb_neq; lia)
  | |- context [c <=? ?k] => replace (c <=? k) with false by (symmetry; apply Z.leb_gt; lia)
  | |- context [?k <=? c] => replace (k <=? c) with true by (symmetry; apply Z.leb_le; lia)
  end.
Ltac consts := unfold DATA_VOID, DATA_BIT, DATA_U8, DATA_I8, DATA_U16, DATA_I16, DATA_U32, DATA_I32, DATA_U64,
  DATA_I64, DATA_F16, DATA_F32, DATA_F64, DATA_F80, DATA_STD_STRING_VIEW, DATA_STRING_VIEW, DATA_STRING,
  COLLECTION_ARRAY, COLLECTION_VECTOR, COLLECTION_ABSL_SPAN, COLLECTION_SIMD_VECTOR in *.

(** The validity test of table_schema.cc:393-415 *)
Definition valid (d : dtype) : outcome bool :=
  if negb (is_fundamental d) || negb (is_primitive d) then
    do! sp <- (if is_string d then Ret true else is_string_ptr d);
    if sp then Ret true
    else if is_array d || is_vector d then
      let e := elem_of d in
      if is_primitive e || is_string e then Ret true else is_string_ptr e
    else Ret false
  else Ret true.

Definition decide_dtype (d : dtype) : outcome decision :=
  do! v <- valid d;
  if negb v then Ret Unsupported
  else if is_array d || is_vector d then do! c <- create_simd_vector_dtype d; Ret (AColumn c)
  else if struct_code_ok (t0 (ctrl_of d)) then Ret (AColumn (struct_scalar_dtype (t0 (ctrl_of d))))
  else Ret Unsupported.
Lemma decide_struct_dtype m : decide_struct m =
  if m_function m && negb (m_only_this m) then Ret Skipped else decide_dtype (get_dtype (m_type m)).
Proof. reflexivity. Qed.

Lemma LIMv : LIM = 16383. Proof. reflexivity. Qed.

Definition want (t : cpptype) : outcome decision :=
  Ret (if becomes_column t then AColumn (coltype t) else Unsupported).

Lemma d_base c : 1 <= c < LIM -> decide_dtype (get_dtype (CBase c)) = want (CBase c).
Proof.
  intros H. rewrite LIMv in H. destruct (Z_le_gt_dec c 18) as [L|G].
  - small c Hc; vm_compute; reflexivity.
  - rewrite (shape_base LIM) by (exact LIM_ok || (cbn; rewrite LIMv; lia)).
    unfold want. cbn [becomes_column]. unfold scalar_column. 
    unfold decide_dtype, valid, is_primitive, is_fundamental, is_string, is_string_ptr, is_ptr, is_array, is_vector.
    cbn. consts. big c. reflexivity.
Qed.

Fixpoint cont (t : cpptype) : Z :=
  match t with
  | CBase _ => 0
  | CSeq k _ => seq_code k
  | CArray _ _ => 1
  | CMap o _ _ => if o then 3 else 5
  | CPair _ _ | CTuple1 _ => 8
  | CPtr t => if isP t then 0 else cont t
  end.
Lemma cont_get t : supported LIM t -> container (ctrl_of (get_dtype t)) = cont t.
Proof.
  induction t; intros H.
  - rewrite (shape_base LIM) by (exact LIM_ok || assumption). reflexivity.
  - cbn [cont]. rewrite (shape_ptr LIM) by (exact LIM_ok || assumption). destruct (isP t); [reflexivity|].
    cbn [ctrl_of]. rewrite <- (IHt H). destruct (get_dtype t) as [c e]. reflexivity.
  - rewrite (shape_seq LIM) by (exact LIM_ok || assumption). reflexivity.
  - pose proof H as [(f & -> & Hf) Hn]. rewrite (shape_array LIM) by (exact LIM_ok || assumption). reflexivity.
  - destruct H. rewrite (shape_map LIM) by (exact LIM_ok || assumption). reflexivity.
  - destruct H. rewrite (shape_pair LIM) by (exact LIM_ok || assumption). reflexivity.
  - rewrite (shape_tuple1 LIM) by (exact LIM_ok || assumption). reflexivity.
Qed.
Lemma ptrbit_get t : supported LIM t -> ptr_bit (ctrl_of (get_dtype t)) = if isP t then 1 else 0.
Proof. exact (pb_isP LIM t LIM_ok). Qed.
Lemma fund_get t : supported LIM t -> is_fundamental (get_dtype t) = negb (compound t).
Proof.
  intros H. unfold is_fundamental. rewrite (cont_get t H), (ptrbit_get t H).
  destruct t; try reflexivity. cbn. destruct k; reflexivity. cbn. destruct ordered; reflexivity.
Qed.
Lemma prim_get t : supported LIM t -> compound t = true -> is_primitive (get_dtype t) = false.
Proof. intros H C. unfold is_primitive. now rewrite (fund_get t H), C. Qed.
Lemma str_get t : supported LIM t -> is_string (get_dtype t) = match t with CBase c => c =? 18 | _ => false end.
Proof.
  intros H. unfold is_string. rewrite (fund_get t H). destruct t; try reflexivity.
  rewrite (shape_base LIM) by (exact LIM_ok || assumption). reflexivity.
Qed.
Lemma view_get t : supported LIM t -> is_std_string_view (get_dtype t) = match t with CBase c => c =? 16 | _ => false end.
Proof.
  intros H. unfold is_std_string_view. rewrite (fund_get t H). destruct t; try reflexivity.
  rewrite (shape_base LIM) by (exact LIM_ok || assumption). reflexivity.
Qed.
Definition strp (t : cpptype) : bool := match t with CPtr (CBase c) => c =? 18 | _ => false end.
Lemma strptr_get t : supported LIM t -> is_string_ptr (get_dtype t) = Ret (strp t).
Proof.
  intros H. unfold is_string_ptr. rewrite (is_ptr_get LIM) by (exact LIM_ok || assumption).
  destruct t as [|t| | | | |]; try reflexivity. cbn [isP supported] in *.
  assert (Z : first_simple t \/ ~ first_simple t).
  { destruct t; cbn; try tauto; try (destruct (compound _); intuition congruence). }
  destruct Z as [Z|Z].
  - rewrite ptr_to_CPtr by assumption. cbn [obind]. rewrite (str_get t H). destruct t; reflexivity.
  - destruct t as [|t|k t|t n|o k v|a b|a]; try (exfalso; apply Z; exact I); cbn [first_simple] in Z.
    + destruct (compound t) eqn:C; [|congruence]. rewrite ptr_to_compound_seq by assumption. cbn [obind].
      cbn [supported] in H. rewrite (str_get t H). destruct t; try reflexivity; discriminate.
    + destruct H as [Hk Hv]. destruct (compound k) eqn:C; [|congruence].
      rewrite (shape_ptr LIM) by (exact LIM_ok || (split; assumption)). cbn [isP].
      rewrite (shape_map LIM) by (exact LIM_ok || assumption).
      assert (code k = DATA_COMPLEX_OBJECT) as -> by (destruct k; (reflexivity || discriminate)).
      unfold bi. rewrite C. unfold ptr_to, is_complex.
      destruct (compound v); cbn [ctrl_of elems_of set_ptr t0]; rewrite Z.eqb_refl; cbn [obind];
        rewrite (str_get k Hk); destruct k; (reflexivity || discriminate).
    + destruct H as [Ha Hb]. destruct (compound a) eqn:C; [|congruence].
      rewrite (shape_ptr LIM) by (exact LIM_ok || (split; assumption)). cbn [isP].
      rewrite (shape_pair LIM) by (exact LIM_ok || assumption).
      assert (code a = DATA_COMPLEX_OBJECT) as -> by (destruct a; (reflexivity || discriminate)).
      unfold bi. rewrite C. unfold ptr_to, is_complex.
      destruct (compound b); cbn [ctrl_of elems_of set_ptr t0]; rewrite Z.eqb_refl; cbn [obind];
        rewrite (str_get a Ha); destruct a; (reflexivity || discriminate).
    + destruct (compound a) eqn:C; [|congruence]. cbn [supported] in H.
      rewrite (shape_ptr LIM) by (exact LIM_ok || assumption). cbn [isP].
      rewrite (shape_tuple1 LIM) by (exact LIM_ok || assumption).
      assert (code a = DATA_COMPLEX_OBJECT) as -> by (destruct a; (reflexivity || discriminate)).
      unfold un. rewrite C. unfold ptr_to, is_complex. cbn [ctrl_of elems_of set_ptr t0]. rewrite Z.eqb_refl. cbn [obind].
      rewrite (str_get a H). destruct a; (reflexivity || discriminate).
Qed.

Lemma elem_ptr_seq k t : supported LIM t ->
  elem_of (get_dtype (CPtr (CSeq k t))) = if compound t then get_dtype t else get_dtype (CPtr t).
Proof.
  intros H. rewrite (shape_ptr LIM) by (exact LIM_ok || assumption). cbn [isP].
  rewrite (shape_seq LIM) by (exact LIM_ok || assumption). cbn [ctrl_of elems_of].
  unfold elem_of, un, is_map, is_unordered_map. cbn [ctrl_of elems_of container set_ptr].
  replace ((seq_code k =? COLLECTION_MAP) || (seq_code k =? COLLECTION_UNORDERED_MAP)) with false
    by (destruct k; reflexivity).
  destruct t; try reflexivity. rewrite (shape_ptr LIM) by (exact LIM_ok || assumption).
  rewrite (shape_base LIM) by (exact LIM_ok || assumption). reflexivity.
Qed.
Lemma elem_arr c n : supported LIM (CArray (CBase c) n) ->
  elem_of (get_dtype (CArray (CBase c) n)) = DT (mk_ctrl 0 0 c 0 n) None.
Proof. intros H. rewrite (shape_array LIM) by (exact LIM_ok || assumption). reflexivity. Qed.
Lemma elem_ptr_arr c n : supported LIM (CArray (CBase c) n) ->
  elem_of (get_dtype (CPtr (CArray (CBase c) n))) = DT (mk_ctrl 0 1 c 0 n) None.
Proof.
  intros H. rewrite (shape_ptr LIM) by (exact LIM_ok || assumption). cbn [isP].
  rewrite (shape_array LIM) by (exact LIM_ok || assumption). reflexivity.
Qed.

Lemma container_av d k : container (ctrl_of d) = k -> is_array d || is_vector d = (k =? 1) || (k =? 2).
Proof. intros <-. reflexivity. Qed.

(** Everything but single values *)
Lemma d_other t : supported LIM t -> compound t = true -> many t = false ->
  decide_dtype (get_dtype t) = want t.
Proof.
  intros H C M. unfold decide_dtype, valid, want.
  rewrite (fund_get t H), C, (str_get t H), (strptr_get t H), (container_av _ _ (cont_get t H)).
  cbn [negb orb].
  destruct t as [|t|k t|t n|o k v|a b|a]; try discriminate; cbn [obind strp becomes_column cont].
  - destruct t as [c|t|k t|t n|o k v|a b|a]; try discriminate; cbn [obind isP cont].
    + destruct (Z.eqb_spec c 18) as [->|N]; [vm_compute; reflexivity|]. reflexivity.
    + reflexivity.
    + destruct o; reflexivity.
    + reflexivity.
    + reflexivity.
  - destruct o; reflexivity.
  - reflexivity.
  - reflexivity.
Qed.
Lemma set_el e : set_element 0 e (to_simd_vector (dtype_of DATA_COMPLEX_OBJECT 0)) =
  DT (mk_ctrl 9 0 16383 0 0) (Some [Some e]).
Proof. reflexivity. Qed.
Lemma span_get c : 1 <= c < LIM -> get_dtype (CSeq KSimdVector (CSeq KAbslSpan (CBase c))) =
  DT (mk_ctrl 9 0 16383 0 0) (Some [Some (DT (mk_ctrl 7 0 c 0 0) None)]).
Proof.
  intros H. rewrite (shape_seq LIM) by (exact LIM_ok || exact H). unfold un. cbn [compound].
  rewrite (shape_seq LIM) by (exact LIM_ok || exact H). reflexivity.
Qed.
(** Elements of arrays and vectors that are columns *)
Lemma d_seq k t : supported LIM t -> decide_dtype (get_dtype (CSeq k t)) = want (CSeq k t).
Proof.
  intros H. assert (HS : supported LIM (CSeq k t)) by exact H.
  unfold decide_dtype, valid, want.
  rewrite (fund_get _ HS), (str_get _ HS), (strptr_get _ HS), (container_av _ _ (cont_get _ HS)).
  unfold create_simd_vector_dtype. rewrite (prim_get _ HS eq_refl), (elem_seq k t H).
  cbn [compound negb orb obind strp cont].
  destruct k; try reflexivity. cbn [becomes_column].
  change ((seq_code KVector =? 1) || (seq_code KVector =? 2)) with true. cbv iota.
  rewrite (strptr_get t H), (str_get t H), (view_get t H). cbn [obind].
  destruct t as [c|t|k t|t n|o k v|a b|a]; cbn [strp orb];
    try (rewrite (prim_get _ H eq_refl); reflexivity).
  - destruct (Z_le_gt_dec c 18) as [L|G].
    + cbn in H. small c Hc; vm_compute; reflexivity.
    + rewrite (shape_base LIM) by (exact LIM_ok || assumption).
      unfold is_primitive, is_fundamental. cbn. consts. big c. reflexivity.
  - rewrite (prim_get _ H eq_refl). cbn [orb]. destruct t as [c| | | | | |]; try reflexivity.
    destruct (Z.eqb_spec c 18) as [->|N]; [vm_compute; reflexivity|reflexivity].
Qed.
Lemma d_ptr_seq k t : supported LIM t -> decide_dtype (get_dtype (CPtr (CSeq k t))) = want (CPtr (CSeq k t)).
Proof.
  intros H. assert (HS : supported LIM (CPtr (CSeq k t))) by exact H.
  unfold decide_dtype, valid, want.
  rewrite (fund_get _ HS), (str_get _ HS), (strptr_get _ HS), (container_av _ _ (cont_get _ HS)).
  unfold create_simd_vector_dtype. rewrite (prim_get _ HS eq_refl), (elem_ptr_seq k t H).
  cbn [compound negb orb obind strp cont isP].
  destruct k; try reflexivity. cbn [becomes_column].
  change ((seq_code KVector =? 1) || (seq_code KVector =? 2)) with true. cbv iota.
  assert (HP : supported LIM (CPtr t)) by exact H.
  destruct t as [c|t|k t|t n|o k v|a b|a]; cbn [compound];
    rewrite ?(strptr_get _ HP), ?(str_get _ HP), ?(view_get _ HP), ?(prim_get _ HP eq_refl),
      ?(strptr_get _ H), ?(str_get _ H), ?(view_get _ H), ?(prim_get _ H eq_refl); cbn [strp orb obind]; try reflexivity.
  - destruct (Z.eqb_spec c 18) as [->|N]; reflexivity.
  - destruct t as [c| | | | | |]; try reflexivity. destruct (Z.eqb_spec c 18) as [->|N]; reflexivity.
Qed.
Lemma d_array c n : supported LIM (CArray (CBase c) n) ->
  decide_dtype (get_dtype (CArray (CBase c) n)) = want (CArray (CBase c) n).
Proof.
  intros H. unfold decide_dtype, valid, want.
  rewrite (fund_get _ H), (str_get _ H), (strptr_get _ H), (container_av _ _ (cont_get _ H)).
  unfold create_simd_vector_dtype. rewrite (prim_get _ H eq_refl), (elem_arr c n H).
  cbn [compound negb orb obind strp cont becomes_column].
  pose proof H as [(f & [= <-] & Hf) Hn]. rewrite LIMv in Hf.
  unfold is_primitive, is_fundamental, is_string, is_string_ptr, is_ptr, is_std_string_view.
  change ((1 =? 1) || (1 =? 2)) with true. cbv iota. cbn [ctrl_of ptr_bit container t0].
  change ((0 =? 0) && (0 =? 0)) with true. change (0 =? 1) with false. cbv iota. cbn [andb obind coltype].
  destruct (Z_le_gt_dec c 18) as [L|G].
  - small c Hc; cbn; reflexivity.
  - consts. big c. reflexivity.
Qed.
Lemma d_ptr_array c n : supported LIM (CArray (CBase c) n) ->
  decide_dtype (get_dtype (CPtr (CArray (CBase c) n))) = want (CPtr (CArray (CBase c) n)).
Proof.
  intros H. assert (HS : supported LIM (CPtr (CArray (CBase c) n))) by exact H.
  unfold decide_dtype, valid, want.
  rewrite (fund_get _ HS), (str_get _ HS), (strptr_get _ HS), (container_av _ _ (cont_get _ HS)).
  unfold create_simd_vector_dtype. rewrite (prim_get _ HS eq_refl), (elem_ptr_arr c n H).
  cbn [compound negb orb obind strp cont isP becomes_column].
  pose proof H as [(f & [= <-] & Hf) Hn]. rewrite LIMv in Hf.
  unfold is_primitive, is_fundamental, is_string, is_string_ptr, is_ptr, is_std_string_view, ptr_to, is_complex.
  change ((1 =? 1) || (1 =? 2)) with true. cbv iota. cbn [ctrl_of ptr_bit container t0].
  change ((1 =? 0) && (0 =? 0)) with false. change (1 =? 1) with true. cbv iota. cbn [andb orb obind].
  replace (c =? DATA_COMPLEX_OBJECT) with false by (symmetry; apply Z.eqb_neq; unfold DATA_COMPLEX_OBJECT; lia).
  cbn [obind].
  match goal with |- context [is_string ?x] => change (is_string x) with (c =? 18) end.
  destruct (Z.eqb_spec c 18) as [->|N]; reflexivity.
Qed.
Theorem struct_decide m : supported LIM (m_type m) -> m_function m && negb (m_only_this m) = false ->
  decide_struct m = Ret (if becomes_column (m_type m) then AColumn (coltype (m_type m)) else Unsupported).
Proof.
  intros H E. rewrite decide_struct_dtype, E. change (decide_dtype (get_dtype (m_type m)) = want (m_type m)).
  destruct (m_type m) as [c|t|k t|t n|o k v|a b|a]; try (apply d_other; (assumption || reflexivity)).
  - now apply d_base.
  - destruct t as [c|t|k t|t n|o k v|a b|a]; try (apply d_other; (assumption || reflexivity)).
    + now apply d_ptr_seq.
    + pose proof H as [(f & -> & Hf) Hn]. now apply d_ptr_array.
  - now apply d_seq.
  - pose proof H as [(f & -> & Hf) Hn]. now apply d_array.
Qed.

(** ** The loops *)
Fixpoint cols_from {F} (ty : F -> option dtype) (i : nat) (fs : list F) : list (nat * dtype) :=
  match fs with
  | [] => []
  | f :: fs => match ty f with Some d => [(i, d)] | None => [] end ++ cols_from ty (S i) fs
  end.
Lemma cols_flat {F} (ty : F -> option dtype) fs : forall i, cols_from ty i fs =
  flat_map (fun p => match ty (snd p) with Some t => [(fst p, t)] | None => [] end) (combine (seq i (length fs)) fs).
Proof. induction fs as [|f fs IH]; intros i; [reflexivity|]. cbn. now rewrite IH. Qed.
(** [dec f]: no field asks for undefined behaviour or an error by itself *)
Lemma add_columns_ok {F} (dec : F -> outcome decision) (ty : F -> option dtype) (bad : F -> bool) ign fs :
  (forall f, In f fs -> dec f = Ret (match ty f with Some d => AColumn d | None => if bad f then Unsupported else Skipped end)) ->
  forall i, add_columns dec ign i fs =
    if negb ign && existsb (fun f => match ty f with Some _ => false | None => bad f end) fs then Err
    else Ret (cols_from ty i fs).
Proof.
  induction fs as [|f fs IH]; intros H i; [cbn; now rewrite andb_false_r|].
  cbn [add_columns existsb cols_from]. rewrite (H f (or_introl eq_refl)). cbn [obind].
  specialize (IH (fun g G => H g (or_intror G)) (S i)).
  destruct (ty f) as [d|]; cbn [orb app].
  - rewrite IH. destruct (negb ign && _); reflexivity.
  - destruct (bad f); cbn [orb app].
    + destruct ign; cbn [negb andb] in *; [exact IH|reflexivity].
    + exact IH.
Qed.
Lemma cols_from_in {F} (ty : F -> option dtype) fs : forall k i d, In (i, d) (cols_from ty k fs) ->
  exists f, nth_error fs (i - k) = Some f /\ ty f = Some d /\ (k <= i)%nat.
Proof.
  induction fs as [|f fs IH]; intros k i d; cbn [cols_from]; [intros []|]. rewrite in_app_iff. intros [H|H].
  - destruct (ty f) as [d'|] eqn:E; [|destruct H]. destruct H as [[= <- <-]|[]].
    exists f. rewrite Nat.sub_diag. auto.
  - destruct (IH _ _ _ H) as (g & G1 & G2 & G3). exists g. split; [|split; [assumption|lia]].
    replace (i - k)%nat with (S (i - S k)) by lia. exact G1.
Qed.

(** ** Reading *)
Lemma mapO_ok {A B} (f : A -> outcome B) (g : A -> B) l : (forall x, In x l -> f x = Ret (g x)) -> mapO f l = Ret (map g l).
Proof.
  induction l as [|x l IH]; intros H; [reflexivity|]. cbn. rewrite (H x (or_introl eq_refl)). cbn [obind].
  rewrite IH; [reflexivity|]. intros y Y. apply H. now right.
Qed.
Lemma mapO_f2 {A B} (f : A -> outcome B) (R : A -> B -> Prop) l :
  (forall x, In x l -> exists y, f x = Ret y /\ R x y) -> exists r, mapO f l = Ret r /\ Forall2 R l r.
Proof.
  induction l as [|x l IH]; intros H; [exists []; split; constructor|]. cbn.
  destruct (H x (or_introl eq_refl)) as (y & -> & Ry). cbn [obind].
  destruct IH as (r & -> & Rr); [intros z Z; apply H; now right|]. cbn [obind]. eexists. split; [reflexivity|]. now constructor.
Qed.
Lemma numbers_read w c l : w = c -> Forall (fun v => exists n, v = VNum n) l -> mapO (read_number w c) l = Ret l.
Proof.
  intros -> H. rewrite (mapO_ok _ (fun v => v)); [now rewrite map_id|].
  rewrite Forall_forall in H. intros x X. destruct (H x X) as (n & ->). unfold read_number. now rewrite Z.eqb_refl.
Qed.
Lemma texts_read l : Forall (fun v => exists s, v = VStr s) l -> mapO read_text l = Ret l.
Proof.
  intros H. rewrite (mapO_ok _ (fun v => v)); [now rewrite map_id|].
  rewrite Forall_forall in H. intros x X. destruct (H x X) as (n & ->). reflexivity.
Qed.
Lemma num_elems c l : number c = true -> Forall (has_type (CBase c)) l -> Forall (fun v => exists n, v = VNum n) l.
Proof.
  intros N. apply Forall_impl. intros v. destruct v; cbn; try tauto; [eauto|].
  unfold number, stringy in *. intros S. exfalso. rewrite !andb_true_iff, !Z.leb_le in *. lia.
Qed.
Lemma str_elems c l : stringy c = true -> Forall (has_type (CBase c)) l -> Forall (fun v => exists s, v = VStr s) l.
Proof.
  intros N. apply Forall_impl. intros v. destruct v; cbn; try tauto; [|eauto].
  unfold number, stringy in *. intros [S _]. exfalso. rewrite !andb_true_iff, !Z.leb_le in *. lia.
Qed.

Lemma has_num c v : number c = true -> has_type (CBase c) v -> exists n, v = VNum n /\ (c = 3 -> n = 0 \/ n = 1).
Proof.
  intros N H. destruct v; cbn in H; try tauto; [exists n; tauto|].
  unfold number, stringy in *. exfalso. rewrite !andb_true_iff, !Z.leb_le in *. lia.
Qed.
Lemma has_str c v : stringy c = true -> has_type (CBase c) v -> exists s, v = VStr s.
Proof.
  intros N H. destruct v; cbn in H; try tauto; [|eauto].
  unfold number, stringy in *. exfalso. rewrite !andb_true_iff, !Z.leb_le in *. lia.
Qed.
Ltac val v H :=
  let n := fresh "n" in let N := fresh "N" in let s := fresh "s" in
  match type of H with has_type (CBase ?c) _ =>
    (destruct (has_num c v eq_refl H) as (n & -> & N)) || (destruct (has_str c v eq_refl H) as (s & ->)) end.

(** Protobuf *)
Lemma pb_cell f c v : pb_cpp (pb_ty f) = Some c -> pb_repeated f = false -> has_type (CBase c) v ->
  load_cell pb_getters_ f (get_dtype (column_type false c)) (Some v) = Ret (show v).
Proof.
  destruct f as [t r]. cbn [pb_ty pb_repeated]. intros E -> H.
  destruct t; try discriminate E; injection E as <-; val v H; reflexivity.
Qed.
Lemma pb_null f c : pb_cpp (pb_ty f) = Some c ->
  load_cell pb_getters_ f (get_dtype (column_type (pb_repeated f) c)) None = Ret (zero_cell (pb_repeated f) c).
Proof. destruct f as [[] []]; cbn [pb_ty pb_repeated]; intros E; try discriminate E; injection E as <-; reflexivity. Qed.
Lemma map_const {A B} (b : B) (f : A -> B) l : Forall (fun x => f x = b) l -> map (fun _ => b) l = map f l.
Proof. induction 1 as [|x l E _ IH]; cbn; congruence. Qed.
Lemma pb_cell_many f c l : pb_cpp (pb_ty f) = Some c -> pb_repeated f = true -> Forall (has_type (CBase c)) l ->
  load_cell pb_getters_ f (get_dtype (column_type true c)) (Some (VList l)) =
    Ret (Many (map (fun v => if survives v then Some v else None) l)).
Proof.
  destruct f as [t r]. cbn [pb_ty pb_repeated]. intros E -> H.
  assert (N : number c = true -> pb_numbers c (PbField t true) (Some (VList l)) =
     (if negb (existsb (Z.eqb c) pb_getters) then Ret [] else Ret (map (fun v => if survives v then Some v else None) l))).
  { intros N. cbn [pb_numbers]. destruct (negb _); [reflexivity|].
    unfold pb_has. cbn [pb_repeated pb_ty]. rewrite E, Z.eqb_refl. cbn [Bool.eqb andb negb elements obind].
    pose proof (num_elems c l N H) as G. rewrite (numbers_read c c l eq_refl G). cbn [obind].
    f_equal. apply map_const. eapply Forall_impl; [|exact G]. intros v (n & ->). reflexivity. }
  assert (S : c = 18 -> pb_strings (PbField t true) (Some (VList l)) = Ret (map (fun v => if survives v then Some v else None) l)).
  { intros S. subst c. cbn [pb_strings]. unfold pb_has. cbn [pb_repeated pb_ty]. rewrite E.
    change (18 =? DATA_STRING) with true. cbn [Bool.eqb andb negb elements obind].
    pose proof (str_elems 18 l eq_refl H) as G. rewrite (texts_read l G). cbn [obind]. f_equal. apply map_ext_in.
    rewrite Forall_forall in G. intros x X. destruct (G x X) as (s & ->). reflexivity. }
  unfold load_cell. cbn [get_numbers get_strings pb_getters_].
  destruct t; try discriminate E; injection E as <-;
    first [specialize (N eq_refl); clear S | specialize (S eq_refl); clear N];
    match goal with
    | N : pb_numbers ?c ?f ?o = _ |- _ =>
        change ((do! l <- pb_numbers c f o; Ret (Many l)) = Ret (Many (map (fun v => if survives v then Some v else None) l)));
        rewrite N; reflexivity
    | S : pb_strings ?f ?o = _ |- _ =>
        change ((do! l <- pb_strings f o; Ret (Many l)) = Ret (Many (map (fun v => if survives v then Some v else None) l)));
        rewrite S; reflexivity
    end.
Qed.

(** FlatBuffers *)
Lemma fbs_cell f c v : fbs_cpp (fbs_ty f) = Some c ->
  has_type (if fbs_repeating f then CSeq KVector (CBase c) else CBase c) v ->
  load_cell fbs_getters f (get_dtype (column_type (fbs_repeating f) c)) (Some (Some v)) = Ret (show v).
Proof.
  destruct f as [t [] d]; cbn [fbs_ty fbs_repeating]; intros E H.
  - destruct v as [| | |l]; cbn [has_type] in H; try contradiction.
    assert (N : number c = true -> fbs_numbers c (FbsField t true d) (Some (Some (VList l))) = Ret (map Some l)).
    { intros N. cbn [fbs_numbers fbs_repeating negb elements obind]. unfold fbs_code. cbn [fbs_ty]. rewrite E.
      rewrite (numbers_read c c l eq_refl (num_elems c l N H)). reflexivity. }
    assert (S : c = 18 -> fbs_strings (FbsField t true d) (Some (Some (VList l))) = Ret (map Some l)).
    { intros S. subst c. cbn [fbs_strings fbs_repeating negb]. unfold fbs_code. cbn [fbs_ty]. rewrite E.
      change (18 =? DATA_STRING) with true. cbn [orb negb elements obind].
      rewrite (texts_read l (str_elems 18 l eq_refl H)). reflexivity. }
    unfold load_cell. cbn [get_numbers get_strings fbs_getters show].
    destruct t; try discriminate E; injection E as <-;
    first [specialize (N eq_refl); clear S | specialize (S eq_refl); clear N];
    match goal with
    | N : fbs_numbers ?c ?f ?o = _ |- _ =>
        change ((do! l <- fbs_numbers c f o; Ret (Many l)) = Ret (Many (map Some l))); rewrite N; reflexivity
    | S : fbs_strings ?f ?o = _ |- _ =>
        change ((do! l <- fbs_strings f o; Ret (Many l)) = Ret (Many (map Some l))); rewrite S; reflexivity
    end.
  - destruct t; try discriminate E; injection E as <-; val v H; try reflexivity.
    destruct (N eq_refl) as [->| ->]; reflexivity.
Qed.
Lemma fbs_null f c : fbs_cpp (fbs_ty f) = Some c ->
  load_cell fbs_getters f (get_dtype (column_type (fbs_repeating f) c)) None = Ret (zero_cell (fbs_repeating f) c).
Proof. destruct f as [[] [] d]; cbn [fbs_ty fbs_repeating]; intros E; try discriminate E; injection E as <-; reflexivity. Qed.
Lemma fbs_absent f c : fbs_cpp (fbs_ty f) = Some c ->
  load_cell fbs_getters f (get_dtype (column_type (fbs_repeating f) c)) (Some None) =
    if fbs_repeating f || (c =? 18) then UB else Ret (One (VNum 0)).
Proof. destruct f as [[] [] d]; cbn [fbs_ty fbs_repeating]; intros E; try discriminate E; injection E as <-; reflexivity. Qed.

(** Structs *)
Lemma first_all l : first_elements (Z.of_nat (length l)) (VList l) = Ret l.
Proof. unfold first_elements. cbn [elements obind]. now rewrite Z.ltb_irrefl, Nat2Z.id, firstn_all. Qed.
Lemma struct_array_numbers m c n l : m_type m = CArray (CBase c) n -> supported LIM (m_type m) -> m_function m = false ->
  number c = true -> has_type (m_type m) (VList l) -> struct_numbers c m (Some (VList l)) = Ret (map Some l).
Proof.
  intros E S F N H. unfold struct_numbers. rewrite F. rewrite E in *.
  rewrite elem_arr by assumption. rewrite (shape_array LIM) by (exact LIM_ok || assumption).
  destruct H as [L H]. unfold is_array, fixed_array_size. cbn [negb ctrl_of container fixed_size t0].
  change (1 =? COLLECTION_ARRAY) with true. cbv iota.
  rewrite <- L, first_all. cbn [obind]. rewrite (numbers_read c c l eq_refl (num_elems c l N H)). reflexivity.
Qed.
Lemma struct_vector_numbers m c l : m_type m = CSeq KVector (CBase c) -> supported LIM (m_type m) -> m_function m = false ->
  number c = true -> c <> 3 -> has_type (m_type m) (VList l) -> struct_numbers c m (Some (VList l)) = Ret (map Some l).
Proof.
  intros E S F N C H. unfold struct_numbers. rewrite F. rewrite E in *.
  assert (S' : supported LIM (CBase c)) by exact S.
  rewrite (elem_seq KVector (CBase c) S'), (shape_seq LIM) by (exact LIM_ok || assumption).
  rewrite (shape_base LIM) by (exact LIM_ok || assumption).
  unfold is_array, is_vector. cbn [negb ctrl_of container t0 seq_code].
  change (COLLECTION_VECTOR =? COLLECTION_ARRAY) with false. change (COLLECTION_VECTOR =? COLLECTION_VECTOR) with true. cbv iota.
  change DATA_BIT with 3. rewrite (proj2 (Z.eqb_neq c 3) C). cbn [elements obind].
  rewrite (numbers_read c c l eq_refl (num_elems c l N H)). reflexivity.
Qed.
Lemma struct_array_strings m c n l : m_type m = CArray (CBase c) n -> supported LIM (m_type m) -> m_function m = false ->
  c = 16 \/ c = 18 -> has_type (m_type m) (VList l) -> struct_strings m (Some (VList l)) = Ret (map Some l).
Proof.
  intros E S F C H. unfold struct_strings. rewrite F. rewrite E in *.
  rewrite elem_arr by assumption. rewrite (shape_array LIM) by (exact LIM_ok || assumption).
  destruct H as [L H]. unfold is_array, fixed_array_size, is_std_string_view, is_string, is_fundamental.
  cbn [negb ctrl_of container fixed_size t0 ptr_bit].
  change (1 =? COLLECTION_ARRAY) with true. cbv iota. rewrite <- L, first_all. cbn [obind].
  rewrite (texts_read l (str_elems c l ltac:(destruct C as [->| ->]; reflexivity) H)).
  destruct C as [->| ->]; reflexivity.
Qed.
Lemma struct_vector_strings m c l : m_type m = CSeq KVector (CBase c) -> supported LIM (m_type m) -> m_function m = false ->
  c = 16 \/ c = 18 -> has_type (m_type m) (VList l) -> struct_strings m (Some (VList l)) = Ret (map Some l).
Proof.
  intros E S F C H. unfold struct_strings. rewrite F. rewrite E in *.
  assert (S' : supported LIM (CBase c)) by exact S.
  rewrite (elem_seq KVector (CBase c) S'), (shape_seq LIM) by (exact LIM_ok || assumption).
  rewrite (shape_base LIM) by (exact LIM_ok || assumption).
  unfold is_array, is_vector, is_std_string_view, is_string, is_fundamental. cbn [negb ctrl_of container t0 seq_code ptr_bit elements obind].
  rewrite (texts_read l (str_elems c l ltac:(destruct C as [->| ->]; reflexivity) H)).
  destruct C as [->| ->]; reflexivity.
Qed.

Lemma range_3_18 c : (3 <=? c) && (c <=? 18) = true -> 3 <= c <= 18.
Proof. rewrite andb_true_iff, !Z.leb_le. lia. Qed.
Lemma scalar_range c : scalar_column c = true -> 3 <= c <= 18.
Proof. unfold scalar_column. rewrite !andb_true_iff, !Z.leb_le. lia. Qed.
Ltac codes c H :=
  assert (c = 3 \/ c = 4 \/ c = 5 \/ c = 6 \/ c = 7 \/ c = 8 \/ c = 9 \/ c = 10 \/ c = 11 \/ c = 12
          \/ c = 13 \/ c = 14 \/ c = 15 \/ c = 16 \/ c = 17 \/ c = 18) as H by lia;
  repeat (destruct H as [H|H]); subst c.
(** What load_cell asks the getters for *)
Lemma load_span_cell {F O} (g : getters F O) f c n o : 3 <= c <= 18 -> c <> 18 -> c <> 16 ->
  load_cell g f (DT (mk_ctrl 9 0 16383 0 0) (Some [Some (DT (mk_ctrl 7 0 c 0 n) None)])) o =
    if (c =? 12) || (c =? 15) then Err
    else if c =? 17 then do! l <- get_strings g f o; Ret (Many l) else do! l <- get_numbers g c f o; Ret (Many l).
Proof. intros H A B. codes c Hc; try congruence; reflexivity. Qed.
Lemma load_spans {F O} (g : getters F O) f c o : 3 <= c <= 18 ->
  load_cell g f (get_dtype (column_type true c)) o =
    if (c =? 12) || (c =? 15) then Err
    else if stringy c then do! l <- get_strings g f o; Ret (Many l) else do! l <- get_numbers g c f o; Ret (Many l).
Proof. intros H. codes c Hc; reflexivity. Qed.

Lemma is_list t v : has_type t v -> (match t with CSeq _ _ | CArray _ _ => True | _ => False end) -> exists l, v = VList l.
Proof.
  intros H T. destruct t as [c|t|k t|t n|o k w|a b|a]; try contradiction; [destruct k|]; destruct v; cbn in H;
    try contradiction; eauto.
Qed.
Lemma lost_numbers_fn m c v : is_ptr (get_dtype (m_type m)) = false -> m_function m = true ->
  struct_numbers c m (Some v) = Ret [].
Proof. intros P F. unfold struct_numbers. rewrite F, P. reflexivity. Qed.
Lemma lost_strings_fn m v : m_function m = true -> struct_strings m (Some v) = Ret [].
Proof. intros F. unfold struct_strings. rewrite F. reflexivity. Qed.
Lemma lost_bits m v : m_type m = CSeq KVector (CBase 3) -> struct_numbers 3 m (Some v) = Ret [].
Proof. intros E. unfold struct_numbers. rewrite E. destruct (m_function m); reflexivity. Qed.
Lemma lost_views m t v : m_type m = t -> supported LIM t ->
  match t with CSeq KVector (CBase c) | CArray (CBase c) _ => c = 17 | CSeq KVector (CPtr _) => True | _ => False end ->
  struct_strings m (Some v) = Ret [].
Proof.
  intros E S T. unfold struct_strings. rewrite E. destruct (m_function m); [reflexivity|]. cbn [negb].
  destruct t as [c|t|k t|t n|o k w|a b|a]; try contradiction.
  - destruct k; try contradiction. destruct t as [c|t| | | | |]; try contradiction.
    + subst c. reflexivity.
    + rewrite (elem_seq KVector (CPtr t) S), (view_get (CPtr t) S), (str_get (CPtr t) S).
      rewrite (shape_seq LIM) by (exact LIM_ok || assumption). reflexivity.
  - destruct t as [c|t| | | | |]; try contradiction. subst c. reflexivity.
Qed.

Theorem struct_cell m v : supported LIM (m_type m) -> becomes_column (m_type m) = true -> has_type (m_type m) v ->
  load_cell struct_getters m (coltype (m_type m)) (Some v) =
    if unloadable (m_type m) then Err
    else Ret (if kept m then show v else zero_cell (many (m_type m)) (elem_code (m_type m))).
Proof.
  destruct m as [t fn this]. cbn [m_type]. intros S B H.
  assert (MK : forall x y, (x : outcome (list (option value))) = Ret y -> (do! l <- x; Ret (Many l)) = Ret (Many y))
    by (intros x y ->; reflexivity).
  destruct t as [c|t|k t|t n|o k w|a b|a]; try discriminate B; cbn [becomes_column] in B.
  - pose proof (scalar_range c B). codes c Hc; try discriminate B; val v H; destruct fn; try reflexivity;
      destruct (N eq_refl) as [->| ->]; reflexivity.
  - destruct t as [c|t|k t|t n|o k w|a b|a]; try discriminate B.
    + apply Z.eqb_eq in B. subst c. destruct v as [| |v|]; try contradiction. cbn [has_type] in H.
      destruct (has_str 18 v eq_refl H) as (s & ->). destruct fn; reflexivity.
    + destruct k; try discriminate B. destruct t as [c|t| | | | |]; try discriminate B.
      * apply Z.eqb_eq in B. subst c. destruct fn; reflexivity.
      * destruct t; try discriminate B. apply Z.eqb_eq in B. subst f. destruct fn; reflexivity.
    + destruct t as [c|t| | | | |]; try discriminate B. apply Z.eqb_eq in B. subst c. destruct fn; reflexivity.
  - destruct k; try discriminate B. destruct t as [c|t| | | | |]; try discriminate B.
    + apply range_3_18 in B. destruct (is_list _ v H I) as (l & ->).
      unfold coltype. cbn [many elem_code]. rewrite load_spans by assumption. cbn [unloadable kept m_function m_type].
      destruct ((c =? 12) || (c =? 15)) eqn:U; [reflexivity|]. cbn [get_strings get_numbers struct_getters].
      set (m := Member (CSeq KVector (CBase c)) fn this) in *.
      destruct fn.
      * destruct (stringy c).
        -- apply MK. now apply lost_strings_fn.
        -- apply MK. apply lost_numbers_fn; [|reflexivity]. now rewrite (is_ptr_get LIM) by (exact LIM_ok || exact S).
      * destruct (stringy c) eqn:ST.
        -- destruct (Z.eq_dec c 17) as [E|E].
           ++ subst c. apply MK. apply (lost_views m (CSeq KVector (CBase 17))); [reflexivity|exact S|reflexivity].
           ++ assert (C : c = 16 \/ c = 18) by (unfold stringy in ST; rewrite andb_true_iff, !Z.leb_le in ST; lia).
              rewrite (MK _ _ (struct_vector_strings m c l eq_refl S eq_refl C H)).
              destruct C as [->| ->]; reflexivity.
        -- assert (NU : number c = true).
           { unfold stringy, number in *. rewrite andb_false_iff, !Z.leb_gt in ST. rewrite andb_true_iff, !Z.leb_le. lia. }
           destruct (Z.eq_dec c 3) as [E|E].
           ++ subst c. apply MK. now apply lost_bits.
           ++ rewrite (MK _ _ (struct_vector_numbers m c l eq_refl S eq_refl NU E H)).
              clear - B U ST E. codes c Hc; (reflexivity || discriminate || congruence).
    + destruct t; try discriminate B. apply Z.eqb_eq in B. subst f. unfold coltype. cbn [many elem_code].
      rewrite load_spans by lia. unfold kept. cbn [unloadable m_function m_type].
      replace (if fn then false else false) with false by (destruct fn; reflexivity).
      change ((18 =? 12) || (18 =? 15)) with false. change (stringy 18) with true. cbv iota.
      apply MK. apply (lost_views _ (CSeq KVector (CPtr (CBase 18)))); [reflexivity|exact S|exact I].
  - destruct t as [c|t| | | | |]; try discriminate B. apply range_3_18 in B. destruct (is_list _ v H I) as (l & ->).
    set (m := Member (CArray (CBase c) n) fn this) in *.
    assert (PF : is_ptr (get_dtype (m_type m)) = false) by (now rewrite (is_ptr_get LIM) by (exact LIM_ok || exact S)).
    unfold coltype. cbn [many elem_code unloadable kept m_function m_type m].
    destruct ((c =? 16) || (c =? 18)) eqn:V.
    + rewrite load_spans by assumption. cbn [get_strings get_numbers struct_getters].
      assert (C : c = 16 \/ c = 18) by (rewrite orb_true_iff, !Z.eqb_eq in V; exact V).
      assert (UL : (c =? 12) || (c =? 15) = false) by (destruct C as [->| ->]; reflexivity).
      assert (ST : stringy c = true) by (destruct C as [->| ->]; reflexivity).
      rewrite UL, ST. destruct fn.
      * apply MK. now apply lost_strings_fn.
      * rewrite (MK _ _ (struct_array_strings m c n l eq_refl S eq_refl C H)). destruct C as [->| ->]; reflexivity.
    + rewrite load_span_cell by (try assumption; intros ->; discriminate V). cbn [get_strings get_numbers struct_getters].
      destruct ((c =? 12) || (c =? 15)) eqn:U; [reflexivity|].
      destruct (Z.eqb_spec c 17) as [E|E].
      * subst c. rewrite (MK _ _ (lost_views m (CArray (CBase 17) n) (VList l) eq_refl S eq_refl)). destruct fn; reflexivity.
      * destruct fn.
        -- apply MK. now apply lost_numbers_fn.
        -- assert (NU : number c = true).
           { unfold number. rewrite orb_false_iff, !Z.eqb_neq in V. rewrite andb_true_iff, !Z.leb_le. lia. }
           rewrite (MK _ _ (struct_array_numbers m c n l eq_refl S eq_refl NU H)).
           clear - B U V E. codes c Hc; (reflexivity || discriminate || congruence).
Qed.
Theorem struct_null m : supported LIM (m_type m) -> becomes_column (m_type m) = true ->
  load_cell struct_getters m (coltype (m_type m)) None =
    if unloadable (m_type m) then Err else Ret (zero_cell (many (m_type m)) (elem_code (m_type m))).
Proof.
  destruct m as [t fn this]. cbn [m_type]. intros S B.
  destruct t as [c|t|k t|t n|o k w|a b|a]; try discriminate B; cbn [becomes_column] in B.
  - pose proof (scalar_range c B). codes c Hc; try discriminate B; reflexivity.
  - destruct t as [c|t|k t|t n|o k w|a b|a]; try discriminate B.
    + apply Z.eqb_eq in B. subst c. reflexivity.
    + destruct k; try discriminate B. destruct t as [c|t| | | | |]; try discriminate B.
      * apply Z.eqb_eq in B. subst c. reflexivity.
      * destruct t; try discriminate B. apply Z.eqb_eq in B. subst f. reflexivity.
    + destruct t as [c|t| | | | |]; try discriminate B. apply Z.eqb_eq in B. subst c. reflexivity.
  - destruct k; try discriminate B. destruct t as [c|t| | | | |]; try discriminate B.
    + apply range_3_18 in B. codes c Hc; reflexivity.
    + destruct t; try discriminate B. apply Z.eqb_eq in B. subst f. reflexivity.
  - destruct t as [c|t| | | | |]; try discriminate B. apply range_3_18 in B. codes c Hc; reflexivity.
Qed.
(** The column's element can always be looked at *)
Lemma struct_shape t : supported LIM t -> becomes_column t = true ->
  is_primitive (elem_of (coltype t)) || is_absl_span (elem_of (coltype t)) = true.
Proof.
  intros S B.
  destruct t as [c|t|k t|t n|o k w|a b|a]; try discriminate B; cbn [becomes_column] in B.
  - pose proof (scalar_range c B). codes c Hc; try discriminate B; reflexivity.
  - destruct t as [c|t|k t|t n|o k w|a b|a]; try discriminate B.
    + apply Z.eqb_eq in B. subst c. reflexivity.
    + destruct k; try discriminate B. destruct t as [c|t| | | | |]; try discriminate B.
      * apply Z.eqb_eq in B. subst c. reflexivity.
      * destruct t; try discriminate B. apply Z.eqb_eq in B. subst f. reflexivity.
    + destruct t as [c|t| | | | |]; try discriminate B. apply Z.eqb_eq in B. subst c. reflexivity.
  - destruct k; try discriminate B. destruct t as [c|t| | | | |]; try discriminate B.
    + apply range_3_18 in B. codes c Hc; reflexivity.
    + destruct t; try discriminate B. apply Z.eqb_eq in B. subst f. reflexivity.
  - destruct t as [c|t| | | | |]; try discriminate B. apply range_3_18 in B. codes c Hc; reflexivity.
Qed.

(** ** Whole columns *)
Definition pb_ty_opt (f : pb_field) : option dtype := option_map get_dtype (pb_column f).
Definition fbs_ty_opt (f : fbs_field) : option dtype := option_map get_dtype (fbs_column f).
Definition struct_ty_opt (m : member) : option dtype :=
  if m_function m && negb (m_only_this m) then None
  else if becomes_column (m_type m) then Some (coltype (m_type m)) else None.
Definition not_skipped (m : member) : bool := negb (m_function m && negb (m_only_this m)).

Lemma pb_add ign fs i : add_columns decide_pb ign i fs =
  if negb ign && existsb (fun f => match pb_ty_opt f with Some _ => false | None => true end) fs then Err
  else Ret (cols_from pb_ty_opt i fs).
Proof.
  apply (add_columns_ok decide_pb pb_ty_opt (fun _ => true)). intros f _. rewrite pb_decide. unfold pb_ty_opt.
  destruct (pb_column f); reflexivity.
Qed.
Lemma fbs_add ign fs i : add_columns decide_fbs ign i fs =
  if negb ign && existsb (fun f => match fbs_ty_opt f with Some _ => false | None => true end) fs then Err
  else Ret (cols_from fbs_ty_opt i fs).
Proof.
  apply (add_columns_ok decide_fbs fbs_ty_opt (fun _ => true)). intros f _. rewrite fbs_decide. unfold fbs_ty_opt.
  destruct (fbs_column f); reflexivity.
Qed.
Lemma struct_add ign ms i : Forall (fun m => supported LIM (m_type m)) ms -> add_columns decide_struct ign i ms =
  if negb ign && existsb (fun m => match struct_ty_opt m with Some _ => false | None => not_skipped m end) ms then Err
  else Ret (cols_from struct_ty_opt i ms).
Proof.
  intros S. apply (add_columns_ok decide_struct struct_ty_opt not_skipped). intros m M.
  rewrite Forall_forall in S. specialize (S m M). unfold struct_ty_opt, not_skipped.
  destruct (m_function m && negb (m_only_this m)) eqn:E.
  - rewrite decide_struct_dtype, E. reflexivity.
  - rewrite struct_decide by assumption. destruct (becomes_column (m_type m)); reflexivity.
Qed.
Lemma cols_expected {F} (ty : F -> option cpptype) fs k :
  cols_from (fun f => option_map get_dtype (ty f)) k fs =
  map (fun p => (fst p, get_dtype (snd p)))
    (flat_map (fun p => match ty (snd p) with Some t => [(fst p, t)] | None => [] end) (combine (seq k (length fs)) fs)).
Proof.
  revert k. induction fs as [|f fs IH]; intros k; [reflexivity|]. cbn. rewrite map_app, <- IH.
  destruct (ty f); reflexivity.
Qed.
Lemma existsb_none {F} (ty : F -> option dtype) (b : F -> bool) fs :
  existsb (fun f => match ty f with Some _ => false | None => b f end) fs = true <->
  Exists (fun f => ty f = None /\ b f = true) fs.
Proof.
  rewrite existsb_exists, Exists_exists. split; intros (f & Hf & E); exists f; (split; [assumption|]);
    destruct (ty f); (discriminate || tauto || destruct E; discriminate).
Qed.

Lemma pb_columns ign fs :
  (ign = true \/ Forall (fun f => pb_cpp (pb_ty f) <> None) fs ->
   add_columns decide_pb ign 0 fs = Ret (map (fun p => (fst p, get_dtype (snd p))) (expected_columns pb_column fs))) /\
  (ign = false -> Exists (fun f => pb_cpp (pb_ty f) = None) fs -> add_columns decide_pb ign 0 fs = Err).
Proof.
  rewrite pb_add. split.
  - intros H. replace (negb ign && _) with false; [apply f_equal; exact (cols_expected pb_column fs 0)|].
    symmetry. destruct H as [->|H]; [reflexivity|]. apply andb_false_iff. right.
    destruct (existsb _ fs) eqn:E; [|reflexivity]. exfalso. apply existsb_none in E.
    apply Exists_exists in E. destruct E as (f & I1 & E & _). rewrite Forall_forall in H. specialize (H f I1).
    unfold pb_ty_opt, pb_column in E. destruct (pb_cpp (pb_ty f)); [discriminate|congruence].
  - intros -> E. cbn [negb andb].
    assert (X : existsb (fun f => match pb_ty_opt f with Some _ => false | None => true end) fs = true).
    { apply (existsb_none pb_ty_opt (fun _ => true)). eapply Exists_impl; [|exact E]. intros f Ef.
      unfold pb_ty_opt, pb_column. rewrite Ef. auto. }
    now rewrite X.
Qed.
Lemma fbs_columns ign fs :
  (ign = true \/ Forall (fun f => fbs_cpp (fbs_ty f) <> None) fs ->
   add_columns decide_fbs ign 0 fs = Ret (map (fun p => (fst p, get_dtype (snd p))) (expected_columns fbs_column fs))) /\
  (ign = false -> Exists (fun f => fbs_cpp (fbs_ty f) = None) fs -> add_columns decide_fbs ign 0 fs = Err).
Proof.
  rewrite fbs_add. split.
  - intros H. replace (negb ign && _) with false; [apply f_equal; exact (cols_expected fbs_column fs 0)|].
    symmetry. destruct H as [->|H]; [reflexivity|]. apply andb_false_iff. right.
    destruct (existsb _ fs) eqn:E; [|reflexivity]. exfalso. apply existsb_none in E.
    apply Exists_exists in E. destruct E as (f & I1 & E & _). rewrite Forall_forall in H. specialize (H f I1).
    unfold fbs_ty_opt, fbs_column in E. destruct (fbs_cpp (fbs_ty f)); [discriminate|congruence].
  - intros -> E. cbn [negb andb].
    assert (X : existsb (fun f => match fbs_ty_opt f with Some _ => false | None => true end) fs = true).
    { apply (existsb_none fbs_ty_opt (fun _ => true)). eapply Exists_impl; [|exact E]. intros f Ef.
      unfold fbs_ty_opt, fbs_column. rewrite Ef. auto. }
    now rewrite X.
Qed.

Lemma refl64 c : (wraps 64 (control c) - wraps 64 (control c) <? - 2 ^ 63) || (2 ^ 63 <=? wraps 64 (control c) - wraps 64 (control c)) = false.
Proof. rewrite Z.sub_diag. reflexivity. Qed.
Lemma span_len c n : 1 <= c < LIM -> 0 <= n < 2 ^ 28 ->
  compare (DT (mk_ctrl 7 0 c 0 n) None) (DT (mk_ctrl 7 0 c 0 0) None) = Ret 0.
Proof.
  intros Hf Hn. rewrite compare_unfold. cbv zeta. rewrite LIMv in Hf.
  set (x := control (mk_ctrl 7 0 c 0 n)). set (y := control (mk_ctrl 7 0 c 0 0)).
  assert (Ec : x = y + n * 2 ^ 35) by (unfold x, y, control; cbn [container ptr_bit t0 t1 fixed_size]; pows; lia).
  assert (Bc' : 0 <= y < 2 ^ 22) by (unfold y, control; cbn [container ptr_bit t0 t1 fixed_size]; pows; lia).
  rewrite (wraps_id 64 x) by (unfold in_s; change (64 - 1) with 63; pows; lia).
  rewrite (wraps_id 64 y) by (unfold in_s; change (64 - 1) with 63; pows; lia).
  replace ((x - y <? - 2 ^ 63) || (2 ^ 63 <=? x - y)) with false
    by (symmetry; apply orb_false_iff; split; [apply Z.ltb_ge|apply Z.leb_gt]; pows; lia).
  destruct (Z.eqb_spec (x - y) 0) as [E|E]; [reflexivity|]. cbn [negb]. f_equal.
  unfold wraps. replace (x - y) with ((8 * n) * 2 ^ 32) by (pows; lia).
  rewrite Z.mod_mul by (pows; lia). reflexivity.
Qed.
Lemma supported_column b c : 1 <= c <= 18 -> supported 2047 (column_type b c).
Proof. intros H. unfold column_type, view, stringy. destruct b; cbn; destruct ((16 <=? c) && (c <=? 18)); lia. Qed.
Lemma eqb_refl_col b c : 1 <= c <= 18 -> dtype_eqb (get_dtype (column_type b c)) (get_dtype (column_type b c)) = Ret true.
Proof.
  intros H. destruct (eqb_iff_same_up_to_lengths _ _ (supported_column b c H) (supported_column b c H)) as (r & -> & R).
  f_equal. now apply R.
Qed.
Lemma coltype_eq t : supported LIM t -> becomes_column t = true ->
  dtype_eqb (coltype t) (get_dtype (column_type (many t) (elem_code t))) = Ret true.
Proof.
  intros S B.
  destruct t as [c|t|k t|t n|o k w|a b|a]; try discriminate B; cbn [becomes_column] in B.
  - pose proof (scalar_range c B). apply eqb_refl_col. cbn. lia.
  - destruct t as [c|t|k t|t n|o k w|a b|a]; try discriminate B; apply eqb_refl_col.
    + apply Z.eqb_eq in B. subst c. cbn. lia.
    + destruct t; cbn; lia.
    + destruct t; cbn; lia.
  - destruct k; try discriminate B. apply eqb_refl_col. destruct t as [c|t| | | | |]; try (cbn; lia).
  - destruct t as [c|t| | | | |]; try discriminate B. apply range_3_18 in B.
    unfold coltype. cbn [many elem_code]. destruct ((c =? 16) || (c =? 18)) eqn:V; [apply eqb_refl_col; lia|].
    assert (VC : view c = c).
    { unfold view, stringy. rewrite orb_false_iff, !Z.eqb_neq in V.
      destruct ((16 <=? c) && (c <=? 18)) eqn:E; [|reflexivity]. rewrite andb_true_iff, !Z.leb_le in E. lia. }
    unfold column_type. rewrite VC, span_get by (rewrite LIMv; lia). destruct S as [(f & [= <-] & Hf) Hn].
    unfold dtype_eqb. rewrite compare_unfold. cbv zeta. rewrite refl64. rewrite Z.sub_diag.
    change (0 =? 0) with true. cbn [negb elems_size length]. rewrite Z.eqb_refl. cbn [negb compare_elems].
    rewrite span_len by assumption. reflexivity.
Qed.

Lemma struct_columns ign ms : Forall (fun m => supported LIM (m_type m)) ms ->
  (ign = true \/ Forall (fun m => m_function m = true /\ m_only_this m = false \/ becomes_column (m_type m) = true) ms ->
   exists cols, add_columns decide_struct ign 0 ms = Ret cols /\
     Forall2 (fun c e => fst c = fst e /\ dtype_eqb (snd c) (get_dtype (snd e)) = Ret true) cols
       (expected_columns struct_column ms)) /\
  (ign = false -> Exists (fun m => (m_function m = false \/ m_only_this m = true) /\ becomes_column (m_type m) = false) ms ->
   add_columns decide_struct ign 0 ms = Err).
Proof.
  intros S. rewrite struct_add by assumption. split.
  - intros H. replace (negb ign && _) with false.
    + eexists. split; [reflexivity|]. unfold expected_columns. generalize 0%nat at 1 2. clear H.
      induction S as [|m ms Sm S IH]; intros k; [constructor|]. cbn. apply Forall2_app; [|apply IH].
      unfold struct_ty_opt, struct_column. destruct (m_function m && _); [constructor|].
      destruct (becomes_column (m_type m)) eqn:B; [|constructor]. repeat constructor. now apply coltype_eq.
    + symmetry. destruct H as [->|H]; [reflexivity|]. apply andb_false_iff. right.
      destruct (existsb _ ms) eqn:E; [|reflexivity]. exfalso. apply existsb_none in E.
      apply Exists_exists in E. destruct E as (m & I1 & E & K). rewrite Forall_forall in H. specialize (H m I1).
      unfold struct_ty_opt, not_skipped in *. destruct H as [(F & T)|B].
      * rewrite F, T in K. discriminate.
      * rewrite B in E. destruct (m_function m && _); discriminate.
  - intros -> E. cbn [negb andb].
    assert (X : existsb (fun m => match struct_ty_opt m with Some _ => false | None => not_skipped m end) ms = true).
    { apply existsb_none. eapply Exists_impl; [|exact E]. intros m (K & B). unfold struct_ty_opt, not_skipped.
      rewrite B. destruct (m_function m), (m_only_this m); cbn; auto; destruct K; discriminate. }
    now rewrite X.
Qed.

Lemma pb_shape b c : 3 <= c <= 18 -> c <> 12 -> c <> 15 ->
  is_primitive (elem_of (get_dtype (column_type b c))) || is_absl_span (elem_of (get_dtype (column_type b c))) = true.
Proof. intros. destruct b; codes c Hc; (reflexivity || congruence). Qed.
Lemma pb_cpp_range t c : pb_cpp t = Some c -> 3 <= c <= 18 /\ c <> 12 /\ c <> 15.
Proof. destruct t; cbn; intros [= <-]; lia. Qed.
Lemma fbs_cpp_range t c : fbs_cpp t = Some c -> 3 <= c <= 18 /\ c <> 12 /\ c <> 15.
Proof. destruct t; cbn; intros [= <-]; lia. Qed.
Lemma pb_col_inv ign fs cols i d : add_columns decide_pb ign 0 fs = Ret cols -> In (i, d) cols ->
  exists f c, nth_error fs i = Some f /\ pb_cpp (pb_ty f) = Some c /\ d = get_dtype (column_type (pb_repeated f) c).
Proof.
  rewrite pb_add. destruct (negb ign && _); [discriminate|]. intros [= <-] H.
  destruct (cols_from_in _ _ _ _ _ H) as (f & N & T & _). rewrite Nat.sub_0_r in N.
  unfold pb_ty_opt, pb_column in T. destruct (pb_cpp (pb_ty f)) as [c|] eqn:E; [|discriminate]. injection T as <-. eauto.
Qed.
Lemma fbs_col_inv ign fs cols i d : add_columns decide_fbs ign 0 fs = Ret cols -> In (i, d) cols ->
  exists f c, nth_error fs i = Some f /\ fbs_cpp (fbs_ty f) = Some c /\ d = get_dtype (column_type (fbs_repeating f) c).
Proof.
  rewrite fbs_add. destruct (negb ign && _); [discriminate|]. intros [= <-] H.
  destruct (cols_from_in _ _ _ _ _ H) as (f & N & T & _). rewrite Nat.sub_0_r in N.
  unfold fbs_ty_opt, fbs_column in T. destruct (fbs_cpp (fbs_ty f)) as [c|] eqn:E; [|discriminate]. injection T as <-. eauto.
Qed.
Lemma struct_col_inv ign ms cols i d : Forall (fun m => supported LIM (m_type m)) ms ->
  add_columns decide_struct ign 0 ms = Ret cols -> In (i, d) cols ->
  exists m, nth_error ms i = Some m /\ becomes_column (m_type m) = true /\ d = coltype (m_type m).
Proof.
  intros S. rewrite struct_add by assumption. destruct (negb ign && _); [discriminate|]. intros [= <-] H.
  destruct (cols_from_in _ _ _ _ _ H) as (m & N & T & _). rewrite Nat.sub_0_r in N.
  unfold struct_ty_opt in T. destruct (m_function m && _); [discriminate|].
  destruct (becomes_column (m_type m)) eqn:B; [|discriminate]. injection T as <-. eauto.
Qed.

Lemma pb_values ign fs cols i d f rows :
  add_columns decide_pb ign 0 fs = Ret cols -> In (i, d) cols -> nth_error fs i = Some f -> pb_repeated f = false ->
  rows_ok (pb_message_ok fs) rows ->
  exists c, pb_cpp (pb_ty f) = Some c /\
    load_column pb_getters_ fs (i, d) rows =
      Ret (map (fun r => match r with Some m => show (m i) | None => zero_cell false c end) rows).
Proof.
  intros A In_ Nf R OK. destruct (pb_col_inv _ _ _ _ _ A In_) as (f' & c & N & P & ->).
  rewrite Nf in N. injection N as <-. exists c. split; [assumption|].
  unfold load_column. cbn [fst snd]. rewrite Nf, (pb_shape _ c) by apply (pb_cpp_range _ _ P). cbn [negb].
  apply mapO_ok. intros r Hr. unfold rows_ok in OK. rewrite Forall_forall in OK. specialize (OK r Hr).
  destruct r as [m|]; cbn [option_map].
  - specialize (OK i f Nf). unfold pb_value_ok in OK. rewrite P, R in OK. rewrite R. now apply pb_cell.
  - rewrite (pb_null f c P), R. reflexivity.
Qed.
Lemma pb_values_many ign fs cols i d f rows :
  add_columns decide_pb ign 0 fs = Ret cols -> In (i, d) cols -> nth_error fs i = Some f -> pb_repeated f = true ->
  rows_ok (pb_message_ok fs) rows ->
  load_column pb_getters_ fs (i, d) rows =
    Ret (map (fun r => match r with
                       | Some m => match m i with
                                   | VList l => Many (map (fun v => if survives v then Some v else None) l)
                                   | _ => Many []
                                   end
                       | None => Many []
                       end) rows).
Proof.
  intros A In_ Nf R OK. destruct (pb_col_inv _ _ _ _ _ A In_) as (f' & c & N & P & ->).
  rewrite Nf in N. injection N as <-.
  unfold load_column. cbn [fst snd]. rewrite Nf, (pb_shape _ c) by apply (pb_cpp_range _ _ P). cbn [negb].
  apply mapO_ok. intros r Hr. unfold rows_ok in OK. rewrite Forall_forall in OK. specialize (OK r Hr).
  destruct r as [m|]; cbn [option_map].
  - specialize (OK i f Nf). unfold pb_value_ok in OK. rewrite P, R in OK. rewrite R.
    destruct (m i) as [| | |l]; cbn [has_type] in OK; try contradiction. now apply pb_cell_many.
  - rewrite (pb_null f c P), R. reflexivity.
Qed.
Lemma fbs_values ign fs cols i d f rows :
  add_columns decide_fbs ign 0 fs = Ret cols -> In (i, d) cols -> nth_error fs i = Some f ->
  rows_ok (fbs_table_ok fs) rows ->
  rows_ok (fun o => o i = None -> fbs_repeating f = false /\ fbs_ty f <> ET_STRING) rows ->
  exists c, fbs_cpp (fbs_ty f) = Some c /\
    load_column fbs_getters fs (i, d) rows =
      Ret (map (fun r => match r with
                         | Some o => match o i with Some v => show v | None => One (VNum 0) end
                         | None => zero_cell (fbs_repeating f) c
                         end) rows).
Proof.
  intros A In_ Nf OK ST. destruct (fbs_col_inv _ _ _ _ _ A In_) as (f' & c & N & P & ->).
  rewrite Nf in N. injection N as <-. exists c. split; [assumption|].
  unfold load_column. cbn [fst snd]. rewrite Nf, (pb_shape _ c) by apply (fbs_cpp_range _ _ P). cbn [negb].
  apply mapO_ok. intros r Hr. unfold rows_ok in OK, ST. rewrite Forall_forall in OK, ST.
  specialize (OK r Hr). specialize (ST r Hr).
  destruct r as [o|]; cbn [option_map]; [|now apply fbs_null].
  destruct (o i) as [v|] eqn:V.
  - specialize (OK i f v Nf V). unfold fbs_value_ok in OK. rewrite P in OK. now apply fbs_cell.
  - destruct (ST eq_refl) as [R T]. rewrite (fbs_absent f c P), R.
    replace (c =? 18) with false; [reflexivity|]. symmetry. apply Z.eqb_neq. intros ->.
    destruct (fbs_ty f); try discriminate P. congruence.
Qed.
Lemma mapO_ub {A B} (f : A -> outcome B) l : (forall x, In x l -> (exists y, f x = Ret y) \/ f x = UB) ->
  (exists x, In x l /\ f x = UB) -> mapO f l = UB.
Proof.
  induction l as [|x l IH]; intros H (z & Z & E); [destruct Z|]. cbn.
  destruct (H x (or_introl eq_refl)) as [(y & Y)|Y]; rewrite Y; cbn [obind]; [|reflexivity].
  rewrite IH; [reflexivity| |].
  - intros w W. apply H. now right.
  - destruct Z as [->|Z]; [congruence|]. eauto.
Qed.
Lemma fbs_undefined ign fs cols i d f rows o :
  add_columns decide_fbs ign 0 fs = Ret cols -> In (i, d) cols -> nth_error fs i = Some f ->
  rows_ok (fbs_table_ok fs) rows -> In (Some o) rows -> o i = None -> fbs_repeating f = true \/ fbs_ty f = ET_STRING ->
  load_column fbs_getters fs (i, d) rows = UB.
Proof.
  intros A In_ Nf OK Io Oi K. destruct (fbs_col_inv _ _ _ _ _ A In_) as (f' & c & N & P & ->).
  rewrite Nf in N. injection N as <-.
  unfold load_column. cbn [fst snd]. rewrite Nf, (pb_shape _ c) by apply (fbs_cpp_range _ _ P). cbn [negb].
  unfold rows_ok in OK. rewrite Forall_forall in OK.
  apply mapO_ub.
  - intros r Hr. specialize (OK r Hr). destruct r as [p|]; cbn [option_map]; [|left; rewrite (fbs_null f c P); eauto].
    destruct (p i) as [v|] eqn:V.
    + left. specialize (OK i f v Nf V). unfold fbs_value_ok in OK. rewrite P in OK. rewrite (fbs_cell f c v P OK). eauto.
    + rewrite (fbs_absent f c P). destruct (_ || _); eauto.
  - exists (Some o). split; [assumption|]. cbn [option_map]. rewrite Oi, (fbs_absent f c P).
    replace (fbs_repeating f || (c =? 18)) with true; [reflexivity|].
    destruct K as [->|K]; [reflexivity|]. rewrite K in P. injection P as <-. now rewrite orb_true_r.
Qed.
Lemma struct_values ign ms cols i d rows : Forall (fun m => supported LIM (m_type m)) ms ->
  add_columns decide_struct ign 0 ms = Ret cols -> In (i, d) cols -> rows_ok (object_ok ms) rows ->
  exists m, nth_error ms i = Some m /\
    (unloadable (m_type m) = false ->
     load_column struct_getters ms (i, d) rows =
       Ret (map (fun r => match r with
                          | Some o => if kept m then show (o i) else zero_cell (many (m_type m)) (elem_code (m_type m))
                          | None => zero_cell (many (m_type m)) (elem_code (m_type m))
                          end) rows)) /\
    (unloadable (m_type m) = true -> rows <> [] -> load_column struct_getters ms (i, d) rows = Err).
Proof.
  intros S A In_ OK. destruct (struct_col_inv _ _ _ _ _ S A In_) as (m & N & B & ->).
  exists m. split; [assumption|]. unfold load_column. cbn [fst snd]. rewrite N.
  rewrite Forall_forall in S. specialize (S m (nth_error_In _ _ N)).
  rewrite (struct_shape _ S B). cbn [negb]. unfold rows_ok in OK. rewrite Forall_forall in OK. split.
  - intros U. apply mapO_ok. intros r Hr. specialize (OK r Hr). destruct r as [o|]; cbn [option_map].
    + rewrite (struct_cell m (o i) S B (OK i m N)), U. reflexivity.
    + rewrite (struct_null m S B), U. reflexivity.
  - intros U Ne. destruct rows as [|r rows]; [congruence|]. cbn [mapO].
    specialize (OK r (or_introl eq_refl)). destruct r as [o|]; cbn [option_map].
    + rewrite (struct_cell m (o i) S B (OK i m N)), U. reflexivity.
    + rewrite (struct_null m S B), U. reflexivity.
Qed.

(** ** What does not hold *)
Definition ex_pb : list pb_field := [PbField TYPE_INT32 true].
Definition ex_pb_row : pb_message := fun _ => VList [VNum 7].
Lemma pb_many_refuted : ~ (forall ign fs cols i d rows, add_columns decide_pb ign 0 fs = Ret cols -> In (i, d) cols ->
  rows_ok (pb_message_ok fs) rows ->
  exists c, load_column pb_getters_ fs (i, d) rows =
    Ret (map (fun r => match r with Some m => show (m i) | None => zero_cell true c end) rows)).
Proof.
  intros H. specialize (H false ex_pb _ 0%nat (get_dtype (column_type true 9)) [Some ex_pb_row] eq_refl (or_introl eq_refl)).
  destruct H as (c & E).
  - repeat constructor. intros i f N. destruct i; [|destruct i; discriminate]. injection N as <-. cbn.
    repeat constructor; discriminate.
  - discriminate E.
Qed.
Definition ex_fbs (d : Z) : list fbs_field := [FbsField ET_SHORT false d].
Lemma fbs_default_refuted : ~ (forall ign fs cols i d f rows, add_columns decide_fbs ign 0 fs = Ret cols -> In (i, d) cols ->
  nth_error fs i = Some f -> rows_ok (fbs_table_ok fs) rows ->
  exists c, load_column fbs_getters fs (i, d) rows =
    Ret (map (fun r => match r with Some o => show (fbs_reads f (o i)) | None => zero_cell (fbs_repeating f) c end) rows)).
Proof.
  intros H. specialize (H false (ex_fbs 100) _ 0%nat (get_dtype (column_type false 7)) (FbsField ET_SHORT false 100)
    [Some (fun _ => None)] eq_refl (or_introl eq_refl) eq_refl).
  destruct H as (c & E).
  - repeat constructor. intros i f v _. discriminate.
  - discriminate E.
Qed.
Lemma fbs_number_absent ign fs cols i d f rows :
  add_columns decide_fbs ign 0 fs = Ret cols -> In (i, d) cols -> nth_error fs i = Some f ->
  rows_ok (fbs_table_ok fs) rows ->
  rows_ok (fun o => o i = None -> fbs_repeating f = false /\ fbs_ty f <> ET_STRING /\ fbs_default f = 0) rows ->
  exists c, fbs_cpp (fbs_ty f) = Some c /\
    load_column fbs_getters fs (i, d) rows =
      Ret (map (fun r => match r with
                         | Some o => show (fbs_reads f (o i))
                         | None => zero_cell (fbs_repeating f) c
                         end) rows).
Proof.
  intros A In_ N OK ST.
  assert (ST' : rows_ok (fun o => o i = None -> fbs_repeating f = false /\ fbs_ty f <> ET_STRING) rows).
  { eapply Forall_impl; [|exact ST]. intros [o|]; [|auto]. cbn. intros H E. destruct (H E) as (? & ? & _). auto. }
  destruct (fbs_values ign fs cols i d f rows A In_ N OK ST') as (c & P & ->). exists c. split; [assumption|].
  f_equal. apply map_ext_in. intros r Hr. unfold rows_ok in ST. rewrite Forall_forall in ST. specialize (ST r Hr).
  destruct r as [o|]; [|reflexivity]. unfold fbs_reads. destruct (o i) as [v|]; [reflexivity|].
  destruct (ST eq_refl) as (R & T & D). rewrite R, D. destruct (fbs_ty f); (reflexivity || congruence).
Qed.
Lemma struct_refuted m : kept m = false -> unloadable (m_type m) = false -> becomes_column (m_type m) = true ->
  supported LIM (m_type m) -> m_function m && negb (m_only_this m) = false ->
  forall o, object_ok [m] o -> show (o 0%nat) <> zero_cell (many (m_type m)) (elem_code (m_type m)) ->
  exists cols d, add_columns decide_struct false 0 [m] = Ret cols /\ In (0%nat, d) cols /\
    load_column struct_getters [m] (0%nat, d) [Some o] <> Ret [show (o 0%nat)].
Proof.
  intros K U B S T o OK Ne. assert (SS : Forall (fun m => supported LIM (m_type m)) [m]) by (repeat constructor; assumption).
  exists [(0%nat, coltype (m_type m))], (coltype (m_type m)).
  assert (A : add_columns decide_struct false 0 [m] = Ret [(0%nat, coltype (m_type m))]).
  { rewrite struct_add by assumption. cbn. unfold struct_ty_opt. now rewrite T, B. }
  split; [exact A|]. split; [now left|].
  destruct (struct_values false [m] _ 0%nat (coltype (m_type m)) [Some o] SS A (or_introl eq_refl)) as (m' & N & V & _).
  { repeat constructor. exact OK. }
  injection N as <-. rewrite (V U), K. cbn [map]. intros [= E]. congruence.
Qed.

(** struct { int32_t id; std::string name; double w[2] as std::array; std::vector<bool> flags; const std::string& tag(); int f(int); } *)
Definition ex_members : list member :=
  [Member (CBase 9) false true; Member (CBase 18) false true; Member (CArray (CBase 14) 2) false true;
   Member (CSeq KVector (CBase 3)) false true; Member (CPtr (CBase 18)) true true; Member (CBase 9) true false].

Definition ex_object : object := fun i =>
  match i with
  | 0%nat => VNum 5 | 1%nat => VStr [104; 105] | 2%nat => VList [VNum 1; VNum 2]
  | 3%nat => VList [VNum 1; VNum 0] | 4%nat => VPtr (VStr [120]) | _ => VNum 0
  end.

(** message { int32 id; repeated string names; Kind kind; } *)
Definition ex_message_fields : list pb_field := [PbField TYPE_INT32 false; PbField TYPE_STRING true; PbField TYPE_ENUM false].

Definition ex_message : pb_message := fun i =>
  match i with 0%nat => VNum 5 | 1%nat => VList [VStr [97]; VStr (repeat 98 13)] | _ => VNum 0 end.

(** table { hp:short = 100; name:string; } with hp stored, and with nothing stored *)
Definition ex_table_fields : list fbs_field := [FbsField ET_SHORT false 100; FbsField ET_STRING false 0].

Definition ex_table : fbs_table := fun i => match i with 0%nat => Some (VNum 80) | 1%nat => Some (VStr [97]) | _ => None end.
