(** Lemmas for C55 and C70. *)
From Coq Require Import List Bool Arith ZArith Lia.
Import ListNotations.
From Verif Require Import Base DType_Spec DType_Model DType_Proofs Lexer_Model Lexer_Proofs DynObject_Model Function_Model
  Abi_Proofs Registry_Spec.
Local Open Scope Z_scope.

(** ** Questions about the data type of a C++ type *)
Lemma sup_2047 t : supported 2047 t -> sup t.
Proof.
  unfold sup. assert (B : forall f, 1 <= f < 2047 -> 1 <= f < LIM) by (unfold LIM; intros; lia).
  induction t; cbn [supported]; intros H; try tauto; auto.
  - destruct H as [(f & -> & H) N]. split; [exists f; auto|exact N].
Qed.

Section Shapes.
Context (L := LIM_ok).

Lemma is_data_get f t : sup t -> is_data f (get_dtype t) = match t with CBase g => g =? f | _ => false end.
Proof.
  intros H. unfold is_data, is_fundamental.
  destruct t as [g|t|k t|t n|o k v|a b|a].
  - rewrite (shape_base LIM) by assumption. reflexivity.
  - pose proof (is_ptr_get LIM (CPtr t) L H) as P. unfold is_ptr in P. cbn [isP] in P. apply Z.eqb_eq in P.
    rewrite P. reflexivity.
  - rewrite (shape_seq LIM) by assumption. destruct k; reflexivity.
  - pose proof H as H'. destruct H' as [(g & -> & Hg) Hn]. rewrite (shape_array LIM) by assumption. reflexivity.
  - destruct H. rewrite (shape_map LIM) by assumption. destruct o; reflexivity.
  - destruct H. rewrite (shape_pair LIM) by assumption. reflexivity.
  - rewrite (shape_tuple1 LIM) by assumption. reflexivity.
Qed.

Lemma is_fund_get t : sup t -> is_fundamental (get_dtype t) = match t with CBase g => true | _ => false end.
Proof.
  intros H. unfold is_fundamental.
  destruct t as [g|t|k t|t n|o k v|a b|a].
  - rewrite (shape_base LIM) by assumption. reflexivity.
  - pose proof (is_ptr_get LIM (CPtr t) L H) as P. unfold is_ptr in P. cbn [isP] in P. apply Z.eqb_eq in P.
    rewrite P. reflexivity.
  - rewrite (shape_seq LIM) by assumption. destruct k; reflexivity.
  - pose proof H as H'. destruct H' as [(g & -> & Hg) Hn]. rewrite (shape_array LIM) by assumption. reflexivity.
  - destruct H. rewrite (shape_map LIM) by assumption. destruct o; reflexivity.
  - destruct H. rewrite (shape_pair LIM) by assumption. reflexivity.
  - rewrite (shape_tuple1 LIM) by assumption. reflexivity.
Qed.

Lemma base_t0 f : sup (CBase f) -> t0 (ctrl_of (get_dtype (CBase f))) = f.
Proof. intros H. rewrite (shape_base LIM) by assumption. reflexivity. Qed.

Lemma is_number_get t : sup t -> is_number (get_dtype t) = number t.
Proof.
  intros H. unfold is_number. rewrite is_fund_get by assumption. destruct t; try reflexivity.
  rewrite base_t0 by assumption. reflexivity.
Qed.
Lemma is_primitive_get t : sup t -> is_primitive (get_dtype t) = primitive t.
Proof.
  intros H. unfold is_primitive. rewrite is_fund_get by assumption. destruct t; try reflexivity.
  rewrite base_t0 by assumption. reflexivity.
Qed.
Lemma is_any_get t : sup t -> is_simd_vector_any (get_dtype t) = match t with CBase g => g =? 24 | _ => false end.
Proof. intros H. exact (is_data_get 24 t H). Qed.

Lemma is_vector_get t : sup t -> pointer_to_vector t = false -> is_simd_vector (get_dtype t) = vector t.
Proof.
  intros H P. unfold is_simd_vector. rewrite is_any_get by assumption.
  destruct t as [g|t|k t|t n|o k v|a b|a]; cbn [vector orb].
  - rewrite (shape_base LIM) by assumption. cbn. now rewrite orb_false_r.
  - rewrite (shape_ptr LIM) by assumption. destruct t as [g|t|k t|t n|o k v|a b|a]; cbn [isP].
    + rewrite (shape_base LIM) by assumption. reflexivity.
    + reflexivity.
    + rewrite (shape_seq LIM) by assumption. destruct k; try reflexivity. discriminate P.
    + pose proof H as H'. destruct H' as [(g & -> & Hg) Hn]. rewrite (shape_array LIM) by assumption. reflexivity.
    + destruct H. rewrite (shape_map LIM) by assumption. destruct o; reflexivity.
    + destruct H. rewrite (shape_pair LIM) by assumption. reflexivity.
    + rewrite (shape_tuple1 LIM) by assumption. reflexivity.
  - rewrite (shape_seq LIM) by assumption. destruct k; reflexivity.
  - pose proof H as H'. destruct H' as [(g & -> & Hg) Hn]. rewrite (shape_array LIM) by assumption. reflexivity.
  - destruct H. rewrite (shape_map LIM) by assumption. destruct o; reflexivity.
  - destruct H. rewrite (shape_pair LIM) by assumption. reflexivity.
  - rewrite (shape_tuple1 LIM) by assumption. reflexivity.
Qed.

Lemma complex_not_void : (DATA_COMPLEX_OBJECT =? DATA_VOID) = false.
Proof. reflexivity. Qed.

Lemma is_void_get t : sup t -> is_void (get_dtype t) = hidden_void t || match t with CBase f => f =? 1 | _ => false end.
Proof.
  intros H. unfold is_void.
  assert (C : forall e, sup e -> (code e =? DATA_VOID) = match e with CBase f => f =? 1 | _ => false end).
  { intros e He. destruct e; reflexivity. }
  destruct t as [g|t|k t|t n|o k v|a b|a]; cbn [hidden_void]; rewrite ?orb_false_r.
  - rewrite base_t0 by assumption. reflexivity.
  - rewrite (shape_ptr LIM) by assumption. destruct t as [g|t|k t|t n|o k v|a b|a]; cbn [isP].
    + rewrite (shape_base LIM) by assumption. reflexivity.
    + reflexivity.
    + rewrite (shape_seq LIM) by assumption. cbn [ctrl_of set_ptr t0]. now apply C.
    + pose proof H as H'. destruct H' as [(g & -> & Hg) Hn]. rewrite (shape_array LIM) by assumption. reflexivity.
    + destruct H. rewrite (shape_map LIM) by assumption. cbn [ctrl_of set_ptr t0]. now apply C.
    + destruct H. rewrite (shape_pair LIM) by assumption. cbn [ctrl_of set_ptr t0]. now apply C.
    + rewrite (shape_tuple1 LIM) by assumption. cbn [ctrl_of set_ptr t0]. now apply C.
  - rewrite (shape_seq LIM) by assumption. now apply C.
  - pose proof H as H'. destruct H' as [(g & -> & Hg) Hn]. rewrite (shape_array LIM) by assumption. reflexivity.
  - destruct H. rewrite (shape_map LIM) by assumption. now apply C.
  - destruct H. rewrite (shape_pair LIM) by assumption. now apply C.
  - rewrite (shape_tuple1 LIM) by assumption. now apply C.
Qed.

(** A pointer to the base type [f], and nothing else. *)
Lemma is_ptr_to_get f t : sup t ->
  is_ptr_to f (get_dtype t) = Ret (match t with CPtr (CBase g) => g =? f | _ => false end).
Proof.
  intros H. unfold is_ptr_to. rewrite (is_ptr_get LIM) by assumption.
  destruct t as [g|t|k t|t n|o k v|a b|a]; cbn [isP]; try reflexivity.
  destruct (ptr_to_total (CPtr t) H) as (e & E). rewrite E. cbn [obind]. f_equal.
  assert (T : (first_simple t -> e = get_dtype t) /\ (~ first_simple t -> is_data f e = false)).
  { split; intros F.
    - rewrite ptr_to_CPtr in E by assumption. congruence.
    - rewrite (shape_ptr LIM) in E by assumption. unfold ptr_to, is_complex in E.
      assert (CC : forall c, compound c = true -> code c = DATA_COMPLEX_OBJECT)
        by (intros c Cc; destruct c; [discriminate Cc|reflexivity..]).
      assert (K : forall c, sup c -> compound c = true -> is_data f (get_dtype c) = false).
      { intros c Hc Cc. rewrite is_data_get by assumption. destruct c; [discriminate Cc|reflexivity..]. }
      destruct t as [g|t|k t|t n|o k v|a b|a]; cbn [isP] in E; try (destruct F; exact I).
      + rewrite (shape_seq LIM) in E by assumption. cbn [first_simple] in F. unfold un in E.
        destruct (compound t) eqn:C; [|congruence]. rewrite (CC t C) in E. cbn [ctrl_of set_ptr t0 elems_of] in E. rewrite Z.eqb_refl in E.
        injection E as <-. now apply K.
      + destruct H. rewrite (shape_map LIM) in E by assumption. cbn [first_simple] in F. unfold bi in E.
        destruct (compound k) eqn:C; [|congruence].
        rewrite (CC k C) in E. cbn [ctrl_of set_ptr t0 elems_of] in E. rewrite Z.eqb_refl in E.
        destruct (compound v); injection E as <-; now apply K.
      + destruct H. rewrite (shape_pair LIM) in E by assumption. cbn [first_simple] in F. unfold bi in E.
        destruct (compound a) eqn:C; [|congruence].
        rewrite (CC a C) in E. cbn [ctrl_of set_ptr t0 elems_of] in E. rewrite Z.eqb_refl in E.
        destruct (compound b); injection E as <-; now apply K.
      + rewrite (shape_tuple1 LIM) in E by assumption. cbn [first_simple] in F. unfold un in E.
        destruct (compound a) eqn:C; [|congruence]. rewrite (CC a C) in E. cbn [ctrl_of set_ptr t0 elems_of] in E. rewrite Z.eqb_refl in E.
        injection E as <-. now apply K. }
  destruct T as [T1 T2].
  assert (D : first_simple t \/ ~ first_simple t).
  { destruct t; cbn [first_simple]; auto; destruct (compound _); auto; right; discriminate. }
  destruct D as [D|D].
  - rewrite (T1 D), is_data_get by assumption. reflexivity.
  - rewrite (T2 D). destruct t; try reflexivity. destruct D. exact I.
Qed.
End Shapes.

(** ** C70 *)
Lemma can_cast_iff a b : tame a -> tame b ->
  exists r, can_cast_to (get_dtype a) (get_dtype b) = Ret r /\ (r = true <-> convertible a b).
Proof.
  intros (Ha & Na & Va & Pa) (Hb & Nb & Vb & Pb).
  pose proof (sup_2047 _ Ha) as Sa. pose proof (sup_2047 _ Hb) as Sb.
  unfold can_cast_to.
  destruct (eqb_iff_same a b Ha Hb Na Nb) as (r & -> & R). cbn [obind].
  destruct r.
  { exists true. split; [reflexivity|]. split; [|reflexivity]. intros _. left. now apply R. }
  assert (D : a <> b) by (intros E; apply R in E; discriminate).
  rewrite is_void_get, Va by assumption. cbn [orb].
  destruct (match a with CBase f => f =? 1 | _ => false end) eqn:V.
  { exists true. split; [reflexivity|]. split; [|reflexivity]. intros _. right. left.
    destruct a; try discriminate. apply Z.eqb_eq in V. now subst. }
  assert (V' : a <> CBase 1) by (intros ->; discriminate).
  rewrite is_vector_get, is_any_get by assumption.
  destruct (vector a && match b with CBase g => g =? 24 | _ => false end) eqn:W.
  { exists true. split; [reflexivity|]. split; [|reflexivity]. intros _. right. right. left.
    apply andb_prop in W. destruct W as [W1 W2]. split; [exact W1|].
    destruct b; try discriminate. apply Z.eqb_eq in W2. now subst. }
  assert (W' : ~ (vector a = true /\ b = CBase 24)).
  { intros [W1 ->]. rewrite W1 in W. discriminate. }
  rewrite !is_number_get by assumption.
  destruct (number a && number b) eqn:N.
  { exists true. split; [reflexivity|]. split; [|reflexivity]. intros _. apply andb_prop in N. unfold convertible. tauto. }
  rewrite (is_ptr_to_get DATA_JSON), is_primitive_get by assumption. cbn [obind].
  destruct (match a with CPtr (CBase g) => g =? DATA_JSON | _ => false end && primitive b) eqn:J.
  { exists true. split; [reflexivity|]. split; [|reflexivity]. intros _. apply andb_prop in J. destruct J as [J1 J2].
    do 4 right. left. split; [|exact J2]. destruct a as [ |[g| | | | | | ]| | | | | ]; try discriminate.
    apply Z.eqb_eq in J1. now subst. }
  assert (N' : ~ (number a = true /\ number b = true)).
  { intros [N1 N2]. rewrite N1, N2 in N. discriminate. }
  assert (J' : ~ (a = CPtr (CBase 20) /\ primitive b = true)).
  { intros [-> J2]. rewrite J2 in J. discriminate. }
  unfold is_string_view. rewrite is_data_get by assumption.
  destruct (match b with CBase g => g =? DATA_STRING_VIEW | _ => false end) eqn:Q.
  - assert (Eb : b = CBase 17).
    { destruct b; try discriminate. apply Z.eqb_eq in Q. now subst. }
    rewrite !is_ptr_to_get by assumption. cbn [obind]. eexists. split; [reflexivity|].
    rewrite orb_true_iff. split.
    + intros [X|X]; do 5 right; (split; [exact Eb|]); destruct a as [ |[g| | | | | | ]| | | | | ]; try discriminate;
        apply Z.eqb_eq in X; subst; [left|right]; reflexivity.
    + unfold convertible. intros [X|[X|[X|[X|[X|[_ [X|X]]]]]]]; try tauto; rewrite X; [left|right]; reflexivity.
  - exists false. split; [reflexivity|]. split; [discriminate|].
    unfold convertible. intros [X|[X|[X|[X|[X|[X _]]]]]]; try tauto. rewrite X in Q. discriminate.
Qed.

Lemma validate_plain params given : Forall tame params -> Forall tame given -> length given = length params ->
  exists r, validate_from false (map get_dtype params) (map get_dtype given) = Ret r /\
    (r = true <-> Forall2 convertible given params).
Proof.
  revert params. induction given as [|t given IH]; intros [|p params] Hp Hg Hl; try discriminate.
  - exists true. split; [reflexivity|]. split; [constructor|reflexivity].
  - inversion_clear Hp as [|? ? Hp1 Hp2]. inversion_clear Hg as [|? ? Hg1 Hg2].
    cbn [map validate_from validate_one]. destruct (can_cast_iff t p Hg1 Hp1) as (r & -> & R). cbn [obind].
    destruct r.
    + injection Hl as Hl. destruct (IH params Hp2 Hg2 Hl) as (r & -> & R'). exists r. split; [reflexivity|].
      rewrite R'. split.
      * intros F. constructor; [now apply R|exact F].
      * now intros F; inversion F.
    + exists false. split; [reflexivity|]. split; [discriminate|]. intros F. inversion F; subst. now apply R.
Qed.

Lemma vector_one a f : tame a -> tame (CBase f) ->
  exists r, validate_one true (get_dtype (CPtr (CBase f))) (get_dtype a) = Ret r /\
    (r = true <-> vector_convertible a (CBase f)).
Proof.
  intros Ha Hf. unfold validate_one.
  pose proof Ha as (Ha1 & Ha2 & Ha3 & Ha4). pose proof Hf as (Hf1 & Hf2 & _ & _).
  rewrite ptr_to_CPtr; [|now apply sup_2047|exact I]. cbn [obind].
  rewrite is_vector_get; [|now apply sup_2047|exact Ha4].
  destruct (can_cast_iff a (CBase f) Ha Hf) as (r & R1 & R2).
  destruct a as [g|t|k t|t n|o k v|x y|x]; cbn [vector vector_convertible]; try (exists r; now split).
  - destruct (Z.eqb_spec g 24) as [->|G].
    + assert (E : elem_of (get_dtype (CBase 24)) = get_dtype (CBase 24)).
      { rewrite (shape_base LIM) by (exact LIM_ok || (cbn; unfold LIM; lia)). reflexivity. }
      rewrite E. destruct (eqb_iff_same (CBase 24) (CBase f) Ha1 Hf1 Ha2 Hf2) as (r' & -> & R'). exists r'.
      split; [reflexivity|]. rewrite R'. split; congruence.
    + exists r. split; [exact R1|]. rewrite R2.
      assert (E : vector_convertible (CBase g) (CBase f) = convertible (CBase g) (CBase f)).
      { unfold vector_convertible. destruct g as [|p|p]; try reflexivity. do 5 (destruct p as [p|p|]; try reflexivity).
        congruence. }
      change (convertible (CBase g) (CBase f) <-> vector_convertible (CBase g) (CBase f)). rewrite E. reflexivity.
  - destruct k; try (exists r; now split).
    rewrite elem_seq by (now apply (sup_2047 t)).
    destruct (eqb_iff_same t (CBase f)) as (r' & -> & R'); try assumption.
    exists r'. split; [reflexivity|exact R'].
Qed.

Lemma validate_vector fs extra given : Forall tame (map CBase fs) -> Forall tame given -> length given = length fs ->
  exists r, validate_from true (map get_dtype (map CPtr (map CBase fs)) ++ extra) (map get_dtype given) = Ret r /\
    (r = true <-> Forall2 vector_convertible given (map CBase fs)).
Proof.
  revert fs. induction given as [|t given IH]; intros [|f fs] Hp Hg Hl; try discriminate.
  - exists true. split; [destruct extra; reflexivity|]. split; [constructor|reflexivity].
  - inversion_clear Hp as [|? ? Hp1 Hp2]. inversion_clear Hg as [|? ? Hg1 Hg2].
    cbn [map validate_from app]. destruct (vector_one t f Hg1 Hp1) as (r & -> & R). cbn [obind].
    destruct r.
    + injection Hl as Hl. destruct (IH fs Hp2 Hg2 Hl) as (r & -> & R'). exists r. split; [reflexivity|].
      rewrite R'. split.
      * intros F. constructor; [now apply R|exact F].
      * now intros F; inversion F.
    + exists false. split; [reflexivity|]. split; [discriminate|]. intros F. inversion F; subst. now apply R.
Qed.

(** ** C55 *)
From Verif Require Import Registry_Model.

Definition full_desc (o : offer) : desc :=
  Desc (o_name o) (get_dtype (o_return o)) (map get_dtype (o_args o)) (o_func o) (first_context (o_args o)) (o_vector o).

Lemma find_context_found ts : forall i k, Forall sup ts ->
  find_context i (map get_dtype ts) (Some k) = Ret (Some k).
Proof.
  induction ts as [|t ts IH]; intros i k H; [reflexivity|]. inversion_clear H as [|? ? H1 H2].
  cbn [map find_context]. rewrite is_ptr_to_get by assumption. cbn [obind].
  destruct (match t with CPtr (CBase g) => g =? DATA_CONTEXT | _ => false end); apply IH; assumption.
Qed.

Lemma context_ptr_eq t : match t with CPtr (CBase g) => g =? DATA_CONTEXT | _ => false end = is_context_ptr t.
Proof.
  destruct t as [ |[g| | | | | | ]| | | | | ]; reflexivity.
Qed.

Lemma find_context_ok ts : forall i, Forall sup ts ->
  find_context i (map get_dtype ts) None = Ret (option_map (fun k => (i + k)%nat) (first_context ts)).
Proof.
  induction ts as [|t ts IH]; intros i H; [reflexivity|]. inversion_clear H as [|? ? H1 H2].
  cbn [map find_context first_context]. rewrite is_ptr_to_get by assumption. cbn [obind].
  rewrite context_ptr_eq. destruct (is_context_ptr t).
  - rewrite find_context_found by assumption. cbn. now rewrite Nat.add_0_r.
  - rewrite IH by assumption. f_equal. destruct (first_context ts); [|reflexivity]. cbn [option_map].
    now rewrite Nat.add_succ_r.
Qed.

Lemma init_offer o v : Forall sup (o_args o) ->
  init (Desc (o_name o) (get_dtype (o_return o)) (map get_dtype (o_args o)) (o_func o) None v) =
  Ret (Desc (o_name o) (get_dtype (o_return o)) (map get_dtype (o_args o)) (o_func o) (first_context (o_args o)) v).
Proof.
  intros H. unfold init. cbn [d_args d_context d_name d_return d_func d_vector]. rewrite find_context_ok by assumption.
  cbn [obind]. f_equal. f_equal. destruct (first_context _); reflexivity.
Qed.

Lemma pointers_get ts : Forall sup ts -> forallb is_ptr (map get_dtype ts) = forallb is_pointer ts.
Proof.
  induction 1 as [|t ts H _ IH]; [reflexivity|]. cbn [map forallb]. rewrite IH.
  rewrite (is_ptr_get LIM) by (exact LIM_ok || assumption). destruct t; reflexivity.
Qed.

(** One registration. *)
Lemma register_offer_ok grows o r : Forall sup (o_args o) ->
  register_offer grows o r =
  Ret (if well_formed o && match find_text (r_descs r) (o_name o) with Some _ => false | None => true end
       then (Registry ((o_name o, full_desc o) :: r_descs r)
              (if grows (length (r_descs r)) then S (r_epoch r) else r_epoch r), true)
       else (r, false)).
Proof.
  intros H. unfold register_offer, well_formed. destruct (o_vector o) eqn:V.
  - unfold register_vector, offer_desc. cbn [d_args d_name d_return d_func d_context]. rewrite map_length, pointers_get by assumption.
    rewrite Nat.leb_antisym.
    destruct (length (o_args o) <? 2)%nat; cbn [negb andb]; [reflexivity|].
    destruct (forallb is_pointer (o_args o)); cbn [negb andb]; [|reflexivity].
    unfold register. rewrite init_offer by assumption. cbn [obind d_name].
    unfold full_desc. rewrite V. destruct (find_text (r_descs r) (o_name o)); reflexivity.
  - unfold register, offer_desc. rewrite init_offer by assumption. cbn [obind d_name andb].
    unfold full_desc. rewrite V. destruct (find_text (r_descs r) (o_name o)); reflexivity.
Qed.

(** What the registry holds after the offers [os]. *)
Definition holds (os : list offer) (r : registry) : Prop :=
  forall name, find_text (r_descs r) name = option_map full_desc (bound os name).

Lemma bound_snoc os o name :
  bound (os ++ [o]) name =
  match bound os name with
  | Some b => Some b
  | None => if well_formed o && text_eqb (o_name o) name then Some o else None
  end.
Proof.
  induction os as [|x os IH]; [cbn; reflexivity|]. cbn [app bound].
  destruct (well_formed x && text_eqb (o_name x) name); [reflexivity|]. apply IH.
Qed.

Lemma text_eqb_refl a : text_eqb a a = true.
Proof. now apply text_eqb_eq. Qed.

Lemma bound_name os name o : bound os name = Some o -> o_name o = name /\ well_formed o = true /\ In o os.
Proof.
  induction os as [|x os IH]; [discriminate|]. cbn [bound].
  destruct (well_formed x && text_eqb (o_name x) name) eqn:E.
  - intros [= <-]. apply andb_prop in E. destruct E as [E1 E2]. apply text_eqb_eq in E2. split; [exact E2|].
    split; [exact E1|now left].
  - intros B. destruct (IH B) as (I1 & I2 & I3). split; [exact I1|]. split; [exact I2|now right].
Qed.

Lemma run_ok grows : forall os before r, Forall (fun o => Forall sup (o_args o)) os -> holds before r ->
  exists r' oks, run_offers grows os r = Ret (r', oks) /\ holds (before ++ os) r' /\ length oks = length os /\
    (forall i o, nth_error os i = Some o -> nth_error oks i = Some (accepted (before ++ firstn i os) o)) /\
    (length (r_descs r) <= length (r_descs r'))%nat /\ (r_epoch r <= r_epoch r')%nat /\
    ((forall n, (length (r_descs r) <= n < length (r_descs r'))%nat -> grows n = false) <-> r_epoch r' = r_epoch r).
Proof.
  induction os as [|o os IH]; intros before r Hs Hh.
  - exists r, []. rewrite app_nil_r. repeat split; auto.
    + intros i o. destruct i; discriminate.
    + intros _ n N. lia.
  - inversion_clear Hs as [|? ? Hs1 Hs2]. cbn [run_offers]. rewrite register_offer_ok by assumption. cbn [obind].
    rewrite Hh. set (acc := well_formed o && match option_map full_desc (bound before (o_name o)) with
      Some _ => false | None => true end).
    assert (Eacc : acc = accepted before o) by (unfold acc, accepted; destruct (bound before (o_name o)); reflexivity).
    set (r1 := if acc then _ else (r, false)).
    assert (R1 : exists r0, r1 = (r0, acc) /\ holds (before ++ [o]) r0 /\
      r0 = (if acc then Registry ((o_name o, full_desc o) :: r_descs r)
              (if grows (length (r_descs r)) then S (r_epoch r) else r_epoch r) else r)).
    { unfold r1. destruct acc eqn:A.
      - eexists. split; [reflexivity|]. split; [|reflexivity]. intros name. cbn [r_descs find_text].
        rewrite bound_snoc. unfold acc in A. apply andb_prop in A. destruct A as [A1 A2]. rewrite A1. cbn [andb].
        destruct (text_eqb (o_name o) name) eqn:T.
        + apply text_eqb_eq in T. subst name. destruct (bound before (o_name o)); [discriminate|reflexivity].
        + rewrite Hh. destruct (bound before name); reflexivity.
      - exists r. split; [reflexivity|]. split; [|reflexivity]. intros name. rewrite Hh, bound_snoc.
        destruct (bound before name) eqn:B; [reflexivity|].
        destruct (well_formed o && text_eqb (o_name o) name) eqn:W; [|reflexivity].
        apply andb_prop in W. destruct W as [W1 W2]. apply text_eqb_eq in W2. subst name.
        unfold acc in A. rewrite W1, B in A. discriminate. }
    destruct R1 as (r0 & -> & H0 & E0).
    destruct (IH (before ++ [o]) r0 Hs2 H0) as (r' & oks & K1 & K2 & K3 & K4 & K5 & K6 & K7).
    exists r', (acc :: oks). cbn [obind]. rewrite K1. cbn [obind]. split; [reflexivity|].
    rewrite <- app_assoc in K2. cbn [app] in K2. split; [exact K2|]. split; [cbn [length]; lia|].
    split.
    { intros [|i] x; cbn [nth_error firstn].
      - intros [= <-]. rewrite app_nil_r. now rewrite Eacc.
      - intros E. rewrite (K4 _ _ E). f_equal. rewrite <- app_assoc. reflexivity. }
    assert (Ln : length (r_descs r0) = if acc then S (length (r_descs r)) else length (r_descs r)).
    { rewrite E0. destruct acc; reflexivity. }
    assert (Le : r_epoch r0 = if acc then (if grows (length (r_descs r)) then S (r_epoch r) else r_epoch r) else r_epoch r).
    { rewrite E0. destruct acc; reflexivity. }
    destruct acc; [|rewrite Ln, Le in *; repeat split; try assumption; apply K7].
    destruct (grows (length (r_descs r))) eqn:G.
    + split; [lia|]. split; [lia|]. split; [|lia]. intros N. rewrite N in G by lia. discriminate.
    + split; [lia|]. split; [lia|]. rewrite <- Le. rewrite <- K7. split; intros N n Hn.
      * apply N. lia.
      * destruct (Nat.eq_dec n (length (r_descs r))) as [->|]; [exact G|]. apply N. lia.
Qed.

Lemma holds_empty : holds [] empty_registry.
Proof. intros name. reflexivity. Qed.

Lemma history_ok grows os : Forall (fun o => Forall sup (o_args o)) os ->
  exists r oks, run_offers grows os empty_registry = Ret (r, oks) /\ length oks = length os /\
    (forall i o, nth_error os i = Some o -> nth_error oks i = Some (accepted (firstn i os) o)) /\
    (forall name,
      match bound os name with
      | None => get_function name r = None
      | Some o => exists p, get_function name r = Some p /\
          deref p r = Ret (Desc name (get_dtype (o_return o)) (map get_dtype (o_args o)) (o_func o)
                             (first_context (o_args o)) (o_vector o))
      end).
Proof.
  intros H. destruct (run_ok grows os [] empty_registry H holds_empty) as (r & oks & K1 & K2 & K3 & K4 & _).
  exists r, oks. split; [exact K1|]. split; [exact K3|]. split; [exact K4|]. intros name.
  unfold get_function. pose proof (K2 name) as F. cbn [app] in F. rewrite F. clear F.
  destruct (bound os name) as [o|] eqn:B; cbn [option_map]; [|reflexivity].
  destruct (bound_name _ _ _ B) as (N & _). eexists. split; [reflexivity|].
  unfold deref. cbn [p_epoch p_name]. rewrite Nat.eqb_refl. pose proof (K2 name) as F. cbn [app] in F. rewrite F, B.
  cbn [option_map]. unfold full_desc. now rewrite N.
Qed.

Lemma pointer_ok grows os1 os2 r1 r2 oks1 oks2 name p :
  Forall (fun o => Forall sup (o_args o)) (os1 ++ os2) ->
  run_offers grows os1 empty_registry = Ret (r1, oks1) -> run_offers grows os2 r1 = Ret (r2, oks2) ->
  get_function name r1 = Some p ->
  ((forall n, (length (r_descs r1) <= n < length (r_descs r2))%nat -> grows n = false) -> deref p r2 = deref p r1) /\
  ((exists n, (length (r_descs r1) <= n < length (r_descs r2))%nat /\ grows n = true) -> deref p r2 = UB).
Proof.
  intros H E1 E2 G. apply Forall_app in H. destruct H as [H1 H2].
  destruct (run_ok grows os1 [] empty_registry H1 holds_empty) as (r1' & oks1' & K1 & K2 & _).
  rewrite E1 in K1. injection K1 as <- <-.
  destruct (run_ok grows os2 os1 r1 H2 K2) as (r2' & oks2' & J1 & J2 & _ & _ & J5 & J6 & J7).
  rewrite E2 in J1. injection J1 as <- <-.
  unfold get_function in G. destruct (find_text (r_descs r1) name) as [d|] eqn:F; [|discriminate].
  injection G as <-. unfold deref. cbn [p_epoch p_name]. rewrite Nat.eqb_refl. split.
  - intros N. rewrite (proj1 J7 N), Nat.eqb_refl. rewrite F.
    rewrite K2 in F. cbn [app] in F. rewrite J2.
    assert (B : bound (os1 ++ os2) name = bound os1 name).
    { destruct (bound os1 name) as [o|] eqn:B; [|discriminate F]. clear -B.
      induction os1 as [|x os1 IH]; [discriminate|]. cbn [bound app] in *.
      destruct (well_formed x && text_eqb (o_name x) name); [assumption|]. now apply IH. }
    rewrite B, F. reflexivity.
  - intros (n & N1 & N2). destruct (Nat.eqb_spec (r_epoch r1) (r_epoch r2)) as [E|]; [|reflexivity].
    symmetry in E. pose proof (proj2 J7 E n N1) as E'. rewrite E' in N2. discriminate.
Qed.

Lemma operands_ok o : Z.of_nat (length (o_args o)) < 2 ^ 32 -> well_formed o = true ->
  operand_count (full_desc o) =
  Z.of_nat (length (o_args o)) - (match first_context (o_args o) with Some _ => 1 | None => 0 end)
    - (if o_vector o then 1 else 0).
Proof.
  intros L W. unfold operand_count, full_desc. cbn [d_args d_context d_vector]. rewrite map_length.
  assert (F : forall n, first_context (o_args o) = Some n -> (n < length (o_args o))%nat).
  { clear. induction (o_args o) as [|t ts IH]; [discriminate|]. cbn [first_context length].
    intros n. destruct (is_context_ptr t); [intros [= <-]; lia|]. destruct (first_context ts) as [k|]; [|discriminate].
    intros [= <-]. specialize (IH k eq_refl). lia. }
  rewrite (wrapu_id 32 (Z.of_nat (length (o_args o)))) by (unfold in_u; lia). unfold well_formed in W.
  destruct (o_vector o).
  - apply andb_prop in W. destruct W as [W _]. apply Nat.leb_le in W.
    destruct (first_context (o_args o)) as [n|]; [|rewrite wrapu_id by (unfold in_u; lia); lia].
    rewrite (wrapu_id 32 (Z.of_nat (length (o_args o)) - 1)) by (unfold in_u; lia). rewrite wrapu_id by (unfold in_u; lia). lia.
  - destruct (first_context (o_args o)) as [n|]; [|lia]. specialize (F n eq_refl).
    rewrite wrapu_id by (unfold in_u; lia). lia.
Qed.

(** ** C70: whole lists *)
Lemma Forall2_len {A B} (R : A -> B -> Prop) l l' : Forall2 R l l' -> length l = length l'.
Proof. induction 1; cbn; congruence. Qed.

Lemma plain_ok name ret params func ctx given : Forall tame params -> Forall tame given ->
  exists r, validate_args (Desc name ret (map get_dtype params) func ctx false) (map get_dtype given) = Ret r /\
    (r = true <-> Forall2 convertible given params).
Proof.
  intros Hp Hg. unfold validate_args. cbn [d_args d_vector]. rewrite !map_length.
  destruct (Z.eqb_spec (Z.of_nat (length given)) (Z.of_nat (length params))) as [E|E]; cbn [negb].
  - apply Nat2Z.inj in E. exact (validate_plain params given Hp Hg E).
  - exists false. split; [reflexivity|]. split; [discriminate|]. intros F. apply Forall2_len in F. congruence.
Qed.

Lemma vector_ok name ret fs out func ctx given : Forall tame (map CBase fs) -> Forall tame given ->
  Z.of_nat (length fs) < 2 ^ 63 ->
  exists r, validate_args (Desc name ret (map get_dtype (map CPtr (map CBase fs) ++ [out])) func ctx true)
              (map get_dtype given) = Ret r /\
    (r = true <-> Forall2 vector_convertible given (map CBase fs)).
Proof.
  intros Hp Hg L. unfold validate_args. cbn [d_args d_vector]. rewrite map_app, app_length, !map_length.
  cbn [map length]. rewrite Nat2Z.inj_add. change (Z.of_nat 1) with 1.
  rewrite wrapu_id by (unfold in_u; pows; lia).
  destruct (Z.eqb_spec (Z.of_nat (length given)) (Z.of_nat (length fs) + 1 - 1)) as [E|E]; cbn [negb].
  - apply validate_vector; auto. lia.
  - exists false. split; [reflexivity|]. split; [discriminate|]. intros F. apply Forall2_len in F.
    rewrite map_length in F. lia.
Qed.

(** Types with a void inside are accepted everywhere. *)
Lemma hidden_void_accepted a b : supported 2047 a -> supported 2047 b -> hidden_void a = true ->
  can_cast_to (get_dtype a) (get_dtype b) = Ret true.
Proof.
  intros Ha Hb V. unfold can_cast_to.
  destruct (eqb_iff_same_up_to_lengths a b Ha Hb) as (r & -> & _). cbn [obind]. destruct r; [reflexivity|].
  rewrite is_void_get by (now apply sup_2047). now rewrite V.
Qed.
