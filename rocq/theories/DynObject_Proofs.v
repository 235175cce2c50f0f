(** Proofs for C26 and C27. *)
From Coq Require Import List Bool Arith ZArith Lia.
Import ListNotations.
From Verif Require Import Base Lexer_Model Lexer_Proofs DType_Spec DType_Model DType_Proofs DynObject_Model DynObject_Spec.
Local Open Scope Z_scope.

(** *** Sizes *)
Definition slot (T : cpptype) : Z := if byte_size (get_dtype T) <? 8 then 8 else byte_size (get_dtype T).
Lemma base_dtype f : supported 2047 (CBase f) -> get_dtype (CBase f) = DT (mk_ctrl 0 0 f 0 0) None.
Proof. intros H. apply (shape_base 2047); [|exact H]. unfold lim_ok. pows. lia. Qed.
Lemma simd_dtype t : container (ctrl_of (get_dtype (CSeq KSimdVector t))) = COLLECTION_SIMD_VECTOR.
Proof. cbn [get_dtype]. unfold wrap_unary. destruct (_ || _); reflexivity. Qed.
Lemma simd_not_ptr t : is_ptr (get_dtype (CSeq KSimdVector t)) = false.
Proof.
  cbn [get_dtype]. unfold wrap_unary. destruct (is_ptr (get_dtype t)) eqn:E; cbn [orb]; [reflexivity|]. destruct (true && is_collection (get_dtype t)); [reflexivity|]. exact E.
Qed.
Lemma field_type_allowed T : field_type T -> exists n, bytes_of T = Some n /\
  is_primitive (get_dtype T) || is_simd_vector (get_dtype T) = true /\ Z.of_nat n <= slot T /\ (slot T = 8 \/ slot T = 16).
Proof.
  intros (S1 & NA & B & NL). unfold slot. destruct T as [f| |k t| | | |]; try (exfalso; apply B; reflexivity).
  - rewrite (base_dtype f S1). unfold is_primitive, is_fundamental, is_ptr, is_simd_vector, is_simd_vector_any, byte_size, is_ptr, is_simd_vector, is_simd_vector_any. cbn [ctrl_of t0 container ptr_bit].
    unfold DATA_BIT, DATA_STRING_VIEW, DATA_STD_STRING_VIEW, DATA_VOID, DATA_U8, DATA_I8, DATA_U16, DATA_I16, DATA_U32, DATA_I32, DATA_U64, DATA_I64, DATA_F32, DATA_F64.
    assert (In f [3;4;5;6;7;8;9;10;11;12;13;14;15;16;17]) as I.
    { cbn [bytes_of] in B. repeat match type of B with context [?a =? ?b] => destruct (Z.eqb_spec a b) as [->|]; [cbn; tauto|] end. exfalso. apply B. reflexivity. }
    cbn [In] in I. decompose [or] I; try contradiction; subst f; try (eexists; repeat split; vm_compute; auto; congruence).
  - destruct k; try (exfalso; apply B; reflexivity). exists 16%nat. assert (is_simd_vector (get_dtype (CSeq KSimdVector t)) = true) as V by (unfold is_simd_vector; rewrite simd_dtype; apply orb_true_r).
    assert (byte_size (get_dtype (CSeq KSimdVector t)) = 16) as Z16. { unfold byte_size. rewrite simd_not_ptr, simd_dtype, V. reflexivity. }
    rewrite V, Z16. repeat split; auto. apply orb_true_r. vm_compute. congruence.
Qed.

(** *** Layout *)
(** The fields from the newest to the oldest fill the bytes below [a] down to [lo]. *)
Inductive laid (lo : Z) : list (text * field) -> list (text * cpptype) -> Z -> Prop :=
| laid_nil : laid lo [] [] lo
| laid_cons name T off l ts : laid lo l ts off -> field_type T -> find_text l name = None ->
    laid lo ((name, Field (get_dtype T) off) :: l) ((name, T) :: ts) (off + slot T).
Lemma laid_le lo l ts a : laid lo l ts a -> lo <= a.
Proof. induction 1 as [|name T off l ts H IH FT N]; [lia|]. destruct (field_type_allowed T FT) as (n & _ & _ & L & [E|E]); lia. Qed.
Lemma laid_len lo l ts a : laid lo l ts a -> a <= lo + 16 * Z.of_nat (length l).
Proof. induction 1 as [|name T off l ts H IH FT N]; cbn [length]; [lia|]. destruct (field_type_allowed T FT) as (n & _ & _ & L & [E|E]); lia. Qed.
Lemma laid_mod lo l ts a : laid lo l ts a -> (a - lo) mod 8 = 0.
Proof.
  induction 1 as [|name T off l ts H IH FT N]; [now rewrite Z.sub_diag|]. destruct (field_type_allowed T FT) as (n & _ & _ & L & [E|E]); rewrite E;
    [replace (off + 8 - lo) with (off - lo + 1 * 8) by lia|replace (off + 16 - lo) with (off - lo + 2 * 8) by lia]; rewrite Z_mod_plus_full; exact IH.
Qed.
Lemma laid_find lo l ts a : laid lo l ts a -> forall name, match find_text l name, find_text ts name with
  | Some f, Some T => field_type T /\ f_dtype f = get_dtype T /\ lo <= f_offset f /\ f_offset f + slot T <= a /\ (f_offset f - lo) mod 8 = 0
  | None, None => True | _, _ => False end.
Proof.
  intros H name. induction H as [|n T off l ts H IH FT N]; cbn [find_text]; [exact I|]. destruct (text_eqb n name) eqn:E.
  - cbn [f_dtype f_offset]. split; [exact FT|]. split; [reflexivity|]. split; [eapply laid_le; eauto|]. split; [lia|]. eapply laid_mod; eauto.
  - destruct (find_text l name) as [f|], (find_text ts name) as [T'|]; auto. destruct IH as (F1 & F2 & F3 & F4 & F5). split; [exact F1|]. split; [exact F2|]. split; [exact F3|]. split; [|exact F5]. destruct (field_type_allowed T FT) as (m & _ & _ & L & [Es|Es]); lia.
Qed.
Lemma laid_apart lo l ts a : laid lo l ts a -> forall n1 n2 f1 f2 T1 T2, text_eqb n1 n2 = false ->
  find_text l n1 = Some f1 -> find_text l n2 = Some f2 -> find_text ts n1 = Some T1 -> find_text ts n2 = Some T2 ->
  f_offset f1 + slot T1 <= f_offset f2 \/ f_offset f2 + slot T2 <= f_offset f1.
Proof.
  induction 1 as [|n T off l ts H IH FT N]; cbn [find_text]; intros n1 n2 f1 f2 T1 T2 D H1 H2 K1 K2; [discriminate|].
  destruct (text_eqb n n1) eqn:E1, (text_eqb n n2) eqn:E2.
  - apply text_eqb_eq in E1 as <-. apply text_eqb_eq in E2 as <-. rewrite (proj2 (text_eqb_eq n n) eq_refl) in D. discriminate.
  - injection H1 as <-. injection K1 as <-. pose proof (laid_find _ _ _ _ H n2) as Q. rewrite H2, K2 in Q. cbn [f_offset]. lia.
  - injection H2 as <-. injection K2 as <-. pose proof (laid_find _ _ _ _ H n1) as Q. rewrite H1, K1 in Q. cbn [f_offset]. lia.
  - exact (IH n1 n2 f1 f2 T1 T2 D H1 H2 K1 K2).
Qed.
(** The types by name, newest first, as [laid] keeps them, are the first types. *)
Fixpoint accepted (ts : list (text * cpptype)) (fs : list (text * cpptype)) : list (text * cpptype) :=
  match fs with [] => ts | (n, T) :: fs' => accepted (match find_text ts n with Some _ => ts | None => (n, T) :: ts end) fs' end.
Lemma accepted_find fs : forall ts name, find_text (accepted ts fs) name = match find_text ts name with Some T => Some T | None => first_type fs name end.
Proof.
  induction fs as [|[n T] fs IH]; intros ts name; cbn [accepted first_type]; [now destruct (find_text ts name)|]. rewrite IH. destruct (find_text ts n) as [T'|] eqn:E.
  - destruct (find_text ts name) eqn:E'; [reflexivity|]. destruct (text_eqb n name) eqn:D; [|reflexivity]. apply text_eqb_eq in D as ->. congruence.
  - cbn [find_text]. destruct (text_eqb n name) eqn:D; [|reflexivity]. apply text_eqb_eq in D as ->. now rewrite E.
Qed.
Lemma build_laid lo tb fs : 0 <= lo -> Forall (fun p => field_type (snd p)) fs -> forall s ts,
  laid lo (s_fields s) ts (s_alloc s) -> s_table s = tb -> lo + 16 * Z.of_nat (length (s_fields s) + length fs) < 2 ^ 32 ->
  let s' := build fs s in laid lo (s_fields s') (accepted ts fs) (s_alloc s') /\ s_table s' = tb.
Proof.
  intros Lo F. induction F as [|[n T] fs FT F IH]; intros s ts H TB B; cbn [build accepted]; [split; assumption|]. cbn [snd] in FT. cbn [length] in B.
  destruct (field_type_allowed T FT) as (k & Bk & Al & L & Sz). unfold add. rewrite Al. pose proof (laid_find _ _ _ _ H n) as Q. fold (slot T).
  destruct (find_text (s_fields s) n) as [f|] eqn:E, (find_text ts n) as [T'|]; try contradiction.
  - apply IH; auto. lia.
  - pose proof (laid_le _ _ _ _ H). pose proof (laid_len _ _ _ _ H). apply IH; cbn [s_fields s_alloc s_table length]; auto; [|lia].
    rewrite wrapu_id by (unfold in_u; lia). now constructor.
Qed.
Lemma align16 h : 0 <= h < 2 ^ 32 -> align_to h 16 mod 16 = 0 /\ h <= align_to h 16 < h + 16.
Proof.
  intros H. unfold align_to. rewrite wrapu_id by (unfold in_u; pows; lia). replace (Z.lxor (2 ^ 64 - 1) (16 - 1)) with (Z.shiftl (Z.ones 60) 4) by reflexivity.
  assert (Z.land (h + 16 - 1) (Z.shiftl (Z.ones 60) 4) = (h + 15) / 16 * 16) as E.
  { replace (h + 16 - 1) with (h + 15) by lia. assert (0 <= h + 15 < 2 ^ 64) as B by (pows; lia).
    replace ((h + 15) / 16 * 16) with (Z.shiftl (Z.shiftr (h + 15) 4) 4) by (rewrite Z.shiftl_mul_pow2, Z.shiftr_div_pow2 by lia; reflexivity).
    apply Z.bits_inj'. intros i Hi. rewrite Z.land_spec. destruct (Z.ltb_spec i 4) as [L|L].
    - rewrite !(Z.shiftl_spec_low _ 4 i) by assumption. apply andb_false_r.
    - rewrite !(Z.shiftl_spec _ 4 i) by assumption. rewrite Z.shiftr_spec by lia. replace (i - 4 + 4) with i by lia.
      destruct (Z.ltb_spec (i - 4) 60) as [M|M]; [rewrite Z.ones_spec_low by lia; apply andb_true_r|]. rewrite Z.ones_spec_high by lia. rewrite andb_false_r. symmetry.
      destruct (Z.eq_dec (h + 15) 0) as [->|]; [apply Z.bits_0|]. apply Z.bits_above_log2; [lia|]. apply Z.log2_lt_pow2; [lia|]. apply Z.lt_le_trans with (2 ^ 64); [lia|]. apply Z.pow_le_mono_r; lia. }
  rewrite E. split; [apply Z_mod_mult|]. pose proof (Z_div_mod_eq_full (h + 15) 16). pose proof (Z.mod_pos_bound (h + 15) 16 ltac:(lia)). lia.
Qed.
(** The header: what comes before the fields *)
Definition header_size (header : Z) : Z := s_alloc (new_schema header false).
Lemma header_ok header : 0 <= header < 2 ^ 32 - 16 -> 8 <= header_size header /\ header <= header_size header < header + 24 /\ header_size header mod 16 = 0.
Proof.
  intros H. unfold header_size, new_schema. cbn [s_alloc]. set (h := if header =? 0 then 8 else header). assert (0 < h < 2 ^ 32 - 16 /\ header <= h <= header + 8) as (Hh & Hd) by (unfold h; destruct (Z.eqb_spec header 0); pows; lia).
  destruct (align16 h ltac:(lia)) as (A & B). rewrite wrapu_id by (unfold in_u; lia). repeat split; try lia; try exact A.
  destruct (Z.le_gt_cases 8 (align_to h 16)) as [|G]; [assumption|]. exfalso. pose proof (Z.mod_small (align_to h 16) 16 ltac:(lia)). lia.
Qed.
Definition room (header : Z) (fs : list (text * cpptype)) : Prop := 0 <= header /\ header + 24 + 16 * Z.of_nat (length fs) < 2 ^ 32.
Lemma built header tb fs : room header fs -> Forall (fun p => field_type (snd p)) fs ->
  let s := build fs (new_schema header tb) in laid (header_size header) (s_fields s) (accepted [] fs) (s_alloc s) /\ s_table s = tb.
Proof.
  intros [R1 R2] F. destruct (header_ok header ltac:(lia)) as (H1 & H2 & H3). apply build_laid; auto; [lia|constructor|]. cbn [new_schema s_fields length]. lia.
Qed.

Theorem layout header tb fs name T n : room header fs -> Forall (fun p => field_type (snd p)) fs ->
  first_type fs name = Some T -> bytes_of T = Some n ->
  let s := build fs (new_schema header tb) in
  exists f, get_field s name = Some f /\ f_dtype f = get_dtype T /\ header <= f_offset f /\ 8 <= f_offset f /\ f_offset f + Z.of_nat n <= s_alloc s /\ f_offset f mod 8 = 0 /\
    forall name' f' T' n', name' <> name -> get_field s name' = Some f' -> first_type fs name' = Some T' -> bytes_of T' = Some n' ->
      f_offset f + Z.of_nat n <= f_offset f' \/ f_offset f' + Z.of_nat n' <= f_offset f.
Proof.
  intros R F FT B s. destruct (built header tb fs R F) as [L TB]. fold s in L. destruct R as [R1 R2]. destruct (header_ok header ltac:(lia)) as (H1 & H2 & H3).
  pose proof (laid_find _ _ _ _ L name) as Q. rewrite accepted_find in Q. cbn [find_text] in Q. rewrite FT in Q. unfold get_field. destruct (find_text (s_fields s) name) as [f|] eqn:E; [|contradiction].
  destruct Q as (Q1 & Q2 & Q3 & Q4 & Q5). destruct (field_type_allowed T Q1) as (n0 & B0 & _ & L0 & _). assert (n0 = n) as -> by congruence.
  exists f. split; [reflexivity|]. split; [assumption|]. split; [lia|]. split; [lia|]. split; [lia|]. split.
  - replace (f_offset f) with (f_offset f - header_size header + header_size header) by lia. rewrite Z.add_mod, Q5 by lia. assert (header_size header mod 8 = 0) as -> by (rewrite (Znumtheory.Zmod_div_mod 8 16 (header_size header)) by (lia || (exists 2; reflexivity)); now rewrite H3). reflexivity.
  - intros name' f' T' n' N' E' FT' B'. pose proof (laid_find _ _ _ _ L name') as Q'. rewrite accepted_find in Q'. cbn [find_text] in Q'. rewrite FT', E' in Q'. destruct Q' as (P1 & _). destruct (field_type_allowed T' P1) as (n1 & B1 & _ & L1 & _). assert (n1 = n') as -> by congruence.
    assert (text_eqb name name' = false) as D. { destruct (text_eqb name name') eqn:D; [|reflexivity]. apply text_eqb_eq in D. congruence. }
    destruct (laid_apart _ _ _ _ L name name' f f' T T' D E E') as [A|A]; try (rewrite accepted_find; cbn [find_text]; assumption); [left|right]; lia.
Qed.

(** *** Reading and writing bytes *)
Lemma skipn_more {A} b : forall a (l : list A), skipn a (skipn b l) = skipn (b + a) l.
Proof. induction b as [|b IH]; intros a l; [reflexivity|]. destruct l; [now rewrite !skipn_nil|]. cbn. apply IH. Qed.
Lemma overwrite_length a v o : (a + length v <= length o)%nat -> length (overwrite a v o) = length o.
Proof. intros H. unfold overwrite. rewrite !app_length, firstn_length, skipn_length. lia. Qed.
Lemma overwrite_same a v o : (a + length v <= length o)%nat -> firstn (length v) (skipn a (overwrite a v o)) = v.
Proof.
  intros H. unfold overwrite. rewrite skipn_app, firstn_length, Nat.min_l by lia. rewrite Nat.sub_diag. rewrite (skipn_all2 (firstn a o)) by (rewrite firstn_length; lia). cbn [app skipn].
  rewrite firstn_app, Nat.sub_diag, firstn_all. cbn. apply app_nil_r.
Qed.
Lemma overwrite_other a v o b n : (a + length v <= length o)%nat -> (b + n <= a \/ a + length v <= b)%nat ->
  firstn n (skipn b (overwrite a v o)) = firstn n (skipn b o).
Proof.
  intros H D. unfold overwrite. destruct D as [D|D].
  - rewrite skipn_app, firstn_app, skipn_length, firstn_length. replace (n - (Nat.min a (length o) - b))%nat with 0%nat by lia. cbn [firstn]. rewrite app_nil_r, skipn_firstn_comm, firstn_firstn. f_equal. lia.
  - rewrite skipn_app, (skipn_all2 (firstn a o)) by (rewrite firstn_length; lia). rewrite firstn_length, Nat.min_l by lia. cbn [app]. rewrite skipn_app, (skipn_all2 v) by lia. cbn [app]. rewrite skipn_more. do 2 f_equal. lia.
Qed.
Lemma repeat_read {A} (x : A) n a k : (a + n <= k)%nat -> firstn n (skipn a (repeat x k)) = repeat x n.
Proof.
  revert a k. induction n as [|n IH]; intros a k H; [reflexivity|]. assert (skipn a (repeat x k) = x :: skipn (S a) (repeat x k)) as ->.
  { clear IH. revert a H. induction k as [|k IHk]; intros a H; [lia|]. destruct a; [reflexivity|]. cbn [skipn repeat] in *. apply IHk. lia. }
  cbn [firstn repeat]. f_equal. apply IH. lia.
Qed.

(** *** Set and get *)
Section Objects.
Variables (header : Z) (tb : bool) (fs : list (text * cpptype)).
Hypothesis R : room header fs.
Hypothesis F : Forall (fun p => field_type (snd p)) fs.
Let s := build fs (new_schema header tb).

Lemma first_type_ok name T : first_type fs name = Some T -> field_type T.
Proof.
  clear R s. induction F as [|[n T'] l FT F' IH]; cbn [first_type]; [discriminate|]. destruct (text_eqb n name); [intros [= <-]; exact FT|]. auto.
Qed.
Lemma no_field name : first_type fs name = None -> get_field s name = None.
Proof.
  intros H. destruct (built header tb fs R F) as [L _]. fold s in L. pose proof (laid_find _ _ _ _ L name) as Q. rewrite accepted_find in Q. cbn [find_text] in Q. rewrite H in Q. unfold get_field. destruct (find_text (s_fields s) name); [contradiction|reflexivity].
Qed.
Lemma same_type_test p T0 T : field_type T0 -> supported 2047 T -> no_arrays T ->
  dtype_eqb (get_dtype (deduced p T)) (get_dtype T0) = Ret (match p with Variable_ => false | _ => if cpptype_eq_dec T T0 then true else false end).
Proof.
  intros (S0 & N0 & B0 & _) S1 N1. destruct (eqb_iff_same (deduced p T) T0) as (r & -> & E); auto; try (destruct p; assumption). f_equal. destruct p; cbn [deduced] in E.
  1, 2: destruct (cpptype_eq_dec T T0) as [->|D]; [now apply E|destruct r; [exfalso; apply D, E; reflexivity|reflexivity]].
  destruct r; [|reflexivity]. exfalso. rewrite <- (proj1 E eq_refl) in B0. apply B0. reflexivity.
Qed.

Definition state (o : bytes) (cur : text -> cpptype -> bytes) : Prop :=
  length o = Z.to_nat (s_alloc s) /\
  forall name T n, first_type fs name = Some T -> bytes_of T = Some n -> length (cur name T) = n /\ get s name T n o = Ret (cur name T).
Definition after (t : setting) (cur : text -> cpptype -> bytes) (name : text) (T : cpptype) : bytes :=
  match t_how t with
  | Variable_ => cur name T
  | _ => if text_eqb (t_name t) name then (if cpptype_eq_dec (t_type t) T then t_value t else cur name T) else cur name T
  end.
Lemma get_field_of name T n : first_type fs name = Some T -> bytes_of T = Some n ->
  exists f, get_field s name = Some f /\ f_dtype f = get_dtype T /\ 0 <= f_offset f /\ (Z.to_nat (f_offset f) + n <= Z.to_nat (s_alloc s))%nat.
Proof. intros H B. destruct (layout header tb fs name T n R F H B) as (f & G & D & O1 & O2 & O3 & _). exists f. repeat split; auto; [lia|]. fold s in O3. lia. Qed.
Lemma get_at name T n f o : first_type fs name = Some T -> bytes_of T = Some n -> get_field s name = Some f -> length o = Z.to_nat (s_alloc s) ->
  get s name T n o = Ret (firstn n (skipn (Z.to_nat (f_offset f)) o)).
Proof.
  intros H B G L. destruct (get_field_of name T n H B) as (f' & G' & D & O1 & O2). assert (f' = f) as -> by congruence. unfold get. rewrite G, D. pose proof (first_type_ok _ _ H) as FT. destruct FT as (S0 & N0 & B0 & NL).
  change (get_dtype T) with (get_dtype (deduced Rvalue T)) at 1. rewrite (same_type_test Rvalue T T) by (auto; now repeat split). cbn [obind]. destruct (cpptype_eq_dec T T); [|contradiction]. cbn [negb]. cbv zeta. rewrite L. destruct (Nat.leb_spec (Z.to_nat (f_offset f) + n) (Z.to_nat (s_alloc s))); [reflexivity|lia].
Qed.
Lemma set_step t o cur : proper t -> state o cur ->
  match set s (t_name t) (t_how t) (t_type t) (t_value t) o with
  | Ret o' => first_type fs (t_name t) = Some (t_type t) /\ t_how t <> Variable_ /\ state o' (after t cur)
  | Err => (first_type fs (t_name t) <> Some (t_type t) \/ t_how t = Variable_) /\ forall name T, first_type fs name = Some T -> after t cur name T = cur name T
  | _ => False
  end.
Proof.
  intros (S1 & N1 & V1) [L C]. unfold set. destruct (first_type fs (t_name t)) as [T0|] eqn:E0.
  2: { rewrite (no_field _ E0). split; [left; discriminate|]. intros name T H. unfold after. destruct (t_how t); auto; destruct (text_eqb (t_name t) name) eqn:D; auto; apply text_eqb_eq in D; congruence. }
  pose proof (first_type_ok _ _ E0) as FT0. destruct (field_type_allowed T0 FT0) as (n0 & B0 & _). destruct (get_field_of _ _ _ E0 B0) as (f & G & D & O1 & O2). rewrite G, D, (same_type_test _ T0) by assumption. cbn [obind].
  destruct (t_how t) eqn:W.
  3: { cbn [negb]. split; [now right|]. intros name T H. unfold after. now rewrite W. }
  1, 2: destruct (cpptype_eq_dec (t_type t) T0) as [Y|ND]; cbn [negb]; try subst T0.
  2, 4: split; [left; congruence|]; intros name T H; unfold after; rewrite W; destruct (text_eqb (t_name t) name) eqn:X; auto; apply text_eqb_eq in X; subst name; destruct (cpptype_eq_dec (t_type t) T) as [Y|]; auto; congruence.
  1, 2: (cbv zeta; specialize (V1 _ B0); rewrite L, V1; destruct (Nat.leb_spec (Z.to_nat (f_offset f) + n0) (Z.to_nat (s_alloc s))) as [_|Bad]; [|lia]; split; [reflexivity|]; split; [congruence|];
    split; [rewrite overwrite_length by lia; exact L|]; intros name T n H B; destruct (C name T n H B) as [C1 C2];
    destruct (get_field_of _ _ _ H B) as (f1 & G1 & D1 & P1 & P2); rewrite (get_at name T n f1) by (auto; rewrite overwrite_length by lia; exact L); unfold after; rewrite W;
    destruct (text_eqb (t_name t) name) eqn:X;
    [apply text_eqb_eq in X; subst name; rewrite E0 in H; injection H as <-; destruct (cpptype_eq_dec (t_type t) (t_type t)); [|contradiction]; assert (n0 = n) as -> by congruence; split; [exact V1|]; f_equal; assert (f1 = f) as -> by congruence; rewrite <- V1; rewrite overwrite_same by lia; reflexivity
    |split; [exact C1|]; rewrite <- C2; rewrite (get_at name T n f1) by auto; rewrite overwrite_other; [reflexivity|lia|];
     destruct (layout header tb fs (t_name t) (t_type t) n0 R F E0 B0) as (f2 & G2 & _ & _ & _ & _ & _ & A); fold s in G2, A; assert (f2 = f) as -> by congruence;
     destruct (A name f1 T n) as [A'|A']; auto; [intros ->; rewrite (proj2 (text_eqb_eq (t_name t) (t_name t)) eq_refl) in X; discriminate|right; lia|left; lia]]).
Qed.
Lemma set_all_ok ts : Forall proper ts -> forall o cur, state o cur ->
  exists o', set_all s ts o = Ret o' /\ state o' (fun name T => last_set name T (cur name T) ts).
Proof.
  induction 1 as [|t ts P Ps IH]; intros o cur S0; cbn [set_all last_set]; [eauto|]. pose proof (set_step t o cur P S0) as Q.
  destruct (set s (t_name t) (t_how t) (t_type t) (t_value t) o) as [o'| | |]; try contradiction.
  - destruct Q as (_ & _ & Q). exact (IH o' (after t cur) Q).
  - destruct Q as [_ Q]. destruct (IH o cur S0) as (o' & E & S'). exists o'. split; [exact E|]. destruct S' as [L C]. split; [exact L|]. intros name T n H B. specialize (Q name T H). unfold after in Q. specialize (C name T n H B).
    rewrite Q. exact C.
Qed.
Lemma new_object_state : state (new_object s) (fun _ T => match bytes_of T with Some n => repeat 0 n | None => [] end).
Proof.
  unfold new_object. split; [apply repeat_length|]. intros name T n H B. rewrite B. split; [apply repeat_length|]. destruct (get_field_of _ _ _ H B) as (f & G & D & O1 & O2). rewrite (get_at name T n f) by (auto; apply repeat_length). rewrite repeat_read by assumption. reflexivity.
Qed.
Theorem set_get ts : Forall proper ts -> exists o, set_all s ts (new_object s) = Ret o /\
  forall name T n, first_type fs name = Some T -> bytes_of T = Some n -> get s name T n o = Ret (last_set name T (repeat 0 n) ts).
Proof.
  intros P. destruct (set_all_ok ts P _ _ new_object_state) as (o & E & _ & C). exists o. split; [exact E|]. intros name T n H B. destruct (C name T n H B) as [_ G]. rewrite B in G. exact G.
Qed.
Theorem mismatch name p T v n o : supported 2047 T -> no_arrays T -> first_type fs name <> Some T ->
  set s name p T v o = Err /\ get s name T n o = Err.
Proof.
  intros S1 N1 H. unfold set, get. destruct (first_type fs name) as [T0|] eqn:E0; [|now rewrite (no_field _ E0)]. pose proof (first_type_ok _ _ E0) as FT0. destruct (field_type_allowed T0 FT0) as (n0 & B0 & _).
  destruct (get_field_of _ _ _ E0 B0) as (f & G & D & _). rewrite G, D, (same_type_test p T0) by assumption. change (get_dtype T) with (get_dtype (deduced Rvalue T)). rewrite (same_type_test Rvalue T0) by assumption. cbn [obind].
  destruct (cpptype_eq_dec T T0) as [->|]; [congruence|]. destruct p; split; reflexivity.
Qed.
Theorem variable_refused name T v o : supported 2047 T -> no_arrays T -> set s name Variable_ T v o = Err.
Proof.
  intros S1 N1. unfold set. destruct (first_type fs name) as [T0|] eqn:E0; [|now rewrite (no_field _ E0)]. pose proof (first_type_ok _ _ E0) as FT0. destruct (field_type_allowed T0 FT0) as (n0 & B0 & _).
  destruct (get_field_of _ _ _ E0 B0) as (f & G & D & _). rewrite G, D, (same_type_test Variable_ T0) by assumption. reflexivity.
Qed.
End Objects.

(** *** The registry *)
(** Names are bound to existing schemas, once, and their initialisers have run once. *)
Record reg_ok (r : registry) : Prop := {
  ro_valid : forall name id, find_text (r_table r) name = Some id -> (id < length (r_schemas r))%nat;
  ro_inits : map fst (r_table r) = r_inits r;
  ro_once : NoDup (r_inits r) }.
Lemma find_text_in_fst {A} (t : list (text * A)) k : find_text t k = None -> ~ In k (map fst t).
Proof.
  induction t as [|[k' v] t IH]; cbn [find_text map fst]; intros H; [intros []|]. destruct (text_eqb k' k) eqn:E; [discriminate|]. intros [<-|I]; [|exact (IH H I)]. rewrite (proj2 (text_eqb_eq k' k') eq_refl) in E. discriminate.
Qed.
Lemma empty_ok : reg_ok empty_registry.
Proof. split; cbn; [discriminate|reflexivity|constructor]. Qed.
Lemma create_ok name header tb init r id r' : reg_ok r -> get_or_create name header tb init r = Ret (id, r') -> reg_ok r'.
Proof.
  intros [V I O] H. unfold get_or_create in H. destruct (find_text (r_table r) name) as [i|] eqn:E; [injection H as <- <-; now split|]. destruct (run_init init _) as [s| | |]; try discriminate. injection H as <- <-.
  split; cbn [r_table r_schemas r_inits find_text map fst].
  - intros n i Hn. rewrite app_length. cbn [length]. destruct (text_eqb name n); [injection Hn as <-; lia|]. specialize (V n i Hn). lia.
  - now rewrite I.
  - constructor; [|assumption]. rewrite <- I. now apply find_text_in_fst.
Qed.
Lemma set_nth_length {A} i (x : A) l : (i < length l)%nat -> length (set_nth i x l) = length l.
Proof. intros H. unfold set_nth. rewrite app_length, firstn_length. cbn [length]. rewrite skipn_length. lia. Qed.
Lemma rexec_ok c r r' : reg_ok r -> rexec c r = Ret r' -> reg_ok r' /\
  (forall name id, lookup name r = Some id -> lookup name r' = Some id) /\
  (forall name, lookup name r = None -> lookup name r' <> None -> exists header tb init, c = R_create name header tb init).
Proof.
  intros O H. destruct c as [n header tb init|n fname d]; cbn [rexec] in H.
  - destruct (get_or_create n header tb init r) as [[i r1]| | |] eqn:E; try discriminate. injection H as <-. split; [eapply create_ok; eauto|]. unfold get_or_create in E. unfold lookup. destruct (find_text (r_table r) n) as [j|] eqn:F.
    + injection E as <- <-. split; [auto|]. intros name N N'. contradiction.
    + destruct (run_init init _) as [s| | |]; try discriminate. injection E as <- <-. cbn [r_table find_text]. split.
      * intros name id Hn. destruct (text_eqb n name) eqn:D; [|assumption]. apply text_eqb_eq in D as ->. congruence.
      * intros name N N'. destruct (text_eqb n name) eqn:D; [|contradiction]. apply text_eqb_eq in D as ->. eauto.
  - unfold extend in H. destruct (lookup n r) as [i|] eqn:L; [|discriminate]. destruct (nth_error (r_schemas r) i) as [s|] eqn:Es; [|discriminate]. injection H as <-.
    destruct O as [V I Oc]. assert (i < length (r_schemas r))%nat as Li by (apply nth_error_Some; congruence).
    split; [|split; [auto|intros name N N'; contradiction]]. split; cbn [r_table r_schemas r_inits]; auto. intros name id Hn. rewrite set_nth_length by assumption. eapply V; eauto.
Qed.
Lemma rexec_all_ok cs : forall r r', reg_ok r -> rexec_all cs r = Ret r' -> reg_ok r' /\ (forall name id, lookup name r = Some id -> lookup name r' = Some id).
Proof.
  induction cs as [|c cs IH]; intros r r' O H; cbn [rexec_all] in H; [injection H as <-; auto|]. destruct (rexec c r) as [r1| | |] eqn:E; try discriminate. destruct (rexec_ok _ _ _ O E) as (O1 & K1 & _). destruct (IH r1 r' O1 H) as (O2 & K2). split; auto.
Qed.
(** Only extensions of that name touch a schema. *)
Definition extends (name : text) (c : rcall) : bool := match c with R_extend n _ _ => text_eqb n name | _ => false end.
Lemma nth_set_other {A} i j (x : A) l : (i < length l)%nat -> i <> j -> nth_error (set_nth i x l) j = nth_error l j.
Proof.
  unfold set_nth. revert i j. induction l as [|y l IH]; intros [|i] [|j] H N; cbn in *; try lia; auto. apply IH; lia.
Qed.
Lemma find_text_inj (t : list (text * nat)) : NoDup (map snd t) -> forall a b i, find_text t a = Some i -> find_text t b = Some i -> a = b.
Proof.
  assert (forall (t : list (text * nat)) k v, find_text t k = Some v -> In v (map snd t)) as In_.
  { clear. induction t as [|[k' v'] t IH]; cbn [find_text map snd]; intros k v H; [discriminate|]. destruct (text_eqb k' k); [injection H as ->; now left|right; eapply IH; eauto]. }
  induction t as [|[k v] t IH]; cbn [find_text map snd]; intros N a b i Ha Hb; [discriminate|]. apply NoDup_cons_iff in N as [N1 N2]. destruct (text_eqb k a) eqn:Ea, (text_eqb k b) eqn:Eb.
  - apply text_eqb_eq in Ea, Eb. congruence.
  - injection Ha as ->. exfalso. apply N1. eapply In_; eauto.
  - injection Hb as ->. exfalso. apply N1. eapply In_; eauto.
  - eapply IH; eauto.
Qed.
Record ids_ok (r : registry) : Prop := { io_ok : reg_ok r; io_ids : NoDup (map snd (r_table r)); io_small : Forall (fun i => (i < length (r_schemas r))%nat) (map snd (r_table r)) }.
Lemma ids_step c r r' : ids_ok r -> rexec c r = Ret r' -> ids_ok r' /\
  forall name id, extends name c = false -> lookup name r = Some id -> nth_error (r_schemas r') id = nth_error (r_schemas r) id.
Proof.
  intros [O N B] H. destruct (rexec_ok _ _ _ O H) as (O1 & _). destruct c as [n header tb init|n fname d]; cbn [rexec] in H.
  - destruct (get_or_create n header tb init r) as [[i r1]| | |] eqn:E; try discriminate. injection H as <-. unfold get_or_create in E. destruct (find_text (r_table r) n) as [j|] eqn:F.
    + injection E as <- <-. split; [split; auto|auto].
    + destruct (run_init init _) as [s| | |]; try discriminate. injection E as <- <-. rewrite Forall_forall in B. split.
      * split; auto; cbn [r_table r_schemas map snd].
        -- constructor; [intros J; specialize (B _ J); lia|assumption].
        -- rewrite app_length. cbn [length]. constructor; [lia|]. apply Forall_forall. intros x J. specialize (B _ J). lia.
      * intros name id _ L. cbn [r_schemas]. rewrite nth_error_app1; [reflexivity|]. eapply (ro_valid _ O); eauto.
  - unfold extend in H. destruct (lookup n r) as [i|] eqn:L; [|discriminate]. destruct (nth_error (r_schemas r) i) as [s|] eqn:Es; [|discriminate]. injection H as <-. assert (i < length (r_schemas r))%nat as Li by (apply nth_error_Some; congruence). split.
    + split; auto; cbn [r_table r_schemas]. rewrite set_nth_length by assumption. assumption.
    + intros name id X Ln. cbn [extends r_schemas] in *. apply nth_set_other; [assumption|]. intros ->. unfold lookup in L, Ln. pose proof (find_text_inj _ N _ _ _ L Ln) as ->. rewrite (proj2 (text_eqb_eq name name) eq_refl) in X. discriminate.
Qed.
Lemma ids_all cs : forall r r', ids_ok r -> rexec_all cs r = Ret r' -> ids_ok r' /\
  forall name id, forallb (fun c => negb (extends name c)) cs = true -> lookup name r = Some id -> nth_error (r_schemas r') id = nth_error (r_schemas r) id.
Proof.
  induction cs as [|c cs IH]; intros r r' O H; cbn [rexec_all] in H; [injection H as <-; auto|]. destruct (rexec c r) as [r1| | |] eqn:E; try discriminate. destruct (ids_step _ _ _ O E) as (O1 & K1). destruct (IH r1 r' O1 H) as (O2 & K2). split; [assumption|].
  intros name id X L. cbn [forallb] in X. apply andb_prop in X as [X1 X2]. rewrite negb_true_iff in X1. destruct (rexec_ok _ _ _ (io_ok _ O) E) as (_ & K3 & _). rewrite (K2 name id X2 (K3 _ _ L)). exact (K1 name id X1 L).
Qed.
Lemma empty_ids : ids_ok empty_registry.
Proof. split; [apply empty_ok|constructor|constructor]. Qed.
Theorem first_wins cs cs' r name header tb init id r1 r2 : rexec_all cs empty_registry = Ret r ->
  get_or_create name header tb init r = Ret (id, r1) -> rexec_all cs' r1 = Ret r2 ->
  lookup name r2 = Some id /\
  (forall header' tb' init', get_or_create name header' tb' init' r2 = Ret (id, r2)) /\
  (forallb (fun c => negb (extends name c)) cs' = true -> nth_error (r_schemas r2) id = nth_error (r_schemas r1) id) /\
  (exists s, nth_error (r_schemas r2) id = Some s) /\
  (count_occ (list_eq_dec Ascii.ascii_dec) (r_inits r2) name = 1)%nat.
Proof.
  intros H0 H1 H2. destruct (ids_all _ _ _ empty_ids H0) as (O0 & _).
  assert (rexec (R_create name header tb init) r = Ret r1) as H1' by (cbn [rexec]; rewrite H1; reflexivity). destruct (ids_step _ _ _ O0 H1') as (O1 & _). destruct (ids_all _ _ _ O1 H2) as (O2 & K2).
  assert (lookup name r1 = Some id) as L1. { unfold get_or_create in H1. unfold lookup. destruct (find_text (r_table r) name) as [j|] eqn:F; [injection H1 as <- <-; assumption|]. destruct (run_init init _) as [s| | |]; try discriminate. injection H1 as <- <-. cbn [r_table find_text]. now rewrite (proj2 (text_eqb_eq name name) eq_refl). }
  destruct (rexec_all_ok _ _ _ (io_ok _ O1) H2) as (_ & K). pose proof (K _ _ L1) as L2. split; [assumption|]. split; [intros; unfold get_or_create; unfold lookup in L2; now rewrite L2|]. split; [intros X; now apply (K2 name)|]. split.
  - destruct (nth_error (r_schemas r2) id) eqn:E; [eauto|]. apply nth_error_None in E. pose proof (ro_valid _ (io_ok _ O2) _ _ L2). lia.
  - apply NoDup_count_occ'; [apply (ro_once _ (io_ok _ O2))|]. rewrite <- (ro_inits _ (io_ok _ O2)). destruct (in_dec (list_eq_dec Ascii.ascii_dec) name (map fst (r_table r2))) as [J|J]; [assumption|]. exfalso. unfold lookup in L2.
    clear - L2 J. induction (r_table r2) as [|[k v] t IH]; cbn [find_text map fst In] in *; [discriminate|]. destruct (text_eqb k name) eqn:E; [apply text_eqb_eq in E; apply J; now left|]. apply IH; auto.
Qed.
Theorem never_defined cs r name : rexec_all cs empty_registry = Ret r -> (forall header tb init, ~ In (R_create name header tb init) cs) -> lookup name r = None.
Proof.
  intros H N. assert (forall cs r0 r, reg_ok r0 -> rexec_all cs r0 = Ret r -> (forall header tb init, ~ In (R_create name header tb init) cs) -> lookup name r0 = None -> lookup name r = None) as G.
  { clear. induction cs as [|c cs IH]; intros r0 r O H N L; cbn [rexec_all] in H; [congruence|]. destruct (rexec c r0) as [r1| | |] eqn:E; try discriminate. destruct (rexec_ok _ _ _ O E) as (O1 & _ & K). apply (IH r1 r O1 H); [intros h t i J; apply (N h t i); now right|].
    destruct (lookup name r1) eqn:L1; [|reflexivity]. destruct (K name L) as (h & t & i & ->); [congruence|]. exfalso. apply (N h t i). now left. }
  exact (G cs _ r empty_ok H N eq_refl).
Qed.

Theorem table_found cs r name id : rexec_all cs empty_registry = Ret r -> lookup name r = Some id ->
  exists s, nth_error (r_schemas r) id = Some s /\ table_lookup name r = Ret (if s_table s then Some id else None).
Proof.
  intros H L. destruct (ids_all _ _ _ empty_ids H) as (O & _). pose proof (ro_valid _ (io_ok _ O) _ _ L) as B.
  destruct (nth_error (r_schemas r) id) as [s|] eqn:E; [|apply nth_error_None in E; lia]. exists s. split; [reflexivity|]. unfold table_lookup. now rewrite L, E.
Qed.

Theorem late_field header tb fs name T v s' : room header fs -> Forall (fun p => field_type (snd p)) fs -> field_type T ->
  bytes_of T = Some (length v) -> first_type fs name = None ->
  let s := build fs (new_schema header tb) in
  add name (get_dtype T) s = Some s' -> set s' name Rvalue T v (new_object s) = UB.
Proof.
  intros R F FT B N s A. destruct (built header tb fs R F) as [L _]. fold s in L. destruct R as [R1 R2]. destruct (header_ok header ltac:(lia)) as (H1 & _). pose proof (laid_le _ _ _ _ L).
  destruct (field_type_allowed T FT) as (n & Bn & Al & _). unfold add in A. rewrite Al in A. destruct (find_text (s_fields s) name); [discriminate|]. injection A as <-. unfold set, get_field. cbn [s_fields find_text]. rewrite (proj2 (text_eqb_eq name name) eq_refl). cbn [f_dtype f_offset].
  destruct FT as (S0 & N0 & B0 & NL). destruct (eqb_iff_same T T S0 S0 N0 N0) as (r & E & I). cbn [deduced]. rewrite E. cbn [obind]. rewrite (proj2 I eq_refl). cbn [negb]. cbv zeta. unfold new_object. rewrite repeat_length.
  assert (0 < length v)%nat as Lv. { assert (n = length v) as <- by congruence. clear - Bn. destruct T as [f| |[]| | | |]; cbn [bytes_of] in Bn; try discriminate; try (injection Bn as <-; lia). repeat match type of Bn with context [if ?b then _ else _] => destruct b end; try discriminate; injection Bn as <-; lia. }
  destruct (Nat.leb_spec (Z.to_nat (s_alloc s) + length v) (Z.to_nat (s_alloc s))); [lia|reflexivity].
Qed.

Lemma add_accepts header tb fs name T : room header fs -> Forall (fun p => field_type (snd p)) fs -> field_type T ->
  (first_type fs name = None <-> add name (get_dtype T) (build fs (new_schema header tb)) <> None).
Proof.
  intros R F FT. destruct (field_type_allowed T FT) as (n & Bn & Al & _). unfold add. rewrite Al.
  split.
  - intros N. pose proof (no_field header tb fs R F name N) as G. unfold get_field in G. rewrite G. discriminate.
  - intros A. destruct (first_type fs name) as [T0|] eqn:E; [|reflexivity]. exfalso. apply A.
    destruct (field_type_allowed T0 (first_type_ok fs F name T0 E)) as (n0 & B0 & _).
    destruct (get_field_of header tb fs R F name T0 n0 E B0) as (f & G & _). unfold get_field in G. now rewrite G.
Qed.
