(** Proofs for C90. *)
From Coq Require Import Ascii String List Bool Arith ZArith Lia.
Import ListNotations.
From Verif Require Import Base Lexer_Model Lexer_Proofs DType_Spec DType_Model DType_Proofs DynObject_Model DynObject_Spec DynObject_Proofs Function_Model
  Names_Spec Names_Model Names_Proofs Members_Spec Members_Model Members_Proofs Access_Spec Access_Model Access_Proofs AccessTotal_Spec AccessTotal_Proofs ObjField_Spec ObjField_Model.
Local Open Scope Z_scope.

(** ** Words and bytes *)
Lemma write_at : forall n a u m b, write n a u m b = if (a <=? b) && (b <? a + Z.of_nat n) then (u / 256 ^ (b - a)) mod 256 else m b.
Proof.
  induction n as [|n IH]; intros a u m b; cbn [write].
  - destruct (Z.leb_spec a b), (Z.ltb_spec b (a + Z.of_nat 0)); cbn [andb]; try reflexivity. lia.
  - rewrite IH. destruct (Z.eqb_spec b a) as [->|N].
    + destruct (Z.leb_spec a a), (Z.ltb_spec a (a + Z.of_nat (S n))); try lia. cbn [andb]. now rewrite Z.sub_diag, Z.pow_0_r, Z.div_1_r.
    + destruct (Z.leb_spec (a + 1) b), (Z.ltb_spec b (a + 1 + Z.of_nat n)), (Z.leb_spec a b), (Z.ltb_spec b (a + Z.of_nat (S n))); cbn [andb]; try reflexivity; try lia.
      rewrite Z.div_div by (try apply Z.pow_pos_nonneg; lia). f_equal. f_equal.
      replace (b - a) with (1 + (b - (a + 1))) by lia. rewrite Z.pow_add_r by lia. reflexivity.
Qed.
Lemma bytes_of_word_length n : forall u, length (bytes_of_word n u) = n.
Proof. induction n as [|n IH]; intros u; cbn; [reflexivity|]. now rewrite IH. Qed.
Lemma bytes_of_word_at n : forall u i, (i < n)%nat -> nth i (bytes_of_word n u) 0 = (u / 256 ^ Z.of_nat i) mod 256.
Proof.
  induction n as [|n IH]; intros u i H; [lia|]. cbn [bytes_of_word]. destruct i as [|i]; cbn [nth].
  - change (Z.of_nat 0) with 0. now rewrite Z.pow_0_r, Z.div_1_r.
  - rewrite IH by lia. rewrite Z.div_div by (try apply Z.pow_pos_nonneg; lia). f_equal. f_equal.
    replace (Z.of_nat (S i)) with (1 + Z.of_nat i) by lia. rewrite Z.pow_add_r by lia. reflexivity.
Qed.
Lemma object_length w n m : length (object_at w n m) = n.
Proof. unfold object_at. now rewrite map_length, seq_length. Qed.
Lemma object_nth w n m i : (i < n)%nat -> nth i (object_at w n m) 0 = m (w + Z.of_nat i).
Proof.
  intros H. unfold object_at. rewrite (nth_indep _ 0 (m (w + Z.of_nat 0))) by (rewrite map_length, seq_length; lia).
  rewrite (map_nth (fun i => m (w + Z.of_nat i))). now rewrite seq_nth by lia.
Qed.
Lemma nth_overwrite a v o i : (a + length v <= length o)%nat ->
  nth i (overwrite a v o) 0 = if (a <=? i)%nat && (i <? a + length v)%nat then nth (i - a) v 0 else nth i o 0.
Proof.
  intros H. unfold overwrite. destruct (Nat.leb_spec a i), (Nat.ltb_spec i (a + length v)); cbn [andb].
  - rewrite app_nth2 by (rewrite firstn_length; lia). rewrite firstn_length, Nat.min_l by lia. now rewrite app_nth1 by lia.
  - rewrite app_nth2 by (rewrite firstn_length; lia). rewrite firstn_length, Nat.min_l by lia. rewrite app_nth2 by lia.
    rewrite <- (firstn_skipn (a + length v) o) at 2. rewrite app_nth2 by (rewrite firstn_length; lia). rewrite firstn_length, Nat.min_l by lia. f_equal. lia.
  - rewrite app_nth1 by (rewrite firstn_length; lia). rewrite <- (firstn_skipn a o) at 2. now rewrite app_nth1 by (rewrite firstn_length; lia).
  - lia.
Qed.
Lemma object_write w N m n off u : 0 <= off -> off + Z.of_nat n <= Z.of_nat N ->
  object_at w N (write n (w + off) u m) = overwrite (Z.to_nat off) (bytes_of_word n u) (object_at w N m).
Proof.
  intros O B. assert (Z.to_nat off + length (bytes_of_word n u) <= length (object_at w N m))%nat as L by (rewrite bytes_of_word_length, object_length; lia).
  apply (nth_ext _ _ 0 0); [now rewrite overwrite_length, !object_length by exact L|]. intros i I. rewrite object_length in I.
  rewrite nth_overwrite by exact L. rewrite bytes_of_word_length, !object_nth by lia. rewrite write_at.
  destruct (Z.leb_spec (w + off) (w + Z.of_nat i)), (Z.ltb_spec (w + Z.of_nat i) (w + off + Z.of_nat n)), (Nat.leb_spec (Z.to_nat off) i), (Nat.ltb_spec i (Z.to_nat off + n)); cbn [andb]; try lia; try reflexivity.
  rewrite bytes_of_word_at by lia. f_equal. f_equal. f_equal. lia.
Qed.
Lemma write_outside w N m n off u a : 0 <= off -> off + Z.of_nat n <= Z.of_nat N -> a < w \/ w + Z.of_nat N <= a ->
  write n (w + off) u m a = m a.
Proof.
  intros O B A. rewrite write_at. destruct (Z.leb_spec (w + off) a), (Z.ltb_spec a (w + off + Z.of_nat n)); cbn [andb]; try reflexivity; lia.
Qed.
Lemma object_put w o m : object_at w (length o) (put_object w o m) = o.
Proof.
  apply (nth_ext _ _ 0 0); [apply object_length|]. intros i I. rewrite object_length in I. rewrite object_nth by lia. unfold put_object.
  destruct (Z.leb_spec w (w + Z.of_nat i)), (Z.ltb_spec (w + Z.of_nat i) (w + Z.of_nat (length o))); cbn [andb]; try lia. f_equal. lia.
Qed.
Lemma put_outside w o m a : a < w \/ w + Z.of_nat (length o) <= a -> put_object w o m a = m a.
Proof. intros A. unfold put_object. destruct (Z.leb_spec w a), (Z.ltb_spec a (w + Z.of_nat (length o))); cbn [andb]; try reflexivity; lia. Qed.
Lemma object_part w N m : forall n a, (a + n <= N)%nat -> firstn n (skipn a (object_at w N m)) = object_at (w + Z.of_nat a) n m.
Proof.
  intros n a H. apply (nth_ext _ _ 0 0); [rewrite firstn_length, skipn_length, !object_length; lia|].
  intros i I. rewrite firstn_length, skipn_length, object_length in I. rewrite object_nth by lia.
  transitivity (nth i (skipn a (object_at w N m)) 0).
  - rewrite <- (firstn_skipn n (skipn a (object_at w N m))) at 2. rewrite app_nth1; [reflexivity|]. rewrite firstn_length, skipn_length, object_length. lia.
  - transitivity (nth (a + i) (object_at w N m) 0); [|rewrite object_nth by lia; f_equal; lia].
    rewrite <- (firstn_skipn a (object_at w N m)) at 2. rewrite app_nth2 by (rewrite firstn_length, object_length; lia).
    rewrite firstn_length, object_length. f_equal. lia.
Qed.
Lemma read_object : forall n a m, read n a m = word_of_bytes (object_at a n m).
Proof.
  induction n as [|n IH]; intros a m; [reflexivity|]. cbn [read]. rewrite IH. unfold object_at. cbn [seq map word_of_bytes].
  rewrite Z.add_0_r. f_equal. f_equal. f_equal. rewrite <- seq_shift, map_map. apply map_ext. intros i. f_equal. lia.
Qed.

(** ** Schemas of fields that UDFs can use *)
Lemma size_bytes T n : DynObject_Spec.field_type T -> bytes_of T = Some n -> size_in_bytes T = n.
Proof.
  intros (_ & _ & _ & NL) B. destruct T as [f| |k t| | | |]; try discriminate B.
  - unfold bytes_of in B. cbn [size_in_bytes].
    repeat match type of B with (if ?b then _ else _) = _ => destruct b eqn:?; [injection B as <-|] end; try discriminate B;
      repeat match goal with H : _ || _ = _ |- _ => apply orb_true_iff in H || apply orb_false_iff in H; destruct H end;
      repeat match goal with H : _ \/ _ |- _ => destruct H end;
      repeat match goal with H : (_ =? _) = true |- _ => apply Z.eqb_eq in H; subst f end; try reflexivity; exfalso; now apply NL.
  - destruct k; try discriminate B. now injection B as <-.
Qed.
Lemma bytes_value T : plain T -> bytes_of T <> None -> value_type T.
Proof.
  intros P B. destruct T as [f| |k t| | | |]; try (exfalso; now apply B); cbn [value_type].
  - unfold bytes_of in B. left. repeat match type of B with (if ?b then _ else _) <> _ => destruct b eqn:? end;
      repeat match goal with H : _ || _ = true |- _ => apply orb_true_iff in H; destruct H end;
      repeat match goal with H : (_ =? _) = true |- _ => apply Z.eqb_eq in H; subst f end; try lia. now destruct B.
  - destruct k; try (exfalso; now apply B). now left.
Qed.
Definition usable (s : schema) : Prop := forall n f, get_field s n = Some f -> exists T, plain T /\ T <> CBase 3 /\ udf_field T /\ value_type T /\
  f = Field (get_dtype T) (f_offset f) /\ 0 <= f_offset f < 2 ^ 31 /\ (s_table s = true -> column T).
Lemma built_usable header tb fs : room header fs -> Forall (fun p => udf_field (snd p)) fs -> (tb = true -> Forall (fun p => column (snd p)) fs) ->
  s_alloc (build fs (new_schema header tb)) <= 2 ^ 31 -> usable (build fs (new_schema header tb)).
Proof.
  intros R UF C A n f G. assert (Forall (fun p => DynObject_Spec.field_type (snd p)) fs) as FT by (eapply Forall_impl; [|exact UF]; intros p H; apply H).
  destruct (built header tb fs R FT) as [_ TB].
  destruct (DynObject_Spec.first_type fs n) as [T|] eqn:Q; [|rewrite (no_field header tb fs R FT n Q) in G; discriminate G].
  assert (exists p, In p fs /\ snd p = T) as (p & I & <-).
  { clear -Q. induction fs as [|[n' T'] fs IH]; cbn in Q; [discriminate Q|]. destruct (text_eqb n' n); [injection Q as <-; eexists; split; [now left|reflexivity]|].
    destruct (IH Q) as (p & I & E). exists p. split; [now right|exact E]. }
  rewrite Forall_forall in UF. destruct (UF p I) as (FT1 & P & NB). destruct (field_type_allowed _ FT1) as (k & B & _).
  destruct (layout header tb fs n (snd p) k R FT Q B) as (f' & G' & D & _ & O & L & _). assert (f' = f) as -> by congruence.
  exists (snd p). split; [exact P|]. split; [exact NB|]. split; [exact (UF p I)|]. split; [apply bytes_value; [exact P|congruence]|]. split; [destruct f; cbn in *; congruence|].
  assert (0 < k)%nat. { destruct (snd p) as [g| |kk t| | | |]; try discriminate B; cbn in B; repeat match type of B with (if ?b then _ else _) = _ => destruct b end; try discriminate B; try (injection B as <-; lia).
    destruct kk; try discriminate B. injection B as <-. lia. }
  split; [lia|]. rewrite TB. intros T1. specialize (C T1). rewrite Forall_forall in C. exact (C p I).
Qed.

Lemma dyn_true : is_dyn_ptr (get_dtype (CPtr dyn)) = Ret true.
Proof. vm_compute. reflexivity. Qed.
Lemma plain_dyn : plain (CPtr dyn).
Proof. split; [cbn; lia|reflexivity]. Qed.

Section Field.
Context {E : Type}.
Variable arg_ty : E -> option dtype.
Variable arg_value : E -> mem -> outcome (dtype * Z).
Variable var : text -> option (dtype * Z).
Variable text_word : text -> Z.
Variable conv : dtype -> dtype -> Z -> mem -> outcome Z.
Variable ext : Z -> list Z -> mem -> outcome (Z * mem).
Variable json : bool -> desc.
Variable F : factory.
Notation run R := (run_schain arg_ty arg_value var text_word conv ext json F R).

(** ** One field of an object *)
Lemma run_field R s name T off w m : plain T -> T <> CBase 3 -> value_type T -> get_field s name = Some (Field (get_dtype T) off) -> 0 <= off < 2 ^ 31 ->
  s_table s = false ->
  run R (get_dtype (CPtr dyn)) (Some s) w [AField name] m =
  Ret (get_dtype T, Val (get_dtype T) (InMem (size_in_bytes T) ((w + off) mod 2 ^ 64)), m).
Proof.
  intros P NB VT G O TB. unfold run_schain. cbn [svalidate_chain svalidate_access]. unfold svalidate_field. cbn [g_ty g_schema].
  rewrite dyn_true. cbn [obind]. rewrite G, TB. cbn [obind f_dtype f_offset externs app sbuild_chain sbuild_access fst snd m_field].
  rewrite TB. cbn [v_ty]. rewrite (is_ptr_plain _ plain_dyn), dyn_true. cbn [isP negb obind andb build_access v_ty m_field m_offset].
  rewrite (is_ptr_plain _ plain_dyn). cbn [isP negb]. unfold get_struct_field. fold (field_is_value (get_dtype T)).
  destruct (field_kind T P NB) as (_ & K2 & K3). pose proof (proj2 K2 VT) as K. rewrite K. rewrite (K3 K). cbn [obind word v_loc].
  now rewrite (offset_wraps _ _ O).
Qed.
Lemma run_unknown R sch name l w m : (exists s, sch = Some s /\ get_field s name = None) ->
  run R (get_dtype (CPtr dyn)) sch w (AField name :: l) m = Err.
Proof.
  intros (s & -> & G). unfold run_schain. cbn [svalidate_chain svalidate_access]. unfold svalidate_field. cbn [g_ty g_schema].
  rewrite dyn_true. cbn [obind]. now rewrite G.
Qed.

Section Objects.
Variable R : index.
Variable header : Z.
Variable fs : list (text * cpptype).
Hypothesis ROOM : room header fs.
Hypothesis FT : Forall (fun p => DynObject_Spec.field_type (snd p)) fs.
Let s := build fs (new_schema header false).
Hypothesis SMALL : s_alloc s <= 2 ^ 31.
Notation N := (Z.to_nat (s_alloc s)).
Variable w : Z.
Hypothesis W : 0 <= w /\ w + s_alloc s <= 2 ^ 64.

Lemma field_there name T n : DynObject_Spec.first_type fs name = Some T -> bytes_of T = Some n ->
  exists f, get_field s name = Some f /\ f = Field (get_dtype T) (f_offset f) /\ 0 <= f_offset f < 2 ^ 31 /\ f_offset f + Z.of_nat n <= s_alloc s /\ f_offset f < s_alloc s.
Proof.
  intros H B. destruct (layout header false fs name T n ROOM FT H B) as (f & G & D & _ & O & L & _). fold s in G, L. exists f. split; [exact G|].
  split; [destruct f; cbn in *; congruence|].
  assert (0 < n)%nat. { destruct T as [g| |kk t| | | |]; try discriminate B; cbn in B; repeat match type of B with (if ?b then _ else _) = _ => destruct b end; try discriminate B; try (injection B as <-; lia).
    destruct kk; try discriminate B. injection B as <-. lia. }
  lia.
Qed.
Lemma none_there name : DynObject_Spec.first_type fs name = None -> get_field s name = None.
Proof. exact (no_field header false fs ROOM FT name). Qed.
Lemma not_a_table : s_table s = false.
Proof. destruct (built header false fs ROOM FT) as [_ TB]. exact TB. Qed.

Lemma field_read name T n m : DynObject_Spec.first_type fs name = Some T -> bytes_of T = Some n -> plain T -> T <> CBase 3 ->
  exists v b, run R (get_dtype (CPtr dyn)) (Some s) w [AField name] m = Ret (get_dtype T, v, m) /\ v_ty v = get_dtype T /\
    get s name T n (object_at w N m) = Ret b /\ word v m = word_of_bytes b /\
    (exists off, get_field s name = Some (Field (get_dtype T) off) /\ 0 <= off /\ off + Z.of_nat n <= s_alloc s /\ v = Val (get_dtype T) (InMem n (w + off))).
Proof.
  intros H B P NB. destruct (field_there name T n H B) as (f & G & FE & O & L & L2). pose proof (first_type_ok fs FT name T H) as FT1.
  rewrite FE in G. rewrite (run_field R s name T (f_offset f) w m P NB (bytes_value T P ltac:(congruence)) G O not_a_table).
  rewrite (size_bytes T n FT1 B). rewrite Z.mod_small by lia.
  do 2 eexists. split; [reflexivity|]. split; [reflexivity|].
  split; [apply (get_at header false fs ROOM FT name T n f); [exact H|exact B|fold s; rewrite G; now rewrite <- FE|apply object_length]|].
  split; [|exists (f_offset f); split; [exact G|]; split; [lia|]; split; [exact L|reflexivity]].
  cbn [word v_loc]. rewrite object_part by lia. rewrite Z2Nat.id by lia. apply read_object.
Qed.

(** A change, as a call of Set on the bytes of the object. *)
Lemma set_cases t o : proper t -> length o = N ->
  set s (t_name t) (t_how t) (t_type t) (t_value t) o = Err \/
  exists a, (a + length (t_value t) <= N)%nat /\ set s (t_name t) (t_how t) (t_type t) (t_value t) o = Ret (overwrite a (t_value t) o).
Proof.
  intros (S1 & NA & LV) L. unfold set. destruct (DynObject_Spec.first_type fs (t_name t)) as [T0|] eqn:H; [|rewrite (none_there _ H); now left].
  pose proof (first_type_ok fs FT _ _ H) as F0. destruct (field_type_allowed _ F0) as (n & B & _).
  destruct (field_there _ _ _ H B) as (f & G & FE & O & LE & _). rewrite G. assert (f_dtype f = get_dtype T0) as -> by (rewrite FE; reflexivity).
  rewrite (same_type_test (t_how t) T0 (t_type t) F0 S1 NA). cbn [obind].
  destruct (t_how t); cbn [negb]; try (now left); destruct (cpptype_eq_dec (t_type t) T0) as [EQ|]; cbn [negb]; try (now left); right; exists (Z.to_nat (f_offset f));
    rewrite EQ in LV; pose proof (LV n B) as LN; (split; [lia|]); cbv zeta; (destruct (Nat.leb_spec (Z.to_nat (f_offset f) + length (t_value t)) (length o)); [reflexivity|lia]).
Qed.
Notation step := (change_step arg_ty arg_value var text_word conv ext json F R s w).
Notation all := (changes arg_ty arg_value var text_word conv ext json F R s w).
Hypothesis USE : Forall (fun p => udf_field (snd p)) fs.
Lemma first_udf name T : DynObject_Spec.first_type fs name = Some T -> udf_field T.
Proof.
  clear -USE. induction USE as [|[n T'] l FT1 F' IH]; cbn [DynObject_Spec.first_type]; [discriminate|]. destruct (text_eqb n name); [intros [= <-]; exact FT1|]. auto.
Qed.
Lemma change_ok c m : proper (as_setting c) ->
  exists m', step c m = Ret m' /\
    (forall a, a < w \/ w + s_alloc s <= a -> m' a = m a) /\
    (let t := as_setting c in
     match set s (t_name t) (t_how t) (t_type t) (t_value t) (object_at w N m) with
     | Ret o => object_at w N m' = o
     | Err => m' = m
     | _ => False
     end).
Proof.
  intros P. assert (0 <= s_alloc s) as SZ by (destruct (built header false fs ROOM FT) as [LD _]; apply laid_le in LD; destruct ROOM; destruct (header_ok header ltac:(lia)); fold s in LD; lia).
  destruct c as [t|name T u]; cbn [as_setting] in *.
  - cbn [change_step]. destruct (set_cases t (object_at w N m) P (object_length _ _ _)) as [->|(a & A & ->)]; [exists m; auto|].
    eexists. split; [reflexivity|]. assert (length (overwrite a (t_value t) (object_at w N m)) = N) as L by (rewrite overwrite_length, object_length; rewrite ?object_length; lia).
    split; [intros b Hb; apply put_outside; rewrite L; lia|]. cbv zeta. rewrite <- L at 1. apply object_put.
  - cbn [change_step t_name t_how t_type t_value]. destruct P as (S1 & NA & LV). cbn [t_type t_value] in *.
    destruct (DynObject_Spec.first_type fs name) as [T0|] eqn:H.
    + destruct (first_udf _ _ H) as (F0 & P0 & NB). destruct (field_type_allowed _ F0) as (n & B & _).
      destruct (field_read name T0 n m H B P0 NB) as (v & b & RUN & VT & _ & _ & off & G & O1 & O2 & V). rewrite RUN. cbn [obind].
      unfold assign, set. rewrite VT, G. cbn [f_dtype f_offset].
      rewrite (same_type_test Rvalue T0 T F0 S1 NA).
      destruct (eqb_iff_same T0 T) as (r & EQ & IFF); try apply F0; auto. rewrite EQ. cbn [obind].
      destruct (cpptype_eq_dec T T0) as [EQT|NE].
      * rewrite (proj2 IFF (eq_sym EQT)). cbn [negb]. rewrite V. cbn [v_loc]. eexists. split; [reflexivity|].
        split; [intros a Ha; apply (write_outside w N); lia|]. cbv zeta. rewrite EQT, B. rewrite bytes_of_word_length, object_length.
        destruct (Nat.leb_spec (Z.to_nat off + n) N); [|lia]. apply object_write; lia.
      * destruct r; [exfalso; apply NE; symmetry; now apply IFF|]. cbn [negb]. exists m. auto.
    + rewrite (run_unknown R (Some s) name [] w m) by (exists s; split; [reflexivity|exact (none_there _ H)]). cbn [obind].
      exists m. split; [reflexivity|]. split; [auto|]. unfold set. rewrite (none_there _ H). reflexivity.
Qed.
Lemma changes_ok cs : Forall (fun c => proper (as_setting c)) cs -> forall m,
  exists m', all cs m = Ret m' /\ (forall a, a < w \/ w + s_alloc s <= a -> m' a = m a) /\
    set_all s (map as_setting cs) (object_at w N m) = Ret (object_at w N m').
Proof.
  induction 1 as [|c cs P _ IH]; intros m; cbn [changes map set_all]; [exists m; auto|].
  destruct (change_ok c m P) as (m1 & -> & OUT & ST). cbn [obind]. destruct (IH m1) as (m2 & -> & OUT2 & ALL).
  exists m2. split; [reflexivity|]. split; [intros a A; rewrite OUT2 by exact A; now apply OUT|]. cbv zeta in ST.
  destruct (set s _ _ _ _ _) as [o| | |]; try contradiction; subst; exact ALL.
Qed.
Theorem history cs m : Forall (fun c => proper (as_setting c)) cs -> object_at w N m = new_object s ->
  exists m', all cs m = Ret m' /\ (forall a, a < w \/ w + s_alloc s <= a -> m' a = m a) /\
    forall name T n, DynObject_Spec.first_type fs name = Some T -> bytes_of T = Some n ->
      let x := last_set name T (repeat 0 n) (map as_setting cs) in
      get s name T n (object_at w N m') = Ret x /\
      exists v, run R (get_dtype (CPtr dyn)) (Some s) w [AField name] m' = Ret (get_dtype T, v, m') /\ v_ty v = get_dtype T /\ word v m' = word_of_bytes x.
Proof.
  intros P NEW. destruct (changes_ok cs P m) as (m' & A & OUT & ALL). exists m'. split; [exact A|]. split; [exact OUT|]. intros name T n H B.
  assert (Forall proper (map as_setting cs)) as PS by (clear -P; induction P; constructor; auto).
  destruct (set_get header false fs ROOM FT (map as_setting cs) PS) as (o & SA & GET). fold s in SA. rewrite NEW, SA in ALL. injection ALL as ->.
  cbv zeta. specialize (GET name T n H B). fold s in GET. split; [exact GET|].
  destruct (first_udf _ _ H) as (F0 & P0 & NB). destruct (field_read name T n m' H B P0 NB) as (v & b & RUN & VT & G & WV & _).
  exists v. split; [exact RUN|]. split; [exact VT|]. rewrite WV. congruence.
Qed.
(** The field of type bool. *)
Theorem bool_field name m : DynObject_Spec.first_type fs name = Some (CBase 3) ->
  exists v f, run R (get_dtype (CPtr dyn)) (Some s) w [AField name] m = Ret (get_dtype (CBase 3), v, m) /\
    v_ty v = get_dtype (CPtr (CBase 3)) /\ get_field s name = Some f /\ word v m = w + f_offset f.
Proof.
  intros H. destruct (field_there name (CBase 3) 1 H eq_refl) as (f & G & FE & O & _ & L). exists (Val (get_dtype (CPtr (CBase 3))) (Imm (w + f_offset f))), f.
  split; [|split; [reflexivity|]; split; [exact G|reflexivity]]. rewrite FE in G.
  unfold run_schain. cbn [svalidate_chain svalidate_access]. unfold svalidate_field. cbn [g_ty g_schema].
  rewrite dyn_true. cbn [obind]. rewrite G, not_a_table. cbn [obind f_dtype f_offset externs app sbuild_chain sbuild_access fst snd m_field].
  rewrite not_a_table. cbn [v_ty]. rewrite (is_ptr_plain _ plain_dyn), dyn_true. cbn [isP negb obind andb build_access v_ty m_field m_offset].
  rewrite (is_ptr_plain _ plain_dyn). cbn [isP negb]. unfold get_struct_field. cbn [word v_loc]. rewrite (offset_wraps _ _ O), Z.mod_small by lia. reflexivity.
Qed.
End Objects.
End Field.

(** ** Chains *)
Lemma dyn_ptr t b : plain t -> is_dyn_ptr (get_dtype t) = Ret b -> (b = true <-> t = CPtr dyn).
Proof.
  intros P H. split; [intros ->|intros ->; rewrite dyn_true in H; now injection H as <-].
  unfold is_dyn_ptr, is_ptr_to in H. rewrite (is_ptr_plain t P) in H. destruct (isP t) eqn:N; [|discriminate H].
  destruct (checked_ptr t P) as [PT PP]. rewrite PT in H. cbn [obind] in H. injection H as H.
  destruct t; try discriminate N. cbn [pointee] in *.
  destruct (plain_word t PP (plain_not_ptrptr _ P)) as (k & a & b & n & W & A & K). rewrite W in H.
  unfold is_data, is_fundamental in H. cbn [ctrl_of container ptr_bit t0] in H. apply andb_true_iff in H. destruct H as [H1 H2].
  apply andb_true_iff in H1. destruct H1 as [_ H1]. apply Z.eqb_eq in H1, H2.
  destruct t; cbn in K; [destruct K as [_ <-]; now rewrite H2| | | | | |]; exfalso;
    [destruct K|destruct k0; rewrite K in H1; discriminate H1|rewrite K in H1; discriminate H1|
     destruct ordered; rewrite K in H1; discriminate H1|rewrite K in H1; discriminate H1|rewrite K in H1; discriminate H1].
Qed.
Lemma dyn_some t : plain t -> exists b, is_dyn_ptr (get_dtype t) = Ret b.
Proof.
  intros P. unfold is_dyn_ptr, is_ptr_to. destruct (is_ptr (get_dtype t)); [|eauto]. destruct (checked_ptr t P) as [-> _]. cbn [obind]. eauto.
Qed.
Lemma seen_dyn t u : seen t u -> (t = CPtr dyn <-> u = CPtr dyn).
Proof. intros [->|(f & -> & -> & B)]; [tauto|]. split; [discriminate|]. intros [= ->]. lia. Qed.
Lemma column_name F n f : builtin f -> f <> 24 -> function_name F n (get_dtype (CBase f)) = Ret (n ++ lit "_" ++ fundamental_name f).
Proof.
  intros B N. change (CBase f) with (operand_type false f). rewrite (name_one F n false f B). unfold is_a_vector. cbn [orb].
  destruct (Z.eqb_spec f 24); [contradiction|]. reflexivity.
Qed.
Lemma column_elem vec f : builtin f -> elem_of (get_dtype (if vec : bool then CSeq KSimdVector (CBase f) else CBase f)) = get_dtype (CBase f).
Proof. intros B. apply (elem_operand vec f). now apply builtin_supported. Qed.
Lemma dyn_name F n : member_name F (get_dtype dyn) n = Ret (lit "dyn_obj" ++ lit "_" ++ n).
Proof. unfold member_name, dyn. rewrite (type_string_base F 22) by (unfold builtin; lia). reflexivity. Qed.
Definition fine (sch : option schema) : Prop := match sch with Some s => usable s | None => True end.

Section Chains.
Context {E : Type}.
Variable arg_ty : E -> option dtype.
Variable arg_value : E -> mem -> outcome (dtype * Z).
Variable var : text -> option (dtype * Z).
Variable text_word : text -> Z.
Variable conv : dtype -> dtype -> Z -> mem -> outcome Z.
Variable ext : Z -> list Z -> mem -> outcome (Z * mem).
Variable json : bool -> desc.
Variable F : factory.
Variable os : list offer.
Notation R := (fst (offer_members os [])).
Hypothesis OS : Forall (ordinary plain) os.
Hypothesis CONV : forall d p w m, dtype_eqb d p = Ret true -> conv d p w m = Ret w.
Hypothesis APART : methods_apart (fun t => member_name F (get_dtype t)) json_name os.
Hypothesis JNAME : forall b, d_name (json b) = json_name b.
Hypothesis JRET : forall b, d_return (json b) = get_dtype (CPtr (CBase 20)).
Hypothesis COLUMNS : gives_columns (fun t => member_name F (get_dtype t)) os.
Notation kv := (fun k (_ : mem) => key_value var text_word k).
Notation step := (sstep os arg_ty arg_value kv conv ext (fun b => d_args (json b)) (fun b => d_func (json b))).
Notation steps := (ssteps os arg_ty arg_value kv conv ext (fun b => d_args (json b)) (fun b => d_func (json b))).
Notation validate := (svalidate_access arg_ty var json F R).

Lemma svalidate_ok t sch a g r us ns : plain t -> fine sch -> validate (Tag (get_dtype t) sch) a = Ret (g, r, us, ns) ->
  Forall (use_ok json os) us /\ length ns = (if is_index a then 1 else 0)%nat /\ checked (g_ty g) /\ fine (g_schema g).
Proof.
  intros P FI V. destruct a as [n|n es|k]; cbn [svalidate_access] in V.
  - unfold svalidate_field in V. cbn [g_ty g_schema] in V. destruct (is_dyn_ptr (get_dtype t)) as [d| | |] eqn:D; try discriminate V. cbn [obind] in V.
    destruct (if d then sch else None) as [s|] eqn:DS.
    + assert (d = true /\ sch = Some s) as [-> ->] by (destruct d; [auto|discriminate DS]). clear DS. cbn [fine] in FI.
      destruct (get_field s n) as [f|] eqn:G; [|discriminate V]. destruct (FI n f G) as (T & PT & NB & UT & VT & FE & O & C).
      destruct (s_table s) eqn:TB.
      * destruct (function_name F get_column (elem_of (f_dtype f))) as [cn| | |]; try discriminate V. cbn [obind] in V.
        destruct (checked_ptr t P) as [QT QP]. rewrite QT in V. cbn [obind] in V. injection V as <- <- <- <-.
        split; [|split; [reflexivity|]; split; [exists T; rewrite FE; auto|exact I]].
        destruct (get_member R (get_dtype (pointee t)) cn) as [mb|] eqn:GM; [|constructor]. destruct (m_func mb) as [fd|] eqn:MF; [|constructor].
        constructor; [|constructor]. cbn. exists (pointee t), mb. auto.
      * cbn [obind] in V. injection V as <- <- <- <-. split; [constructor|]. split; [reflexivity|]. split; [exists T; rewrite FE; auto|exact I].
    + destruct (validate_field R (get_dtype t) n) as [[T r0]| | |] eqn:VF; try discriminate V. cbn [obind] in V. injection V as <- <- <- <-.
      assert (validate_access arg_ty var json F R (get_dtype t) (AField n) = Ret (T, r0, [], [])) as VA by (cbn [validate_access]; rewrite VF; reflexivity).
      split; [constructor|]. split; [reflexivity|]. split; [exact (validate_type _ _ _ _ _ OS _ _ _ _ _ _ P VA)|exact I].
  - unfold svalidate_call in V. cbn [g_ty g_schema] in V. destruct (is_dyn_ptr (get_dtype t)) as [d| | |] eqn:D; try discriminate V. cbn [obind] in V.
    destruct (forallb _ es) eqn:FA; [|discriminate V].
    match type of V with obind (obind ?x _) _ = _ => destruct x as [n'| | |]; try discriminate V end. cbn [obind] in V.
    destruct (validate_call arg_ty R (get_dtype t) n' es) as [[[T r0] u]| | |] eqn:VC; try discriminate V. cbn [obind] in V. injection V as <- <- <- <-.
    assert (validate_access arg_ty var json F R (get_dtype t) (ACall n' es) = Ret (T, r0, [u], [])) as VA by (cbn [validate_access]; rewrite VC; reflexivity).
    destruct (validate_access_ok _ _ _ _ _ _ _ _ _ _ _ P VA) as [UO _]. split; [exact UO|]. split; [reflexivity|].
    split; [exact (validate_type _ _ _ _ _ OS _ _ _ _ _ _ P VA)|exact FI].
  - cbn [g_ty] in V. destruct (validate_index var json F R (get_dtype t) k) as [[[[T r0] u] name]| | |] eqn:VI; try discriminate V. cbn [obind] in V. injection V as <- <- <- <-.
    assert (validate_access arg_ty var json F R (get_dtype t) (AIndex k) = Ret (T, r0, [u], [name])) as VA by (cbn [validate_access]; rewrite VI; reflexivity).
    destruct (validate_access_ok _ _ _ _ _ _ _ _ _ _ _ P VA) as [UO _]. split; [exact UO|]. split; [reflexivity|].
    split; [exact (validate_type _ _ _ _ _ OS _ _ _ _ _ _ P VA)|exact I].
Qed.

Lemma by_column_dec n : text_eqb n (lit "topk") || text_eqb n (lit "order_by") = true <-> by_column n.
Proof.
  unfold by_column. rewrite orb_true_iff. split; (intros [H|H]; [left|right]); try (now apply text_eqb_eq); subst; reflexivity.
Qed.
Lemma a_table_ok u w m sch d : plain u -> (d = true <-> u = CPtr dyn) ->
  a_table (u, w, m) sch = d && match sch with Some s => s_table s | None => false end.
Proof.
  intros U D. unfold a_table. cbn [fst].
  assert (forall f, (f =? 22) = d \/ u <> CPtr (CBase f)) as H.
  { intros f. destruct (Z.eqb_spec f 22) as [->|N]; [destruct d; [now left|]; right; intros Q; discriminate (proj2 D Q)|].
    destruct d; [|now left]. right. rewrite (proj1 D eq_refl). intros [= Q]. now apply N. }
  destruct d.
  - rewrite (proj1 D eq_refl). unfold dyn. destruct sch; reflexivity.
  - cbn [andb]. destruct u as [|q| | | | |]; try reflexivity. destruct q as [f| | | | | |]; try reflexivity. destruct sch; try reflexivity.
    destruct (H f) as [->|NE]; [reflexivity|now destruct NE].
Qed.

Lemma saccess_step t u sch v m a g r us ns X names idx v' m' : plain t -> plain u -> seen t u -> v_ty v = get_dtype u -> fine sch ->
  sorts_by_columns arg_ty [a] ->
  validate (Tag (get_dtype t) sch) a = Ret (g, r, us, ns) -> known json F os X ->
  (forall name, ns = [name] -> nth_error names idx = Some name) ->
  sbuild_access arg_value var text_word conv ext F X names idx v r m = Ret (v', m') ->
  exists t' u', plain t' /\ plain u' /\ seen t' u' /\ g_ty g = get_dtype t' /\ v_ty v' = get_dtype u' /\
    step (u, word v m, m, sch) a (u', word v' m', m', g_schema g).
Proof.
  intros P U SN VT FI SC V K NM B. pose proof (access_step arg_ty arg_value var text_word conv ext json F os OS CONV APART JRET) as STEP.
  destruct (dyn_some t P) as [d D]. pose proof (dyn_ptr t d P D) as DT. pose proof (seen_dyn t u SN) as SD.
  destruct (dyn_some u U) as [d' D']. pose proof (dyn_ptr u d' U D') as DU.
  assert (d' = d) as -> by (destruct d, d'; try reflexivity; [assert (false = true) by tauto|assert (false = true) by tauto]; discriminate).
  destruct a as [n|n es|k]; cbn [svalidate_access] in V.
  - unfold svalidate_field in V. cbn [g_ty g_schema] in V. rewrite D in V. cbn [obind] in V.
    destruct (if d then sch else None) as [s|] eqn:DS.
    + assert (d = true /\ sch = Some s) as [-> ->] by (destruct d; [auto|discriminate DS]). clear DS. cbn [fine] in FI.
      pose proof (proj1 DT eq_refl) as ->. pose proof (proj1 DU eq_refl) as ->.
      destruct (get_field s n) as [f|] eqn:G; [|discriminate V]. destruct (FI n f G) as (T & PT & NB & UT & VAL & FE & O & C).
      destruct (s_table s) eqn:TB.
      * destruct (C eq_refl) as (c & CB & C24 & ->). rewrite FE in V. cbn [f_dtype f_offset] in V. rewrite (column_elem true c CB : elem_of (get_dtype (CSeq KSimdVector (CBase c))) = _) in V.
        rewrite (column_name F get_column c CB C24) in V. cbn [obind] in V. destruct (checked_ptr _ P) as [QT QP]. rewrite QT in V. cbn [obind pointee] in V, QP. injection V as <- <- _ <-.
        change (wrap_unary true (to_collection COLLECTION_SIMD_VECTOR) (dtype_of c 0)) with (get_dtype (CSeq KSimdVector (CBase c))) in *.
        unfold sbuild_access in B. cbn [fst snd m_field m_offset] in B. rewrite VT, (is_ptr_plain _ U) in B. cbn [isP negb] in B. rewrite D' in B. cbn [obind] in B. rewrite TB in B. cbn [andb] in B.
        rewrite QT in B. cbn [obind pointee] in B. rewrite (column_elem true c CB : elem_of (get_dtype (CSeq KSimdVector (CBase c))) = _) in B.
        rewrite (column_name F get_column c CB C24) in B. cbn [obind] in B.
        set (cn := get_column ++ lit "_" ++ fundamental_name c) in *.
        rewrite (dyn_name F cn) in B. cbn [obind] in B.
        destruct (COLUMNS c CB) as [CR CN]. change (lit "get_column_" ++ fundamental_name c) with cn in CR, CN.
        destruct (call_found _ _ _ _ _ _ _ B) as [fd FD].
        assert (exists b args a, first (a_method dyn cn) os (OMethod dyn cn b (CSeq KSimdVector (CBase c)) args a) /\
          fd = Desc cn (get_dtype (CSeq KSimdVector (CBase c))) (get_dtype (if b then CPtr dyn else dyn) :: map get_dtype args) a None false) as (b & args & a & FST & FDE).
        { destruct (K _ _ FD) as [(t' & n' & mb & P' & N' & G' & M')|(j & _ & J)]; [|destruct j; discriminate J].
          destruct (found os OS t' n' mb P' G') as [_ FM]. destruct (FM fd M') as (b & ret & args & a & H & PR & ->).
          destruct (first_in _ _ _ H) as [IN _].
          destruct (CN t' n' b ret args a IN) as [-> ->]; [rewrite N'; symmetry; apply dyn_name|].
          rewrite (CR _ _ _ _ IN) in *. eauto 8. }
        destruct (call_function_ok _ _ CONV _ _ _ _ _ _ _ FD B) as (ws & x & PS & EX & ->). rewrite FDE in PS, EX |- *. cbn [d_args d_func d_return] in *.
        exists (CSeq KSimdVector (CBase c)), (CSeq KSimdVector (CBase c)). split; [exact PT|]. split; [exact PT|]. split; [now left|]. split; [reflexivity|]. split; [reflexivity|].
        cbn [word v_loc g_schema]. apply (s_column _ _ _ _ _ _ _ _ s n c (f_offset f)); [exact TB|exact CB|exact C24|rewrite G; now rewrite FE|].
        split; [now left|]. exists b, (CSeq KSimdVector (CBase c)), args, a, ws, x, m'. split; [exact FST|]. split; [exact PS|]. split; [exact EX|reflexivity].
      * cbn [obind] in V. injection V as <- <- _ <-.
        unfold sbuild_access in B. cbn [fst snd m_field] in B. rewrite VT, (is_ptr_plain _ U) in B. cbn [isP negb] in B. rewrite D' in B. cbn [obind] in B. rewrite TB in B. cbn [andb] in B.
        cbn [build_access] in B. rewrite VT, (is_ptr_plain _ U) in B. cbn [isP negb m_field m_offset] in B. rewrite FE in B. cbn [f_dtype f_offset] in B.
        unfold get_struct_field in B. fold (field_is_value (get_dtype T)) in B. destruct (field_kind T PT NB) as (_ & K2 & K3). pose proof (proj2 K2 VAL) as KV.
        rewrite KV, (K3 KV) in B. cbn [obind] in B. injection B as <- <-. exists T, T. split; [exact PT|]. split; [exact PT|]. split; [now left|]. split; [rewrite FE; reflexivity|]. split; [reflexivity|].
        cbn [g_schema]. cbn [word v_loc]. rewrite (offset_wraps _ _ O). apply s_field; [exact TB|exact UT|rewrite G; now rewrite FE].
    + destruct (validate_field R (get_dtype t) n) as [[T r0]| | |] eqn:VF; try discriminate V. cbn [obind] in V. injection V as <- <- <- <-.
      assert (validate_access arg_ty var json F R (get_dtype t) (AField n) = Ret (T, r0, [], [])) as VA by (cbn [validate_access]; rewrite VF; reflexivity).
      assert (build_access arg_value var text_word conv ext F X names idx v r0 m = Ret (v', m')) as B1.
      { unfold validate_field in VF. destruct (ptr_to (get_dtype t)) as [Q| | |]; try discriminate VF. cbn [obind] in VF. destruct (get_member R Q n) as [mb|]; [|discriminate VF].
        destruct (m_field mb) as [f|] eqn:MF; [|discriminate VF]. injection VF as _ <-. unfold sbuild_access in B. cbn [fst snd g_schema] in B.
        rewrite VT in B. destruct (is_ptr (get_dtype u)) eqn:IP; [|discriminate B]. cbn [negb] in B. rewrite MF, D' in B. cbn [obind] in B.
        destruct (d && match sch with Some s => s_table s | None => false end) eqn:DD; [|exact B].
        destruct d; [|discriminate DD]. rewrite DS in DD. discriminate DD. }
      destruct (STEP _ _ _ _ _ _ _ _ _ _ _ _ _ _ P U SN VT VA K NM B1) as (t' & u' & H1 & H2 & H3 & H4 & H5 & H6).
      exists t', u'. repeat (split; [assumption|]). cbn [g_schema]. apply s_struct; [|exact H6]. cbn [fst].
      destruct d; [now left|right; intros Q; discriminate (proj2 DU Q)].
  - unfold svalidate_call in V. cbn [g_ty g_schema] in V. rewrite D in V. cbn [obind] in V.
    destruct (forallb _ es) eqn:FA; [|discriminate V].
    match type of V with obind (obind ?x _) _ = _ => destruct x as [n'| | |] eqn:NN; try discriminate V end. cbn [obind] in V.
    destruct (validate_call arg_ty R (get_dtype t) n' es) as [[[T r0] u0]| | |] eqn:VC; try discriminate V. cbn [obind] in V. injection V as <- <- <- <-.
    assert (validate_access arg_ty var json F R (get_dtype t) (ACall n' es) = Ret (T, r0, [u0], [])) as VA by (cbn [validate_access]; rewrite VC; reflexivity).
    assert (build_access arg_value var text_word conv ext F X names idx v r0 m = Ret (v', m')) as B1.
    { unfold validate_call in VC. destruct (forallb _ es); [|discriminate VC]. destruct (ptr_to (get_dtype t)) as [Q| | |]; try discriminate VC. cbn [obind] in VC. destruct (get_member R Q n') as [mb|]; [|discriminate VC].
      destruct (m_func mb) as [f|] eqn:MF; [|discriminate VC]. injection VC as _ <- _. exact B. }
    assert (forall name : text, @nil text = [name] -> nth_error names idx = Some name) as NM1 by discriminate.
    destruct (STEP _ _ _ _ _ _ _ _ _ _ _ _ _ _ P U SN VT VA K NM1 B1) as (t' & u' & H1 & H2 & H3 & H4 & H5 & H6).
    exists t', u'. repeat (split; [assumption|]). cbn [g_schema]. apply (s_call _ _ _ _ _ _ _ _ _ _ n n'); [|exact H6].
    rewrite (a_table_ok u (word v m) m sch d U DU). destruct (d && match sch with Some s => s_table s | None => false end); cbn [andb] in NN.
    + destruct (text_eqb n (lit "topk") || text_eqb n (lit "order_by")) eqn:BC.
      * apply by_column_dec in BC. destruct es as [|e [|e' es]]; [injection NN as <-; apply method_few; cbn; lia|injection NN as <-; apply method_few; cbn; lia|].
        destruct (arg_ty e) as [de|] eqn:AE; [|discriminate NN]. destruct (SC n e e' es (or_introl eq_refl) BC de AE) as (f & vec & FB & F24 & ->).
        rewrite (column_elem vec f FB), (column_name F n f FB F24) in NN. injection NN as <-. eapply method_column; eassumption.
      * injection NN as <-. apply method_other. intros Q. apply by_column_dec in Q. congruence.
    + injection NN as <-. apply method_object.
  - cbn [g_ty] in V. destruct (validate_index var json F R (get_dtype t) k) as [[[[T r0] u0] name]| | |] eqn:VI; try discriminate V. cbn [obind] in V. injection V as <- <- <- <-.
    assert (validate_access arg_ty var json F R (get_dtype t) (AIndex k) = Ret (T, r0, [u0], [name])) as VA by (cbn [validate_access]; rewrite VI; reflexivity).
    assert (exists k', r0 = RIndex k') as [k' ->].
    { unfold validate_index in VI. repeat match type of VI with
        | obind ?x _ = _ => destruct x as [?| | |]; try discriminate VI; cbn [obind] in VI
        | (if ?x then _ else _) = _ => destruct x; try discriminate VI
        | match ?x with Some _ => _ | None => _ end = _ => destruct x; try discriminate VI
        end; injection VI as _ <- _ _; eauto. }
    cbn [sbuild_access fst] in B. destruct (STEP _ _ _ _ _ _ _ _ _ _ _ _ _ _ P U SN VT VA K NM B) as (t' & u' & H1 & H2 & H3 & H4 & H5 & H6).
    exists t', u'. repeat (split; [assumption|]). cbn [g_schema]. now apply s_index.
Qed.

Lemma svalidate_cons g a l g' rs us ns : svalidate_chain arg_ty var json F R g (a :: l) = Ret (g', rs, us, ns) ->
  exists g1 r us1 ns1 rs2 us2 ns2, validate g a = Ret (g1, r, us1, ns1) /\ svalidate_chain arg_ty var json F R g1 l = Ret (g', rs2, us2, ns2) /\
    rs = r :: rs2 /\ us = us1 ++ us2 /\ ns = ns1 ++ ns2.
Proof.
  cbn [svalidate_chain]. intros V. destruct (validate g a) as [[[[g1 r] us1] ns1]| | |] eqn:A; try discriminate V. cbn [obind] in V.
  destruct (svalidate_chain arg_ty var json F R g1 l) as [[[[g2 rs2] us2] ns2]| | |] eqn:C; try discriminate V. cbn [obind] in V.
  injection V as <- <- <- <-. exists g1, r, us1, ns1, rs2, us2, ns2. auto.
Qed.
Lemma svalidate_uses : forall l t sch g rs us ns, plain t -> fine sch -> svalidate_chain arg_ty var json F R (Tag (get_dtype t) sch) l = Ret (g, rs, us, ns) ->
  Forall (use_ok json os) us.
Proof.
  induction l as [|a l IH]; intros t sch g rs us ns P FI V; [injection V as <- <- <- <-; constructor|].
  destruct (svalidate_cons _ _ _ _ _ _ _ V) as (g1 & r & us1 & ns1 & rs2 & us2 & ns2 & A & C & -> & -> & ->).
  destruct (svalidate_ok _ _ _ _ _ _ _ P FI A) as (U1 & _ & (t1 & P1 & G1) & FI1). apply Forall_app. split; [exact U1|].
  destruct g1 as [d1 s1]; cbn [g_ty g_schema] in *. subst d1. eapply IH; [exact P1|exact FI1|exact C].
Qed.
Lemma schain_steps : forall l t u sch v m g rs us ns X names idx pre post v' m', plain t -> plain u -> seen t u -> v_ty v = get_dtype u -> fine sch ->
  sorts_by_columns arg_ty l ->
  svalidate_chain arg_ty var json F R (Tag (get_dtype t) sch) l = Ret (g, rs, us, ns) -> known json F os X ->
  (names = pre ++ ns ++ post /\ length pre = idx /\ brackets_first l) \/ Forall (fun a => is_index a = false) l ->
  sbuild_chain arg_value var text_word conv ext F X names idx v rs m = Ret (v', m') ->
  exists t' u', plain t' /\ plain u' /\ seen t' u' /\ g_ty g = get_dtype t' /\ v_ty v' = get_dtype u' /\
    steps (u, word v m, m, sch) l (u', word v' m', m', g_schema g).
Proof.
  induction l as [|a l IH]; intros t u sch v m g rs us ns X names idx pre post v' m' P U SN VT FI SC V K SH B.
  - cbn in V. injection V as <- <- <- <-. cbn in B. injection B as <- <-. exists t, u. repeat split; try apply P; try apply U; auto. constructor.
  - destruct (svalidate_cons _ _ _ _ _ _ _ V) as (g1 & r & us1 & ns1 & rs2 & us2 & ns2 & A & C & -> & -> & ->).
    cbn [sbuild_chain] in B. destruct (sbuild_access arg_value var text_word conv ext F X names idx v r m) as [[v1 m1]| | |] eqn:B1; try discriminate B. cbn [obind] in B.
    destruct (svalidate_ok _ _ _ _ _ _ _ P FI A) as (_ & LN & _ & FI1).
    assert (forall name, ns1 = [name] -> nth_error names idx = Some name) as NM.
    { intros name ->. destruct SH as [(-> & <- & _)|SH].
      - rewrite nth_error_app2 by lia. now rewrite Nat.sub_diag.
      - inversion SH as [|? ? H _]. rewrite H in LN. discriminate LN. }
    assert (sorts_by_columns arg_ty [a]) as S1 by (intros n e e' es [->|[]] BC d0 AE; exact (SC n e e' es (or_introl eq_refl) BC d0 AE)).
    assert (sorts_by_columns arg_ty l) as S2 by (intros n e e' es IN BC d0 AE; exact (SC n e e' es (or_intror IN) BC d0 AE)).
    destruct (saccess_step _ _ _ _ _ _ _ _ _ _ _ _ _ _ _ P U SN VT FI S1 A K NM B1) as (t1 & u1 & P1 & U1 & SN1 & G1 & VT1 & ST).
    destruct g1 as [d1 s1]; cbn [g_ty g_schema] in *. subst d1.
    destruct (IH t1 u1 s1 v1 m1 g rs2 us2 ns2 X names (S idx) (pre ++ ns1) post v' m' P1 U1 SN1 VT1 FI1 S2 C K) as (t' & u' & H1 & H2 & H3 & H4 & H5 & H6); [|exact B|].
    + destruct SH as [(-> & <- & BF)|SH].
      * cbn in BF. destruct (is_index a); [|right; exact BF]. left. split; [now rewrite !app_assoc|]. split; [|exact BF].
        rewrite app_length, LN. lia.
      * right. now inversion SH.
    + exists t', u'. repeat (split; [assumption|]). econstructor; [exact ST|exact H6].
Qed.
Theorem schain t sch w l m T' v m' : plain t -> fine sch -> brackets_first l -> sorts_by_columns arg_ty l ->
  run_schain arg_ty arg_value var text_word conv ext json F R (get_dtype t) sch w l m = Ret (T', v, m') ->
  exists u sch', v_ty v = get_dtype u /\ steps (t, w, m, sch) l (u, word v m', m', sch') /\
    (T' = get_dtype u \/ exists f, 4 <= f <= 15 /\ u = CPtr (CBase f) /\ T' = get_dtype (CBase f)).
Proof.
  intros P FI BF SC H. unfold run_schain in H. destruct (svalidate_chain arg_ty var json F R (Tag (get_dtype t) sch) l) as [[[[g rs] us] ns]| | |] eqn:V; try discriminate H. cbn [obind] in H.
  destruct (externs F us []) as [X| | |] eqn:EX; try discriminate H. cbn [obind] in H.
  destruct (sbuild_chain _ _ _ _ _ _ _ _ _ _ _ _) as [[v1 m1]| | |] eqn:B; try discriminate H. cbn [obind] in H. injection H as <- <- <-.
  assert (known json F os X) as K. { eapply (externs_known json F os JNAME); [eapply svalidate_uses; eassumption| |exact EX]. intros s f X1. discriminate X1. }
  destruct (schain_steps l t t sch (Val (get_dtype t) (Imm w)) m g rs us ns X ns 0 [] [] v1 m1) as (t' & u' & _ & _ & SN & -> & VT & ST); auto.
  - now left.
  - left. cbn. now rewrite app_nil_r.
  - exists u', (g_schema g). split; [exact VT|]. split; [exact ST|]. destruct SN as [->|(f & -> & -> & B4)]; [now left|right; now exists f].
Qed.
End Chains.

(** ** Chains that are accepted *)
Lemma same_fields a b : udf_field a -> udf_field b -> get_dtype a = get_dtype b -> a = b.
Proof.
  intros ((Sa & Na & _) & Pa & _) ((Sb & Nb & _) & _ & _) H. destruct (eqb_iff_same a b Sa Sb Na Nb) as (r & Q & IFF). apply IFF.
  rewrite <- H, (same_type a Pa) in Q. now injection Q as <-.
Qed.
Lemma column_field f : builtin f -> f <> 24 -> udf_field (CSeq KSimdVector (CBase f)).
Proof.
  intros B N. unfold builtin in B. assert (supported 2047 (CSeq KSimdVector (CBase f))) as S by (cbn; lia).
  split; [split; [exact S|]; split; [exact I|]; split; discriminate|]. split; [split; [exact S|reflexivity]|discriminate].
Qed.
Section Accepted.
Context {E : Type}.
Variable arg_ty : E -> option dtype.
Variable arg_value : E -> mem -> outcome (dtype * Z).
Variable var : text -> option (dtype * Z).
Variable text_word : text -> Z.
Variable conv : dtype -> dtype -> Z -> mem -> outcome Z.
Variable ext : Z -> list Z -> mem -> outcome (Z * mem).
Variable json : bool -> desc.
Variable F : factory.
Variable os : list offer.
Notation R := (fst (offer_members os [])).
Hypothesis OS : Forall (ordinary plain) os.
Hypothesis JNAME : forall b, d_name (json b) = json_name b.
Hypothesis JRET : forall b, d_return (json b) = get_dtype (CPtr (CBase 20)).
Hypothesis SARG : forall e m d w, arg_value e m = Ret (d, w) -> sized d.
Hypothesis SVAR : forall x d w, var x = Some (d, w) -> sized d.
Hypothesis SJSON : forall b, Forall sized (d_args (json b)).
Hypothesis SMETH : forall t n b ret args f, In (OMethod t n b ret args f) os -> Forall (supported 2047) args.
Hypothesis CONV : forall d p w m, dtype_eqb d p = Ret true -> conv d p w m = Ret w.
Hypothesis APART : methods_apart (fun t => member_name F (get_dtype t)) json_name os.
Hypothesis CHECKED : forall e m v, arg_value e m = Ret v -> arg_ty e <> None.
Hypothesis COLUMNS : gives_columns (fun t => member_name F (get_dtype t)) os.
Notation kv := (fun k (_ : mem) => key_value var text_word k).
Notation step := (sstep os arg_ty arg_value kv conv ext (fun b => d_args (json b)) (fun b => d_func (json b))).
Notation steps := (ssteps os arg_ty arg_value kv conv ext (fun b => d_args (json b)) (fun b => d_func (json b))).
Notation declares := (declares F).
Notation build := (sbuild_access arg_value var text_word conv ext F).
Notation accept := (access_accept arg_ty arg_value var text_word conv ext json F os OS JNAME JRET SARG SVAR SJSON SMETH CONV APART CHECKED).

Lemma saccess_accept t u sch x m a u' x' m' sch' : plain t -> plain u -> seen t u -> fine sch -> step (u, x, m, sch) a (u', x', m', sch') ->
  exists t' r us ns, svalidate_access arg_ty var json F R (Tag (get_dtype t) sch) a = Ret (Tag (get_dtype t') sch', r, us, ns) /\
    plain t' /\ plain u' /\ seen t' u' /\ Forall (use_ok json os) us /\
    forall X names idx v, known json F os X -> Forall (declares X) us -> (forall name, ns = [name] -> nth_error names idx = Some name) ->
      v_ty v = get_dtype u -> word v m = x -> exists v', build X names idx v r m = Ret (v', m') /\ v_ty v' = get_dtype u' /\ word v' m' = x'.
Proof.
  intros P U SN FI ST. destruct (dyn_some t P) as [d D]. pose proof (dyn_ptr t d P D) as DT. pose proof (seen_dyn t u SN) as SD.
  destruct (dyn_some u U) as [d' D']. pose proof (dyn_ptr u d' U D') as DU.
  assert (d' = d) as -> by (destruct d, d'; try reflexivity; [assert (false = true) by tauto|assert (false = true) by tauto]; discriminate).
  inversion ST as [s n T off w0 m0 TB UT G|s n f off w0 m0 o TB FB F24 G C|o sc n o' DIS S1|o sc n n' es o' ME S1|o sc k o' S1]; subst.
  - pose proof (proj2 SD eq_refl) as ->. pose proof (proj2 DT eq_refl) as ->. cbn [fine] in FI. destruct (FI n _ G) as (T & PT & NB & UT' & VAL & FE & O & _).
    injection FE as FE. cbn [f_offset] in O. pose proof (same_fields _ _ UT UT' FE) as ->. clear FE UT'.
    exists T. do 3 eexists. cbn [svalidate_access]. unfold svalidate_field. cbn [g_ty g_schema]. rewrite D. cbn [obind]. rewrite G, TB. cbn [obind f_dtype f_offset].
    split; [reflexivity|]. split; [exact PT|]. split; [exact PT|]. split; [now left|]. split; [constructor|].
    intros X names idx v K DC NM VT WD. unfold sbuild_access. cbn [fst snd m_field]. rewrite VT, (is_ptr_plain _ U), D'. cbn [isP negb obind]. rewrite TB. cbn [andb build_access].
    rewrite VT, (is_ptr_plain _ U). cbn [isP negb m_field m_offset].
    unfold get_struct_field. fold (field_is_value (get_dtype T)). destruct (field_kind T PT NB) as (_ & K2 & K3). pose proof (proj2 K2 VAL) as KV.
    rewrite KV, (K3 KV). cbn [obind]. eexists. split; [reflexivity|]. split; [reflexivity|]. cbn [word v_loc]. rewrite (offset_wraps _ _ O), WD. reflexivity.
  - pose proof (proj2 SD eq_refl) as ->. pose proof (proj2 DT eq_refl) as ->. pose proof (column_field f FB F24) as CF. destruct (checked_ptr _ P) as [QT QP].
    destruct C as (_ & b & ret & args & fn & ws & y & m1 & FST & PS & EX & EQ). injection EQ as -> -> ->.
    destruct (first_in _ _ _ FST) as [IN _]. destruct (COLUMNS f FB) as [CR _]. pose proof (CR _ _ _ _ IN) as ->.
    set (cn := lit "get_column_" ++ fundamental_name f) in *. assert (function_name F get_column (get_dtype (CBase f)) = Ret cn) as CN by exact (column_name F get_column f FB F24).
    destruct (has_method os OS dyn cn b _ args fn QP FST) as (mb & GM & PR & MF).
    exists (CSeq KSimdVector (CBase f)). do 3 eexists. cbn [svalidate_access]. unfold svalidate_field. cbn [g_ty g_schema]. rewrite D. cbn [obind]. rewrite G, TB. cbn [f_dtype f_offset].
    rewrite (column_elem true f FB : elem_of (get_dtype (CSeq KSimdVector (CBase f))) = _), CN. cbn [obind]. rewrite QT. cbn [obind pointee]. rewrite GM, MF. cbn [obind].
    split; [reflexivity|]. split; [exact PR|]. split; [exact PR|]. split; [now left|].
    split; [constructor; [|constructor]; cbn; exists dyn, mb; auto|].
    intros X names idx v K DC NM VT WD. unfold sbuild_access. cbn [fst snd m_field m_offset]. rewrite VT, (is_ptr_plain _ U), D'. cbn [isP negb obind]. rewrite TB. cbn [andb].
    rewrite QT. cbn [obind pointee]. rewrite (column_elem true f FB : elem_of (get_dtype (CSeq KSimdVector (CBase f))) = _), CN. cbn [obind]. rewrite dyn_name. cbn [obind].
    inversion DC as [|? ? DC1 _]; subst. cbn in DC1. specialize (DC1 _ (dyn_name F cn)). destruct (find_text X (lit "dyn_obj" ++ lit "_" ++ cn)) as [g|] eqn:FT; [|now destruct DC1].
    pose proof (method_known json F os OS APART X dyn cn mb _ _ g K QP GM MF (dyn_name F cn) FT) as ->.
    eexists. split; [eapply (passes_call _ _ CONV); [exact FT| |exact (method_sized os OS SMETH _ _ _ _ QP GM MF)|exact PS|exact EX]|split; reflexivity].
    constructor; [exact (plain_sized _ U)|]. constructor; [|constructor]. exists (CBase 8). split; [cbn; lia|reflexivity].
  - destruct (accept _ _ _ _ _ _ _ _ P U SN S1) as (t' & r & us & ns & V & P1 & U1 & SN1 & UO & B). exists t'.
    cbn [validate_access] in V. destruct (validate_field R (get_dtype t) n) as [[T r0]| | |] eqn:VF; try discriminate V. cbn [obind] in V. injection V as -> -> <- <-.
    do 3 eexists. cbn [svalidate_access]. unfold svalidate_field. cbn [g_ty g_schema]. rewrite D. cbn [obind].
    assert ((if d then sch else None) = None) as DN by (destruct d; [|reflexivity]; destruct DIS as [->|N]; [reflexivity|]; destruct N; now apply DU). rewrite DN, VF. cbn [obind].
    split; [reflexivity|]. split; [exact P1|]. split; [exact U1|]. split; [exact SN1|]. split; [constructor|]. intros X names idx v K DC NM VT WD.
    destruct (B X names idx v K DC NM VT WD) as (v' & B' & H1 & H2). exists v'. split; [|now split]. rewrite <- B'.
    unfold validate_field in VF. destruct (ptr_to (get_dtype t)) as [Q| | |]; try discriminate VF. cbn [obind] in VF. destruct (get_member R Q n) as [mb|]; [|discriminate VF].
    destruct (m_field mb) as [f|] eqn:MF; [|discriminate VF]. injection VF as _ <-. unfold sbuild_access. cbn [fst snd g_schema build_access]. rewrite VT.
    destruct (is_ptr (get_dtype u)); [|reflexivity]. cbn [negb]. rewrite MF, D'. cbn [obind].
    destruct (d && match sch with Some s => s_table s | None => false end) eqn:DD; [|reflexivity]. destruct d; [|discriminate DD]. rewrite DN in DD. discriminate DD.
  - destruct (accept _ _ _ _ _ _ _ _ P U SN S1) as (t' & r & us & ns & V & P1 & U1 & SN1 & UO & B). exists t'.
    cbn [validate_access] in V. destruct (validate_call arg_ty R (get_dtype t) n' es) as [[[T r0] u0]| | |] eqn:VC; try discriminate V. cbn [obind] in V. injection V as -> -> <- <-.
    assert (forallb (fun e => match arg_ty e with Some _ => true | None => false end) es = true) as FA by (unfold validate_call in VC; destruct (forallb _ es); [reflexivity|discriminate VC]).
    rewrite (a_table_ok u x m sch' d U DU) in ME. set (tb := d && match sch' with Some s => s_table s | None => false end) in *.
    assert ((if tb && (text_eqb n (lit "topk") || text_eqb n (lit "order_by")) then
               match es with e :: _ :: _ => match arg_ty e with Some d => function_name F n (elem_of d) | None => Err end | _ => Ret n end else Ret n) = Ret n') as NN.
    { inversion ME as [n0 e e' es0 f vec BC FB F24 AE E1|n0 es0 LE E1|n0 es0 NB E1|n0 es0 E1]; subst; cbn [andb].
      - rewrite (proj2 (by_column_dec n) BC), AE, (column_elem vec f FB). exact (column_name F n f FB F24).
      - destruct (text_eqb n' _ || _); [|reflexivity]. destruct es as [|e [|e' es]]; try reflexivity. cbn in LE. lia.
      - destruct (text_eqb n' _ || _) eqn:Q; [|reflexivity]. destruct NB. now apply by_column_dec.
      - reflexivity. }
    do 3 eexists. cbn [svalidate_access]. unfold svalidate_call. cbn [g_ty g_schema]. rewrite D. cbn [obind]. fold tb. rewrite FA, NN. cbn [obind]. rewrite VC. cbn [obind].
    split; [reflexivity|]. split; [exact P1|]. split; [exact U1|]. split; [exact SN1|]. split; [exact UO|]. intros X names idx v K DC NM VT WD.
    destruct (B X names idx v K DC NM VT WD) as (v' & B' & H1 & H2). exists v'. split; [|now split]. rewrite <- B'.
    unfold validate_call in VC. rewrite FA in VC. destruct (ptr_to (get_dtype t)) as [Q| | |]; try discriminate VC. cbn [obind] in VC. destruct (get_member R Q n') as [mb|]; [|discriminate VC].
    destruct (m_func mb) as [f|]; [|discriminate VC]. injection VC as _ <- _. reflexivity.
  - destruct (accept _ _ _ _ _ _ _ _ P U SN S1) as (t' & r & us & ns & V & P1 & U1 & SN1 & UO & B). exists t'.
    cbn [validate_access] in V. destruct (validate_index var json F R (get_dtype t) k) as [[[[T r0] u0] name]| | |] eqn:VI; try discriminate V. cbn [obind] in V. injection V as -> -> <- <-.
    assert (exists k', r = RIndex k') as [k' ->].
    { unfold validate_index in VI. repeat match type of VI with
        | obind ?x _ = _ => destruct x as [?| | |]; try discriminate VI; cbn [obind] in VI
        | (if ?x then _ else _) = _ => destruct x; try discriminate VI
        | match ?x with Some _ => _ | None => _ end = _ => destruct x; try discriminate VI
        end; injection VI as _ <- _ _; eauto. }
    do 3 eexists. cbn [svalidate_access g_ty]. rewrite VI. cbn [obind]. split; [reflexivity|]. split; [exact P1|]. split; [exact U1|]. split; [exact SN1|]. split; [exact UO|].
    intros X names idx v K DC NM VT WD. exact (B X names idx v K DC NM VT WD).
Qed.

Lemma sstep_fine o sch a o' sch' : fine sch -> step (o, sch) a (o', sch') -> fine sch'.
Proof. intros FI ST. inversion ST; subst; try exact I; exact FI. Qed.
Lemma schain_accept : forall l t u sch x m u' x' m' sch', plain t -> plain u -> seen t u -> fine sch -> steps (u, x, m, sch) l (u', x', m', sch') ->
  exists t' rs us ns, svalidate_chain arg_ty var json F R (Tag (get_dtype t) sch) l = Ret (Tag (get_dtype t') sch', rs, us, ns) /\ Forall (use_ok json os) us /\
    forall X names idx pre post v, known json F os X -> Forall (declares X) us ->
      (names = pre ++ ns ++ post /\ length pre = idx /\ brackets_first l) \/ Forall (fun a => is_index a = false) l ->
      v_ty v = get_dtype u -> word v m = x ->
      exists v', sbuild_chain arg_value var text_word conv ext F X names idx v rs m = Ret (v', m') /\ v_ty v' = get_dtype u' /\ word v' m' = x'.
Proof.
  induction l as [|a l IH]; intros t u sch x m u' x' m' sch' P U SN FI ST.
  - inversion ST; subst. exists t, [], [], []. split; [reflexivity|]. split; [constructor|]. intros X names idx pre post v K D SH VT WD. exists v. auto.
  - inversion ST as [|o a0 [[[u1 x1] m1] sch1] l0 o'' S1 S2]; subst.
    destruct (saccess_accept _ _ _ _ _ _ _ _ _ _ P U SN FI S1) as (t1 & r & us1 & ns1 & V1 & P1 & U1 & SN1 & UO1 & B1).
    destruct (IH _ _ _ _ _ _ _ _ _ P1 U1 SN1 (sstep_fine _ _ _ _ _ FI S1) S2) as (t' & rs & us & ns & V2 & UO2 & B2).
    exists t', (r :: rs), (us1 ++ us), (ns1 ++ ns). cbn [svalidate_chain]. rewrite V1. cbn [obind]. rewrite V2. cbn [obind].
    split; [reflexivity|]. split; [apply Forall_app; auto|]. intros X names idx pre post v K D SH VT WD. apply Forall_app in D. destruct D as [D1 D2].
    destruct (svalidate_ok arg_ty var json F os OS _ _ _ _ _ _ _ P FI V1) as (_ & LN & _).
    assert (forall name, ns1 = [name] -> nth_error names idx = Some name) as NM.
    { intros name ->. destruct SH as [(-> & <- & _)|SH].
      - rewrite nth_error_app2 by lia. now rewrite Nat.sub_diag.
      - inversion SH as [|? ? H _]. rewrite H in LN. discriminate LN. }
    destruct (B1 X names idx v K D1 NM VT WD) as (v1 & B1' & VT1 & WD1). cbn [sbuild_chain]. rewrite B1'. cbn [obind].
    apply (B2 X names (S idx) (pre ++ ns1) post v1 K D2); [|exact VT1|exact WD1].
    destruct SH as [(-> & <- & BF)|SH].
    + cbn in BF. destruct (is_index a); [|right; exact BF]. left. split; [now rewrite !app_assoc|]. split; [|exact BF]. rewrite app_length, LN. lia.
    + right. now inversion SH.
Qed.
Theorem schain_accepted t sch w l m u x m' sch' : plain t -> fine sch -> brackets_first l -> steps (t, w, m, sch) l (u, x, m', sch') ->
  exists T' v, run_schain arg_ty arg_value var text_word conv ext json F R (get_dtype t) sch w l m = Ret (T', v, m') /\ v_ty v = get_dtype u /\ word v m' = x.
Proof.
  intros P FI BF ST. destruct (schain_accept l t t sch w m u x m' sch' P P (or_introl eq_refl) FI ST) as (t' & rs & us & ns & V & U & B).
  unfold run_schain. rewrite V. cbn [obind]. destruct (externs_ret json F os OS us U []) as (X & EX & _ & D). rewrite EX. cbn [obind].
  assert (known json F os X) as K. { eapply externs_known; [exact JNAME|exact U| |exact EX]. intros s f X1. discriminate X1. }
  destruct (B X ns 0%nat [] [] (Val (get_dtype t) (Imm w)) K) as (v & B' & VT & WD); [exact D|left; cbn; now rewrite app_nil_r|reflexivity|reflexivity|].
  rewrite B'. cbn [obind g_ty]. eauto.
Qed.
End Accepted.
Lemma made_fine sch : made sch -> fine sch.
Proof. intros [->|(h & tb & fs & -> & H & R & U & C & A)]; [exact I|]. apply built_usable; try assumption. now split. Qed.

(** ** The methods of tables *)
Section Tables.
Context {E : Type}.
Variable arg_ty : E -> option dtype.
Variable arg_value : E -> mem -> outcome (dtype * Z).
Variable var : text -> option (dtype * Z).
Variable text_word : text -> Z.
Variable conv : dtype -> dtype -> Z -> mem -> outcome Z.
Variable ext : Z -> list Z -> mem -> outcome (Z * mem).
Variable json : bool -> desc.
Variable F : factory.
Variable addr : text -> Z.
Notation R := (fst (offer_members (table_methods addr) [])).
Notation run := (run_schain arg_ty arg_value var text_word conv ext json F R).

Lemma get_column_there f : In f column_types ->
  let n := get_column ++ lit "_" ++ fundamental_name f in
  exists mb, get_member R (get_dtype dyn) n = Some mb /\
    m_func mb = Some (Desc n (get_dtype (vector_of f)) [get_dtype (CPtr dyn); get_dtype (CBase DATA_U32)] (addr n) None false).
Proof.
  unfold column_types. cbn [In]. intros H. repeat (destruct H as [<-|H]; [eexists; split; vm_compute; reflexivity|]). contradiction.
Qed.
Lemma get_column_not f : builtin f -> ~ In f column_types -> get_member R (get_dtype dyn) (get_column ++ lit "_" ++ fundamental_name f) = None.
Proof.
  intros H N. apply builtin_codes in H. unfold codes in H. cbn in H.
  repeat (destruct H as [<-|H]; [first [vm_compute; reflexivity | exfalso; apply N; cbn; tauto]|]). contradiction.
Qed.
Lemma column_builtin f : In f column_types -> builtin f /\ f <> 24.
Proof. unfold column_types. cbn [In]. intros H. unfold builtin. repeat (destruct H as [<-|H]; [lia|]). contradiction. Qed.
Lemma dyn_ptr_to : ptr_to (get_dtype (CPtr dyn)) = Ret (get_dtype dyn).
Proof. vm_compute. reflexivity. Qed.
Lemma dyn_is_ptr : is_ptr (get_dtype (CPtr dyn)) = true.
Proof. vm_compute. reflexivity. Qed.
Lemma vector_elem f : builtin f -> elem_of (get_dtype (vector_of f)) = get_dtype (CBase f).
Proof. exact (column_elem true f). Qed.

Theorem columns s n f off w m : s_table s = true -> get_field s n = Some (Field (get_dtype (vector_of f)) off) -> In f column_types ->
  run (get_dtype (CPtr dyn)) (Some s) w [AField n] m =
  (do! (x, m') <- ext (addr (lit "get_column_" ++ fundamental_name f)) [w; off] m; Ret (get_dtype (vector_of f), Val (get_dtype (vector_of f)) (Imm x), m')).
Proof.
  intros TB G IN. destruct (column_builtin f IN) as [FB F24]. destruct (get_column_there f IN) as (mb & GM & MF).
  change (lit "get_column_" ++ fundamental_name f) with (get_column ++ lit "_" ++ fundamental_name f). set (cn := get_column ++ lit "_" ++ fundamental_name f) in *.
  unfold run_schain. cbn [svalidate_chain svalidate_access]. unfold svalidate_field. cbn [g_ty g_schema]. rewrite dyn_true. cbn [obind]. rewrite G, TB. cbn [f_dtype f_offset].
  rewrite (vector_elem f FB), (column_name F get_column f FB F24). cbn [obind]. fold cn. rewrite dyn_ptr_to. cbn [obind]. rewrite GM, MF. cbn [obind app externs].
  rewrite dyn_name. cbn [obind sbuild_chain]. unfold sbuild_access. cbn [fst snd m_field m_offset v_ty]. rewrite dyn_is_ptr, dyn_true. cbn [negb obind]. rewrite TB. cbn [andb].
  rewrite dyn_ptr_to. cbn [obind]. rewrite (vector_elem f FB), (column_name F get_column f FB F24). cbn [obind]. fold cn. rewrite dyn_name. cbn [obind].
  unfold call_function. cbn [find_text]. rewrite (proj2 (text_eqb_eq _ _) eq_refl). cbn [length d_args Nat.eqb negb call_words word v_loc].
  change (dtype_eqb (get_dtype (CPtr dyn)) (get_dtype (CPtr dyn))) with (Ret true). change (dtype_eqb (get_dtype (CBase DATA_U32)) (get_dtype (CBase DATA_U32))) with (Ret true). cbn [obind d_func d_return].
  destruct (ext (addr cn) [w; off] m) as [[x m1]| | |]; reflexivity.
Qed.
Theorem other_columns s n f off w m : s_table s = true -> get_field s n = Some (Field (get_dtype (vector_of f)) off) -> builtin f -> f <> 24 -> ~ In f column_types ->
  run (get_dtype (CPtr dyn)) (Some s) w [AField n] m = Err.
Proof.
  intros TB G FB F24 N. unfold run_schain. cbn [svalidate_chain svalidate_access]. unfold svalidate_field. cbn [g_ty g_schema]. rewrite dyn_true. cbn [obind]. rewrite G, TB. cbn [f_dtype f_offset].
  rewrite (vector_elem f FB), (column_name F get_column f FB F24). cbn [obind]. rewrite dyn_ptr_to. cbn [obind]. rewrite (get_column_not f FB N). cbn [obind app externs sbuild_chain].
  unfold sbuild_access. cbn [fst snd m_field m_offset v_ty]. rewrite dyn_is_ptr, dyn_true. cbn [negb obind]. rewrite TB. cbn [andb].
  rewrite dyn_ptr_to. cbn [obind]. rewrite (vector_elem f FB), (column_name F get_column f FB F24). cbn [obind]. rewrite dyn_name. reflexivity.
Qed.
Lemma call_refused sch n n' es l w m : get_member R (get_dtype dyn) n' = None ->
  (forall d, (if d && (text_eqb n (lit "topk") || text_eqb n (lit "order_by")) then
     match es with
     | e :: _ :: _ => match arg_ty e with Some d => function_name F n (elem_of d) | None => Err end
     | _ => Ret n
     end
   else Ret n) = Ret n' \/ d = negb (match sch with Some s => s_table s | None => false end)) ->
  run (get_dtype (CPtr dyn)) sch w (ACall n es :: l) m = Err.
Proof.
  intros G H. unfold run_schain. cbn [svalidate_chain svalidate_access]. unfold svalidate_call. cbn [g_ty g_schema]. rewrite dyn_true. cbn [obind andb].
  destruct (forallb _ es) eqn:FA; [|reflexivity]. destruct (H (match sch with Some s => s_table s | None => false end)) as [->|Q].
  - cbn [obind]. unfold validate_call. rewrite FA, dyn_ptr_to. cbn [obind]. now rewrite G.
  - destruct (match sch with Some s => s_table s | None => false end); discriminate Q.
Qed.
Theorem group_by_refused sch es l w m : run (get_dtype (CPtr dyn)) sch w (ACall (lit "group_by") es :: l) m = Err.
Proof.
  apply (call_refused sch _ (lit "group_by")); [vm_compute; reflexivity|]. intros d. left. rewrite andb_comm. reflexivity.
Qed.
Theorem order_by_refused s e e' es l w m : s_table s = true -> arg_ty e = Some (get_dtype (CBase DATA_STRING_VIEW)) ->
  run (get_dtype (CPtr dyn)) (Some s) w (ACall (lit "order_by") (e :: e' :: es) :: l) m = Err.
Proof.
  intros TB A. apply (call_refused (Some s) _ (lit "order_by" ++ lit "_" ++ fundamental_name DATA_STRING_VIEW)); [vm_compute; reflexivity|].
  intros d. rewrite TB. destruct d; [|right; reflexivity]. left. cbn [andb]. change (text_eqb (lit "order_by") (lit "topk") || text_eqb (lit "order_by") (lit "order_by")) with true. cbv iota.
  rewrite A. exact (column_name F (lit "order_by") 17 ltac:(unfold builtin; lia) ltac:(lia)).
Qed.
End Tables.

(** ** Examples *)
Definition fields : list (text * cpptype) := [(lit "id", CBase 10); (lit "on", CBase 3); (lit "score", CBase 13); (lit "name", CBase 17)].
Definition udf_fields : list (text * cpptype) := [(lit "id", CBase 10); (lit "score", CBase 13); (lit "name", CBase 17)].
Definition some_changes : list change :=
  [ByHost (Setting (lit "id") Rvalue (CBase 10) (bytes_of_word 8 77)); ByUdf (lit "score") (CBase 13) 258; ByUdf (lit "id") (CBase 10) 78;
   ByHost (Setting (lit "score") Rvalue (CBase 13) [9; 8; 7; 6]); ByUdf (lit "id") (CBase 13) 5; ByUdf (lit "none") (CBase 13) 5].
Definition table_fields : list (text * cpptype) := [(lit "id", vector_of 10); (lit "score", vector_of 13); (lit "half", vector_of 12)].
Definition table_schema : schema := build table_fields (new_schema 100 true).
Definition arg_ty (e : Z) : option dtype := Some (get_dtype (if e =? 0 then vector_of 3 else if e =? 1 then vector_of 13 else CBase (1 + (e - 1) mod 2046))).
Definition arg_value (e : Z) (m : mem) : outcome (dtype * Z) := match arg_ty e with Some d => Ret (d, e) | None => Err end.
Definition conv (d p : dtype) (w : Z) (_ : mem) : outcome Z := Ret w.
Definition ext (a : Z) (ws : list Z) (m : mem) : outcome (Z * mem) := Ret (a + fold_right (fun x y => x + 10 * y) 0 ws, fun b => if b =? 0 then m 0 + 1 else m b).
Definition json (b : bool) : desc := Desc (json_name b) (get_dtype (CPtr (CBase 20))) [] 5 None false.
Definition addr (n : text) : Z := Z.of_nat (length n) * 1000.
(** group_by gives spans of pointers. *)
Definition other_methods : list offer := filter (fun o => match o with OMethod _ _ _ (CSeq KAbslSpan _) _ _ => false | _ => true end) (table_methods addr).
Lemma other_dyn o : In o other_methods -> exists n ret args a, o = OMethod dyn n true ret args a /\ plain ret.
Proof.
  intros I. vm_compute in I. repeat (destruct I as [<-|I]; [do 4 eexists; split; [reflexivity|split; [cbn; lia|reflexivity]]|]). contradiction.
Qed.
Lemma other_apart F : methods_apart (fun t => member_name F (get_dtype t)) json_name other_methods.
Proof.
  intros t n b ret args f I s N. destruct (other_dyn _ I) as (n1 & r1 & a1 & f1 & [= -> -> -> -> -> ->] & _). rewrite dyn_name in N. injection N as <-.
  split; [intros []; discriminate|]. intros t' n' b' ret' args' f' I' N'. destruct (other_dyn _ I') as (n2 & r2 & a2 & f2 & [= -> -> -> -> -> ->] & _).
  rewrite dyn_name in N'. injection N' as N'. auto.
Qed.
Lemma other_columns_given F : gives_columns (fun t => member_name F (get_dtype t)) other_methods.
Proof.
  intros f FB. cbv zeta. split.
  - intros b ret args a I. assert (exists g, In g column_types /\ fundamental_name f = fundamental_name g /\ ret = CSeq KSimdVector (CBase g)) as (g & G & N & ->).
    { vm_compute in I. repeat (destruct I as [I|I]; [try discriminate I; injection I as N _ <- _ _|]); [..|contradiction];
      match goal with |- exists g, _ /\ _ /\ CSeq KSimdVector (CBase ?g) = _ => exists g; split; [cbn; tauto|]; split; [exact (eq_sym N)|reflexivity] end. }
    apply builtin_codes in FB. unfold codes in FB. cbn in FB. unfold column_types in G. cbn [In] in G. f_equal. f_equal.
    repeat (destruct FB as [<-|FB]; [repeat (destruct G as [<-|G]; [first [reflexivity | discriminate N]|]); contradiction|]). contradiction.
  - intros t' n' b ret args a I N. destruct (other_dyn _ I) as (n2 & r2 & a2 & f2 & [= -> -> -> -> -> ->] & _). rewrite !dyn_name in N. injection N as N. split; [reflexivity|exact N].
Qed.
Lemma other_ordinary : Forall (ordinary plain) other_methods.
Proof.
  apply Forall_forall. intros o I. destruct (other_dyn _ I) as (n & ret & args & f & -> & P). split; [|exact P].
  split; [split; [cbn; lia|reflexivity]|]. split; [intros; discriminate|cbn; exact I || lia].
Qed.
