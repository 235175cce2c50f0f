(** Proofs about the DType model. *)
From Coq Require Import List ZArith Bool Lia Znumtheory.
Import ListNotations.
From Verif Require Import Base DType_Spec DType_Model.
Local Open Scope Z_scope.

Ltac pows :=
  repeat match goal with
  | |- context [2 ^ ?n] => let v := eval vm_compute in (2 ^ n) in
                           lazymatch v with Zpos _ => change (2 ^ n) with v end
  | H : context [2 ^ ?n] |- _ => let v := eval vm_compute in (2 ^ n) in
                           lazymatch v with Zpos _ => change (2 ^ n) with v in H end
  end.

(** ** Induction principle *)
Section Ind.
  Variable P : dtype -> Prop.
  Hypothesis H : forall c e, (forall l x, e = Some l -> In (Some x) l -> P x) -> P (DT c e).
  Fixpoint dtype_rect' (d : dtype) : P d.
  Proof.
    destruct d as [c [l|]]; apply H; [|discriminate].
    intros l0 x [= <-]. revert x.
    induction l as [|o l IH]; intros x Hin; [destruct Hin|].
    destruct Hin as [E|Hin]; [|apply IH; exact Hin].
    destruct o as [y|]; [|discriminate].
    pose proof (dtype_rect' y) as Hy. injection E as E. rewrite <- E. exact Hy.
  Qed.
End Ind.

(** ** Keys *)
Inductive ktree := KT (k : Z) (l : list (option ktree)).

Fixpoint key (d : dtype) : ktree :=
  match d with
  | DT c e => KT (wraps 32 (control c))
                 (match e with None => [] | Some l => map (option_map key) l end)
  end.

Definition okc (lim : Z) (c : ctrl) : Prop :=
  0 <= container c < 64 /\ 0 <= ptr_bit c < 2 /\ 0 <= t0 c < 2 ^ 14 /\
  (0 <= t1 c < lim \/ t1 c = DATA_COMPLEX_OBJECT) /\ 0 <= fixed_size c < 2 ^ 28.

Inductive good (lim : Z) : dtype -> Prop :=
| good_DT c e :
    okc lim c ->
    (fixed_size c <> 0 -> container c = 1) ->
    (container c = 1 -> e = None) ->
    (elems_size e <= 2) ->
    (forall l x, e = Some l -> In (Some x) l -> good lim x) ->
    good lim (DT c e).

Lemma wraps32_low lim c : lim <= 2047 -> okc lim c ->
  wraps 32 (control c) =
    let s := if t1 c <? 1024 then t1 c else if t1 c <? 2047 then t1 c - 2048 else -1 in
    container c + ptr_bit c * 64 + t0 c * 128 + s * 2097152.
Proof.
  intros Hl (A & B & C & D & E). unfold DATA_COMPLEX_OBJECT in D. pows.
  destruct c as [ct pb a b n]; cbn [container ptr_bit t0 t1 fixed_size] in *. cbv zeta.
  unfold wraps, control; cbn [container ptr_bit t0 t1 fixed_size]. pows.
  change (32 - 1) with 31. pows.
  destruct (Z.ltb_spec b 1024).
  - destruct D as [D|D]; [|lia].
    assert (E1 : (ct + pb * 64 + a * 128 + b * 2097152 + n * 34359738368) mod 4294967296
                 = ct + pb * 64 + a * 128 + b * 2097152).
    { symmetry. apply Z.mod_unique with (q := 8 * n); lia. }
    rewrite E1. destruct (Z.ltb_spec (ct + pb * 64 + a * 128 + b * 2097152) 2147483648); lia.
  - destruct (Z.ltb_spec b 2047).
    + assert (E1 : (ct + pb * 64 + a * 128 + b * 2097152 + n * 34359738368) mod 4294967296
                 = ct + pb * 64 + a * 128 + b * 2097152).
      { symmetry. apply Z.mod_unique with (q := 8 * n); lia. }
      rewrite E1. destruct (Z.ltb_spec (ct + pb * 64 + a * 128 + b * 2097152) 2147483648); lia.
    + assert (E2 : b = 16383) by lia. subst b.
      assert (E1 : (ct + pb * 64 + a * 128 + 16383 * 2097152 + n * 34359738368) mod 4294967296
                 = ct + pb * 64 + a * 128 + 2047 * 2097152).
      { symmetry. apply Z.mod_unique with (q := 8 * n + 7); lia. }
      rewrite E1.
      destruct (Z.ltb_spec (ct + pb * 64 + a * 128 + 2047 * 2097152) 2147483648); lia.
Qed.

Lemma control_bound lim c : lim <= 2047 -> okc lim c -> 0 <= control c < 2 ^ 63.
Proof.
  intros Hl (A & B & C & D & E). unfold DATA_COMPLEX_OBJECT in D. unfold control. pows.
  destruct c as [ct pb a b n]; cbn [container ptr_bit t0 t1 fixed_size] in *. lia.
Qed.

Lemma low_inj lim c c' : lim <= 2047 -> okc lim c -> okc lim c' ->
  wraps 32 (control c) = wraps 32 (control c') ->
  container c = container c' /\ ptr_bit c = ptr_bit c' /\ t0 c = t0 c' /\ t1 c = t1 c'.
Proof.
  intros Hl H H'. rewrite (wraps32_low lim c Hl H), (wraps32_low lim c' Hl H'). cbv zeta.
  destruct H as (A & B & C & D & E), H' as (A' & B' & C' & D' & E').
  unfold DATA_COMPLEX_OBJECT in *. pows. intros Q.
  destruct (Z.ltb_spec (t1 c) 1024), (Z.ltb_spec (t1 c') 1024),
    (Z.ltb_spec (t1 c) 2047), (Z.ltb_spec (t1 c') 2047); lia.
Qed.

Lemma wraps_sub_zero w a b : 1 <= w -> (wraps w (a - b) = 0 <-> wraps w a = wraps w b).
Proof.
  intros Hw. unfold wraps. pose proof (pow2_split w Hw) as E.
  assert (P : 0 < 2 ^ (w - 1)) by (apply Z.pow_pos_nonneg; lia).
  assert (Q : 0 < 2 ^ w) by lia.
  rewrite (Zminus_mod a b).
  pose proof (Z.mod_pos_bound a (2 ^ w) Q). pose proof (Z.mod_pos_bound b (2 ^ w) Q).
  set (x := a mod 2 ^ w) in *. set (y := b mod 2 ^ w) in *.
  pose proof (Z.mod_pos_bound (x - y) (2 ^ w) Q).
  assert (R : (x - y) mod 2 ^ w = 0 <-> x = y).
  { split.
    - intros Hz. apply Z.mod_divide in Hz; [|lia]. destruct Hz as [k Hk].
      assert (k = 0) by nia. lia.
    - intros ->. rewrite Z.sub_diag. apply Z.mod_0_l. lia. }
  destruct (Z.ltb_spec x (2 ^ (w - 1))), (Z.ltb_spec y (2 ^ (w - 1))),
    (Z.ltb_spec ((x - y) mod 2 ^ w) (2 ^ (w - 1))); lia.
Qed.

(** ** Compare is zero exactly on equal keys *)
Lemma wraps64_id lim c : lim <= 2047 -> okc lim c -> wraps 64 (control c) = control c.
Proof.
  intros. apply wraps_id; [lia|]. pose proof (control_bound lim c ltac:(assumption) ltac:(assumption)).
  unfold in_s. change (64 - 1) with 63. pows. lia.
Qed.

Lemma compare_unfold ca ea cb eb :
  compare (DT ca ea) (DT cb eb) =
      (let d := wraps 64 (control ca) - wraps 64 (control cb) in
      if (d <? - 2 ^ 63) || (2 ^ 63 <=? d) then UB
      else if negb (d =? 0) then Ret (wraps 32 d)
      else if negb (elems_size ea =? elems_size eb) then Ret (wraps 32 (elems_size ea - elems_size eb))
      else match ea, eb with
           | Some la, Some lb => compare_elems compare la lb
           | _, _ => Ret 0
           end).
Proof. reflexivity. Qed.

Definition kl (e : option (list (option dtype))) : list (option ktree) :=
  match e with None => [] | Some l => map (option_map key) l end.

Lemma kl_length e : Z.of_nat (length (kl e)) = elems_size e.
Proof. destruct e; simpl; [now rewrite map_length|reflexivity]. Qed.

Lemma compare_zero lim : lim <= 2047 -> forall a b, good lim a -> good lim b ->
  exists r, compare a b = Ret r /\ (r = 0 <-> key a = key b).
Proof.
  intros Hl a. induction a as [ca ea IH] using dtype_rect'.
  intros [cb eb] Ha Hb.
  inversion Ha as [? ? Oa Fa Ca Sa Ga]; subst. inversion Hb as [? ? Ob Fb Cb Sb Gb]; subst.
  rewrite compare_unfold. cbv zeta.
  rewrite (wraps64_id lim ca), (wraps64_id lim cb) by assumption.
  pose proof (control_bound lim ca Hl Oa) as Ba. pose proof (control_bound lim cb Hl Ob) as Bb.
  replace ((control ca - control cb <? - 2 ^ 63) || (2 ^ 63 <=? control ca - control cb)) with false
    by (symmetry; apply orb_false_iff; split; [apply Z.ltb_ge|apply Z.leb_gt]; pows; lia).
  change (key (DT ca ea)) with (KT (wraps 32 (control ca)) (kl ea)).
  change (key (DT cb eb)) with (KT (wraps 32 (control cb)) (kl eb)).
  destruct (Z.eqb_spec (control ca - control cb) 0) as [Z0|Z0]; cbn [negb].
  - assert (Ec : control ca = control cb) by lia. rewrite Ec.
    destruct (Z.eqb_spec (elems_size ea) (elems_size eb)) as [S0|S0]; cbn [negb].
    + destruct ea as [la|], eb as [lb|].
      2:{ exists 0. split; [reflexivity|]. split; [|reflexivity]. intros _. f_equal.
          destruct la; [reflexivity|]. simpl in S0. lia. }
      2:{ exists 0. split; [reflexivity|]. split; [|reflexivity]. intros _. f_equal.
          destruct lb; [reflexivity|]. simpl in S0. lia. }
      2:{ exists 0. split; [reflexivity|]. split; reflexivity. }
      assert (exists r, compare_elems compare la lb = Ret r /\ (r = 0 <-> kl (Some la) = kl (Some lb)))
        as (r & R1 & R2).
      2:{ exists r. split; [exact R1|]. rewrite R2. split; [intros ->; reflexivity|]. now intros [= ?]. }
      clear Ha Hb Sa Sb Ca Cb Fa Fb. simpl kl. simpl in S0. apply Nat2Z.inj in S0.
      assert (IH' : forall x, In (Some x) la -> forall b, good lim x -> good lim b ->
                exists r, compare x b = Ret r /\ (r = 0 <-> key x = key b)).
      { intros x Hx. exact (IH la x eq_refl Hx). }
      assert (Ga' : forall x, In (Some x) la -> good lim x) by (intros; eapply Ga; eauto).
      assert (Gb' : forall x, In (Some x) lb -> good lim x) by (intros; eapply Gb; eauto).
      clear IH Ga Gb. revert lb S0 Gb'.
      induction la as [|x la IHl]; intros [|y lb] S0 Gb'; try discriminate.
      { exists 0. simpl. split; [reflexivity|]. tauto. }
      cbn [compare_elems map].
      assert (Q : exists r, match x, y with
                  | Some x, Some y => compare x y | Some _, None => Ret 1
                  | None, Some _ => Ret (-1) | None, None => Ret 0 end = Ret r /\
                  (r = 0 <-> option_map key x = option_map key y)).
      { destruct x as [x|], y as [y|]; simpl.
        - destruct (IH' x (or_introl eq_refl) y) as (r & R1 & R2).
          + apply Ga'; now left. + apply Gb'; now left.
          + exists r. split; [exact R1|]. rewrite R2. split; [intros ->; reflexivity|]. now intros [= ?].
        - exists 1. split; [reflexivity|]. split; [lia|discriminate].
        - exists (-1). split; [reflexivity|]. split; [lia|discriminate].
        - exists 0. split; [reflexivity|]. tauto. }
      destruct Q as (r & -> & R2). cbn [obind].
      destruct (Z.eqb_spec r 0) as [R0|R0]; cbn [negb].
      * destruct (IHl (fun x H => IH' x (or_intror H)) (fun x H => Ga' x (or_intror H)) lb)
          as (r' & R1' & R2').
        -- simpl in S0. lia.
        -- intros; apply Gb'; now right.
        -- exists r'. split; [exact R1'|]. rewrite R2'. apply R2 in R0. rewrite R0.
           split; [intros ->; reflexivity|]. now intros [= ?].
      * exists r. split; [reflexivity|]. split; [contradiction|].
        intros [= E _]. apply R2 in E. contradiction.
    + exists (wraps 32 (elems_size ea - elems_size eb)). split; [reflexivity|].
      rewrite <- !kl_length in S0. rewrite <- !kl_length in Sa, Sb.
      split.
      * intros E. exfalso. rewrite wraps_id in E; [rewrite <- !kl_length in E; lia|lia|].
        unfold in_s. change (32 - 1) with 31. pows. rewrite <- !kl_length. lia.
      * intros [= E]. rewrite E in S0. congruence.
  - exists (wraps 32 (control ca - control cb)). split; [reflexivity|].
    rewrite wraps_sub_zero by lia. split.
    + intros E. f_equal; [exact E|].
      destruct (low_inj lim ca cb Hl Oa Ob E) as (E1 & E2 & E3 & E4).
      assert (D : fixed_size ca <> fixed_size cb).
      { intros D. apply Z0. unfold control. rewrite E1, E2, E3, E4, D. lia. }
      assert (container ca = 1) as K.
      { destruct (Z.eq_dec (fixed_size ca) 0); [|now apply Fa]. rewrite E1. apply Fb. lia. }
      rewrite (Ca K). rewrite E1 in K. rewrite (Cb K). reflexivity.
    + now intros [= ? _].
Qed.

(** ** The shape of get_dtype *)
Definition isP (t : cpptype) : bool := match t with CPtr _ => true | _ => false end.
Definition code (t : cpptype) : Z :=
  match t with CBase f => f | _ => DATA_COMPLEX_OBJECT end.
Definition un (t : cpptype) : option (list (option dtype)) :=
  if compound t then Some [Some (get_dtype t)] else None.
Definition bi (a b : cpptype) : option (list (option dtype)) :=
  match compound a, compound b with
  | false, false => None
  | true, false => Some [Some (get_dtype a)]
  | false, true => Some [None; Some (get_dtype b)]
  | true, true => Some [Some (get_dtype a); Some (get_dtype b)]
  end.

Definition lim_ok (lim : Z) := lim <= 2 ^ 14 - 1.

Lemma wrapu14 lim f : lim_ok lim -> 1 <= f < lim -> wrapu 14 f = f.
Proof. unfold lim_ok. intros. apply wrapu_id. unfold in_u. pows. lia. Qed.

Lemma shape_base lim f : lim_ok lim -> supported lim (CBase f) ->
  get_dtype (CBase f) = DT (mk_ctrl 0 0 f 0 0) None.
Proof. intros L H. simpl. unfold dtype_of. now rewrite (wrapu14 lim) by assumption. Qed.

Lemma shape_array lim f n : lim_ok lim -> supported lim (CArray (CBase f) n) ->
  get_dtype (CArray (CBase f) n) = DT (mk_ctrl 1 0 f 0 n) None.
Proof.
  intros L [(f' & [= <-] & H) Hn]. simpl. unfold dtype_of, to_array, set_fixed, set_container; simpl.
  rewrite (wrapu14 lim) by assumption.
  rewrite (wrapu_id 29 n) by (unfold in_u; pows; lia). reflexivity.
Qed.

Lemma is_ptr_get lim t : lim_ok lim -> supported lim t -> is_ptr (get_dtype t) = isP t.
Proof.
  intros L. destruct t; intros H; cbn [isP].
  - rewrite (shape_base lim) by assumption. reflexivity.
  - simpl. unfold wrap_unary. simpl. rewrite orb_false_r. destruct (is_ptr (get_dtype t)); reflexivity.
  - simpl. unfold wrap_unary. simpl.
    destruct (is_ptr (get_dtype t) || is_collection (get_dtype t)) eqn:E; [reflexivity|].
    apply orb_false_iff in E. exact (proj1 E).
  - destruct H as [(f' & -> & H) Hn]. rewrite (shape_array lim); [reflexivity|assumption|].
    split; [exists f'; auto|assumption].
  - simpl. unfold wrap_binary. repeat match goal with |- context [if ?b then _ else _] => destruct b end;
    reflexivity.
  - simpl. unfold wrap_binary. repeat match goal with |- context [if ?b then _ else _] => destruct b end;
    reflexivity.
  - simpl. unfold wrap_binary. repeat match goal with |- context [if ?b then _ else _] => destruct b end;
    reflexivity.
Qed.

Lemma seq_code_range k : 2 <= seq_code k <= 9.
Proof. destruct k; unfold seq_code, COLLECTION_VECTOR, COLLECTION_SET, COLLECTION_UNORDERED_SET,
  COLLECTION_ABSL_SPAN, COLLECTION_SIMD_VECTOR; lia. Qed.

Lemma wrapu_seq k : wrapu 6 (seq_code k) = seq_code k.
Proof. destruct k; reflexivity. Qed.

Lemma compound_get lim t : lim_ok lim -> supported lim t ->
  is_ptr (get_dtype t) || is_collection (get_dtype t) = compound t.
Proof.
  intros L H. rewrite (is_ptr_get lim) by assumption. destruct t; cbn [isP compound orb].
  - rewrite (shape_base lim) by assumption. reflexivity.
  - reflexivity.
  - unfold is_collection. simpl. unfold wrap_unary. simpl.
    destruct (is_ptr _ || is_collection _); simpl; rewrite wrapu_seq; destruct k; reflexivity.
  - destruct H as [(f' & -> & H) Hn]. rewrite (shape_array lim); [reflexivity|assumption|].
    split; [exists f'; auto|assumption].
  - simpl. unfold wrap_binary, is_collection; simpl. destruct ordered; reflexivity.
  - simpl. unfold wrap_binary, is_collection; simpl. reflexivity.
  - simpl. unfold wrap_binary, is_collection; simpl. reflexivity.
Qed.

Lemma shape_seq lim k t : lim_ok lim -> supported lim t ->
  get_dtype (CSeq k t) = DT (mk_ctrl (seq_code k) 0 (code t) 0 0) (un t).
Proof.
  intros L H. simpl. unfold wrap_unary, un. cbn [andb]. rewrite (compound_get lim) by assumption.
  destruct t; cbn [compound];
    try (unfold set_element, to_collection, dtype_of, set_container; simpl; now rewrite wrapu_seq).
  rewrite (shape_base lim) by assumption. unfold to_collection, set_container; simpl.
  now rewrite wrapu_seq.
Qed.

Lemma shape_ptr lim t : lim_ok lim -> supported lim t ->
  get_dtype (CPtr t) =
    if isP t then DT (mk_ctrl 0 1 DATA_COMPLEX_OBJECT 0 0) (Some [Some (get_dtype t)])
    else DT (set_ptr 1 (ctrl_of (get_dtype t))) (elems_of (get_dtype t)).
Proof.
  intros L H. simpl. unfold wrap_unary. cbn [andb]. rewrite orb_false_r, (is_ptr_get lim) by assumption.
  destruct (isP t); reflexivity.
Qed.

Lemma code_get lim t : lim_ok lim -> supported lim t ->
  (if is_ptr (get_dtype t) || is_collection (get_dtype t) then DATA_COMPLEX_OBJECT else t0 (ctrl_of (get_dtype t)))
  = code t.
Proof.
  intros L H. rewrite (compound_get lim) by assumption. destruct t; try reflexivity.
  rewrite (shape_base lim) by assumption. reflexivity.
Qed.

Lemma code_compound lim t : lim_ok lim -> supported lim t ->
  (code t =? DATA_COMPLEX_OBJECT) = compound t /\ 1 <= code t <= DATA_COMPLEX_OBJECT /\
  (code t < lim \/ code t = DATA_COMPLEX_OBJECT).
Proof.
  intros L H. unfold lim_ok in L. unfold DATA_COMPLEX_OBJECT in *.
  destruct t; cbn [code compound]; try (split; [reflexivity|]; unfold DATA_COMPLEX_OBJECT; pows; lia).
  simpl in H. repeat split; [apply Z.eqb_neq; pows; lia|lia|pows; lia|left; lia].
Qed.

Lemma shape_bin lim k a b : lim_ok lim -> supported lim a -> supported lim b -> 0 <= k < 64 ->
  wrap_binary k (get_dtype a) (get_dtype b) = DT (mk_ctrl k 0 (code a) (code b) 0) (bi a b).
Proof.
  intros L Ha Hb Hk. unfold wrap_binary. cbv zeta. rewrite !(code_get lim) by assumption.
  destruct (code_compound lim a L Ha) as (-> & Ra & _).
  destruct (code_compound lim b L Hb) as (-> & Rb & _).
  assert (wrapu 14 (code a) = code a) as Ea
    by (apply wrapu_id; unfold in_u, DATA_COMPLEX_OBJECT in *; pows; lia).
  assert (wrapu 14 (code b) = code b) as Eb
    by (apply wrapu_id; unfold in_u, DATA_COMPLEX_OBJECT in *; pows; lia).
  assert (wrapu 6 k = k) as Ek by (apply wrapu_id; unfold in_u; pows; lia).
  unfold bi. destruct (compound a), (compound b);
    unfold to_collection, set_element, dtype_of, set_container; simpl; rewrite Ea, Eb, Ek; reflexivity.
Qed.

Lemma shape_tuple1 lim a : lim_ok lim -> supported lim a ->
  get_dtype (CTuple1 a) = DT (mk_ctrl 8 0 (code a) 0 0) (un a).
Proof.
  intros L Ha. simpl. unfold wrap_binary. cbv zeta. rewrite !(code_get lim) by assumption.
  destruct (code_compound lim a L Ha) as (-> & Ra & _).
  assert (wrapu 14 (code a) = code a) as Ea
    by (apply wrapu_id; unfold in_u, DATA_COMPLEX_OBJECT in *; pows; lia).
  unfold un. destruct (compound a);
    unfold to_collection, set_element, dtype_of, set_container; simpl; rewrite Ea; reflexivity.
Qed.

Lemma shape_map lim o k v : lim_ok lim -> supported lim k -> supported lim v ->
  get_dtype (CMap o k v) = DT (mk_ctrl (if o then 3 else 5) 0 (code k) (code v) 0) (bi k v).
Proof.
  intros. cbn [get_dtype]. rewrite (shape_bin lim) by (try assumption; destruct o; unfold COLLECTION_MAP, COLLECTION_UNORDERED_MAP; lia).
  destruct o; reflexivity.
Qed.
Lemma shape_pair lim a b : lim_ok lim -> supported lim a -> supported lim b ->
  get_dtype (CPair a b) = DT (mk_ctrl 8 0 (code a) (code b) 0) (bi a b).
Proof.
  intros. cbn [get_dtype]. rewrite (shape_bin lim) by (try assumption; unfold COLLECTION_TUPLE; lia).
  reflexivity.
Qed.

(** ** Encodings are well formed *)
Lemma good_bi lim c a b : lim_ok lim -> lim <= 2047 ->
  good lim (get_dtype a) -> good lim (get_dtype b) -> okc lim c -> fixed_size c = 0 -> container c <> 1 ->
  good lim (DT c (bi a b)).
Proof.
  intros L L2 Ga Gb O F C. constructor; auto; try congruence; try lia.
  - unfold bi. destruct (compound a), (compound b); simpl; lia.
  - unfold bi. intros l x. destruct (compound a), (compound b); intros [= <-]; simpl; intuition congruence.
Qed.
Lemma good_un lim c a : lim_ok lim -> lim <= 2047 ->
  good lim (get_dtype a) -> okc lim c -> fixed_size c = 0 -> container c <> 1 ->
  good lim (DT c (un a)).
Proof.
  intros L L2 Ga O F C. constructor; auto; try congruence; try lia.
  - unfold un. destruct (compound a); simpl; lia.
  - unfold un. intros l x. destruct (compound a); intros [= <-]; simpl; intuition congruence.
Qed.

Lemma lim_ok_2047 lim : lim <= 2047 -> lim_ok lim.
Proof. unfold lim_ok. pows. lia. Qed.

Lemma good_get lim t : 1 <= lim <= 2047 -> supported lim t -> good lim (get_dtype t).
Proof.
  intros [L1 L2]. pose proof (lim_ok_2047 lim L2) as L. induction t; intros H.
  - rewrite (shape_base lim) by assumption. simpl in H.
    constructor; simpl; try congruence; try lia. unfold okc; simpl. pows. lia.
  - rewrite (shape_ptr lim) by assumption. specialize (IHt H). destruct (isP t).
    + constructor; simpl; try congruence; try lia.
      * unfold okc, DATA_COMPLEX_OBJECT; simpl. pows. lia.
      * intros l x [= <-]. simpl. intuition congruence.
    + destruct (get_dtype t) as [c e]. inversion IHt as [? ? O F C S G]; subst. simpl.
      constructor; simpl; auto. destruct O as (O1 & O2 & O3 & O4 & O5). unfold okc; simpl.
      change (wrapu 1 1) with 1. repeat split; try assumption; lia.
  - rewrite (shape_seq lim) by assumption. pose proof (seq_code_range k).
    destruct (code_compound lim t L H) as (_ & R & _). unfold DATA_COMPLEX_OBJECT in R.
    apply good_un; auto; simpl; try lia. unfold okc; simpl. pows. lia.
  - pose proof H as H'. destruct H' as [(f & -> & Hf) Hn]. rewrite (shape_array lim) by assumption.
    constructor; simpl; try congruence; try lia. unfold okc; simpl. pows. lia.
  - destruct H as [Hk Hv]. rewrite (shape_map lim) by assumption.
    destruct (code_compound lim t1 L Hk) as (_ & R & _). destruct (code_compound lim t2 L Hv) as (_ & _ & R2).
    destruct (code_compound lim t2 L Hv) as (_ & R2' & _).
    unfold DATA_COMPLEX_OBJECT in R, R2'.
    apply good_bi; auto; simpl; try (destruct ordered; lia).
    unfold okc; simpl. pows. destruct ordered; lia.
  - destruct H as [Hk Hv]. rewrite (shape_pair lim) by assumption.
    destruct (code_compound lim t1 L Hk) as (_ & R & _). destruct (code_compound lim t2 L Hv) as (_ & _ & R2).
    destruct (code_compound lim t2 L Hv) as (_ & R2' & _).
    unfold DATA_COMPLEX_OBJECT in R, R2'.
    apply good_bi; auto; simpl; try lia.
    unfold okc; simpl. pows. lia.
  - rewrite (shape_tuple1 lim) by assumption.
    destruct (code_compound lim t L H) as (_ & R & _). unfold DATA_COMPLEX_OBJECT in R.
    apply good_un; auto; simpl; try lia. unfold okc; simpl. pows. lia.
Qed.

(** ** Keys identify types up to array lengths *)
Lemma key_DT c e : key (DT c e) = KT (wraps 32 (control c)) (kl e).
Proof. reflexivity. Qed.

Definition pb_of t := ptr_bit (ctrl_of (get_dtype t)).
Lemma pb_isP lim t : lim_ok lim -> supported lim t -> pb_of t = if isP t then 1 else 0.
Proof.
  intros L H. unfold pb_of. destruct t; cbn [isP].
  - now rewrite (shape_base lim).
  - rewrite (shape_ptr lim) by assumption. destruct (isP t); reflexivity.
  - now rewrite (shape_seq lim).
  - pose proof H as H'. destruct H' as [(f & -> & Hf) Hn]. now rewrite (shape_array lim).
  - destruct H. now rewrite (shape_map lim).
  - destruct H. now rewrite (shape_pair lim).
  - now rewrite (shape_tuple1 lim).
Qed.

Definition ctrls_agree (c c' : ctrl) :=
  container c = container c' /\ ptr_bit c = ptr_bit c' /\ t0 c = t0 c' /\ t1 c = t1 c'.

Lemma ctrls_agree_low c c' : ctrls_agree c c' -> wraps 32 (control c) = wraps 32 (control c').
Proof.
  intros (A & B & C & D). unfold wraps, control. rewrite A, B, C, D.
  set (z := container c' + _ + _ + _).
  assert (E : forall n, (z + n * 2 ^ 35) mod 2 ^ 32 = z mod 2 ^ 32).
  { intros n. replace (n * 2 ^ 35) with ((n * 8) * 2 ^ 32) by (pows; lia). apply Z_mod_plus_full. }
  now rewrite !E.
Qed.

Lemma key_agree lim a b : 1 <= lim <= 2047 -> good lim a -> good lim b ->
  (key a = key b <-> ctrls_agree (ctrl_of a) (ctrl_of b) /\ kl (elems_of a) = kl (elems_of b)).
Proof.
  intros L Ga Gb. destruct a as [c e], b as [c' e']. rewrite !key_DT. simpl.
  inversion Ga; subst. inversion Gb; subst. split.
  - intros [= E1 E2]. split; [|exact E2]. eapply low_inj; eauto. lia.
  - intros [E1 ->]. f_equal. now apply ctrls_agree_low.
Qed.

Lemma key_ptr_nonptr lim t t' : 1 <= lim <= 2047 -> supported lim t -> supported lim t' ->
  isP t = false -> isP t' = false ->
  (key (get_dtype (CPtr t)) = key (get_dtype (CPtr t')) <-> key (get_dtype t) = key (get_dtype t')).
Proof.
  intros L H H' P P'.
  assert (lim_ok lim) by (apply lim_ok_2047; lia).
  assert (G : good lim (get_dtype (CPtr t))) by (apply good_get; assumption).
  assert (G' : good lim (get_dtype (CPtr t'))) by (apply good_get; assumption).
  assert (Gt : good lim (get_dtype t)) by (apply good_get; assumption).
  assert (Gt' : good lim (get_dtype t')) by (apply good_get; assumption).
  rewrite (key_agree lim _ _ L G G'), (key_agree lim _ _ L Gt Gt').
  rewrite !(shape_ptr lim) by assumption. rewrite P, P'.
  pose proof (pb_isP lim t ltac:(assumption) H) as Q. pose proof (pb_isP lim t' ltac:(assumption) H') as Q'.
  unfold pb_of in *. rewrite P in Q. rewrite P' in Q'.
  unfold ctrls_agree. simpl. rewrite Q, Q'. change (wrapu 1 1) with 1. tauto.
Qed.

Lemma kl_un lim a a' : lim_ok lim -> supported lim a -> supported lim a' -> code a = code a' ->
  (kl (un a) = kl (un a') <-> (compound a = true -> key (get_dtype a) = key (get_dtype a'))).
Proof.
  intros L H H' E. destruct (code_compound lim a L H) as (C & _). destruct (code_compound lim a' L H') as (C' & _).
  rewrite E in C. rewrite C in C'. unfold un. rewrite <- C'. destruct (compound a); simpl.
  - split; [intros [= ->]; auto|]. intros Q. now rewrite Q.
  - split; [discriminate|reflexivity].
Qed.

Lemma kl_bi lim a b a' b' : lim_ok lim -> supported lim a -> supported lim a' ->
  supported lim b -> supported lim b' -> code a = code a' -> code b = code b' ->
  (kl (bi a b) = kl (bi a' b') <->
   (compound a = true -> key (get_dtype a) = key (get_dtype a')) /\
   (compound b = true -> key (get_dtype b) = key (get_dtype b'))).
Proof.
  intros L Ha Ha' Hb Hb' E1 E2.
  destruct (code_compound lim a L Ha) as (C & _). destruct (code_compound lim a' L Ha') as (C' & _).
  destruct (code_compound lim b L Hb) as (D & _). destruct (code_compound lim b' L Hb') as (D' & _).
  rewrite E1 in C. rewrite C in C'. rewrite E2 in D. rewrite D in D'.
  unfold bi. rewrite <- C', <- D'. destruct (compound a), (compound b); simpl.
  - split; [intros [= -> ->]; auto|]. intros [Q1 Q2]. rewrite Q1, Q2 by reflexivity. reflexivity.
  - split; [intros [= ->]; split; [auto|discriminate]|]. intros [Q1 _]. now rewrite Q1.
  - split; [intros [= ->]; split; [discriminate|auto]|]. intros [_ Q1]. now rewrite Q1.
  - split; [split; discriminate|reflexivity].
Qed.

Lemma erase_code a b : erase_lengths a = erase_lengths b -> code a = code b.
Proof. destruct a, b; simpl; intros; congruence. Qed.

Lemma part_iff lim a a' : lim_ok lim -> supported lim a -> supported lim a' ->
  (key (get_dtype a) = key (get_dtype a') <-> erase_lengths a = erase_lengths a') ->
  (code a = code a' /\ (compound a = true -> key (get_dtype a) = key (get_dtype a'))
   <-> erase_lengths a = erase_lengths a').
Proof.
  intros L H H' IH. split.
  - intros [E Q]. destruct (compound a) eqn:C; [apply IH; auto|].
    destruct (code_compound lim a L H) as (C1 & _). destruct (code_compound lim a' L H') as (C2 & _).
    rewrite E, C2 in C1. rewrite C in C1. destruct a; try discriminate. destruct a'; try discriminate.
    simpl in E. now subst.
  - intros E. split; [now apply erase_code|]. intros _. now apply IH.
Qed.

Theorem key_erase lim : 1 <= lim <= 2047 -> forall a b, supported lim a -> supported lim b ->
  (key (get_dtype a) = key (get_dtype b) <-> erase_lengths a = erase_lengths b).
Proof.
  intros L. assert (LO : lim_ok lim) by (apply lim_ok_2047; lia).
  induction a; intros b Ha Hb.
  - (* base *)
    rewrite (key_agree lim) by (try assumption; now apply good_get).
    rewrite (shape_base lim) by assumption. unfold ctrls_agree; simpl.
    destruct b; simpl.
    + unfold dtype_of. rewrite (wrapu14 lim) by assumption. split.
      * intros [(_ & _ & E & _) _]; simpl in E. now subst.
      * intros [= ->]. auto.
    + pose proof (pb_isP lim (CPtr b) LO Hb) as Q. unfold pb_of in Q. cbn [isP get_dtype] in Q.
      split; [|discriminate]. intros [(_ & E & _) _]. rewrite Q in E. discriminate.
    + split; [|discriminate]. change (wrap_unary true (to_collection (seq_code k)) (get_dtype b))
        with (get_dtype (CSeq k b)). rewrite (shape_seq lim) by assumption. simpl.
      pose proof (seq_code_range k). intros [(E & _) _]. lia.
    + split; [|discriminate]. intros [(E & _) _]. simpl in E. discriminate.
    + split; [|discriminate]. intros [(E & _) _]. simpl in E. destruct ordered; discriminate.
    + split; [|discriminate]. intros [(E & _) _]. simpl in E. discriminate.
    + split; [|discriminate]. intros [(E & _) _]. simpl in E. discriminate.
  - (* pointer *)
    destruct b as [f|b|k b|b n|o k v|x y|x].
    2:{ destruct (isP a) eqn:Pa, (isP b) eqn:Pb.
        - rewrite (key_agree lim) by (try assumption; now apply good_get).
          rewrite !(shape_ptr lim) by assumption. rewrite Pa, Pb. unfold ctrls_agree; simpl.
          specialize (IHa b Ha Hb). split.
          + intros [_ [= E]]. f_equal. now apply IHa.
          + intros [= E]. apply IHa in E. rewrite E. auto.
        - split.
          + rewrite (key_agree lim) by (try assumption; now apply good_get).
            rewrite !(shape_ptr lim) by assumption. rewrite Pa, Pb. unfold ctrls_agree; simpl.
            intros [(E1 & _ & E2 & _) _]. exfalso.
            destruct b; try discriminate.
            * rewrite (shape_base lim) in E2 by assumption. simpl in E2, Hb.
              unfold lim_ok, DATA_COMPLEX_OBJECT in *. lia.
            * rewrite (shape_seq lim) in E1 by assumption. pose proof (seq_code_range k). simpl in E1. lia.
            * simpl in E1. destruct ordered; discriminate.
          + simpl. intros [= E]. destruct a; try discriminate. destruct b; discriminate.
        - split.
          + rewrite (key_agree lim) by (try assumption; now apply good_get).
            rewrite !(shape_ptr lim) by assumption. rewrite Pa, Pb. unfold ctrls_agree; simpl.
            intros [(E1 & _ & E2 & _) _]. exfalso.
            destruct a; try discriminate.
            * rewrite (shape_base lim) in E2 by assumption. simpl in E2, Ha.
              unfold lim_ok, DATA_COMPLEX_OBJECT in *. lia.
            * rewrite (shape_seq lim) in E1 by assumption. pose proof (seq_code_range k). simpl in E1. lia.
            * simpl in E1. destruct ordered; discriminate.
          + simpl. intros [= E]. destruct b; try discriminate. destruct a; discriminate.
        - rewrite (key_ptr_nonptr lim) by assumption. rewrite (IHa b) by assumption.
          simpl. split; [intros ->; reflexivity|now intros [= ?]]. }
    all: split; [|discriminate]; rewrite (key_agree lim) by (try assumption; now apply good_get);
      intros [(_ & E & _) _]; fold (pb_of (CPtr a)) in E;
      rewrite (pb_isP lim (CPtr a) LO Ha) in E;
      match type of E with _ = ptr_bit (ctrl_of (get_dtype ?t)) =>
        fold (pb_of t) in E; rewrite (pb_isP lim t LO Hb) in E end; discriminate.
  - (* sequence *)
    rewrite (key_agree lim) by (try assumption; now apply good_get).
    rewrite (shape_seq lim) by assumption. pose proof (seq_code_range k) as R.
    destruct b as [f|b|k' b|b n|o k' v|x y|x].
    1:{ split; [|discriminate]. rewrite (shape_base lim) by assumption. intros [(E & _) _]. simpl in E. lia. }
    1:{ split; [|discriminate]. intros [(_ & E & _) _]. fold (pb_of (CPtr b)) in E.
        rewrite (pb_isP lim (CPtr b) LO Hb) in E. simpl in E. discriminate. }
    1:{ rewrite (shape_seq lim) by assumption. unfold ctrls_agree; cbn [ctrl_of elems_of container ptr_bit t0 t1].
        simpl in Ha, Hb. specialize (IHa b Ha Hb). pose proof (part_iff lim a b LO Ha Hb IHa) as Q.
        cbn [erase_lengths]. split.
        - intros [(E1 & _ & E2 & _) E3]. rewrite (kl_un lim) in E3 by assumption.
          assert (k = k') as -> by (destruct k, k'; try reflexivity; discriminate E1).
          f_equal. apply Q. auto.
        - intros [= -> E]. apply Q in E. destruct E as [E1 E2]. split; [auto|].
          now apply (kl_un lim). }
    1:{ split; [|discriminate]. intros [(E & _) _]. simpl in E. change (wrapu 6 COLLECTION_ARRAY) with 1 in E. lia. }
    1:{ split; [|discriminate]. destruct Hb as [Hb1 Hb2]. rewrite (shape_map lim) by assumption.
        intros [(E & _) _]. simpl in E. destruct k, o; discriminate. }
    1:{ split; [|discriminate]. destruct Hb as [Hb1 Hb2]. rewrite (shape_pair lim) by assumption.
        intros [(E & _) _]. simpl in E. destruct k; discriminate. }
    1:{ split; [|discriminate]. rewrite (shape_tuple1 lim) by assumption.
        intros [(E & _) _]. simpl in E. destruct k; discriminate. }
  - (* array *)
    rewrite (key_agree lim) by (try assumption; now apply good_get).
    pose proof Ha as Ha'. destruct Ha' as [(f & -> & Hf) Hn]. rewrite (shape_array lim) by assumption.
    destruct b as [f'|b|k' b|b n'|o k' v|x y|x].
    1:{ split; [|discriminate]. rewrite (shape_base lim) by assumption. intros [(E & _) _]. simpl in E. lia. }
    1:{ split; [|discriminate]. intros [(_ & E & _) _]. fold (pb_of (CPtr b)) in E.
        rewrite (pb_isP lim (CPtr b) LO Hb) in E. simpl in E. discriminate. }
    1:{ split; [|discriminate]. rewrite (shape_seq lim) by assumption. pose proof (seq_code_range k').
        intros [(E & _) _]. simpl in E. lia. }
    1:{ pose proof Hb as Hb'. destruct Hb' as [(f' & -> & Hf') Hn']. rewrite (shape_array lim) by assumption.
        unfold ctrls_agree; simpl. split; [intros [(_ & _ & -> & _) _]; reflexivity|].
        intros [= ->]. auto. }
    1:{ split; [|discriminate]. destruct Hb as [Hb1 Hb2]. rewrite (shape_map lim) by assumption.
        intros [(E & _) _]. simpl in E. destruct o; discriminate. }
    1:{ split; [|discriminate]. destruct Hb as [Hb1 Hb2]. rewrite (shape_pair lim) by assumption.
        intros [(E & _) _]. simpl in E. discriminate. }
    1:{ split; [|discriminate]. rewrite (shape_tuple1 lim) by assumption.
        intros [(E & _) _]. simpl in E. discriminate. }
  - (* map *)
    rewrite (key_agree lim) by (try assumption; now apply good_get).
    destruct Ha as [Hk Hv]. rewrite (shape_map lim) by assumption.
    destruct b as [f'|b|k' b|b n'|o k' v|x y|x].
    1:{ split; [|discriminate]. rewrite (shape_base lim) by assumption. intros [(E & _) _]. simpl in E. destruct ordered; lia. }
    1:{ split; [|discriminate]. intros [(_ & E & _) _]. fold (pb_of (CPtr b)) in E.
        rewrite (pb_isP lim (CPtr b) LO Hb) in E. simpl in E. discriminate. }
    1:{ split; [|discriminate]. rewrite (shape_seq lim) by assumption.
        intros [(E & _) _]. simpl in E. destruct k', ordered; discriminate. }
    1:{ split; [|discriminate]. intros [(E & _) _]. simpl in E. destruct ordered; discriminate. }
    1:{ destruct Hb as [Hb1 Hb2]. rewrite (shape_map lim) by assumption.
        unfold ctrls_agree; cbn [ctrl_of elems_of container ptr_bit t0 t1].
        specialize (IHa1 k' Hk Hb1). specialize (IHa2 v Hv Hb2).
        pose proof (part_iff lim a1 k' LO Hk Hb1 IHa1) as Q1.
        pose proof (part_iff lim a2 v LO Hv Hb2 IHa2) as Q2. cbn [erase_lengths]. split.
        - intros [(E1 & _ & E2 & E3) E4]. rewrite (kl_bi lim) in E4 by assumption.
          assert (ordered = o) as -> by (destruct ordered, o; try reflexivity; discriminate E1).
          destruct E4. f_equal; [apply Q1|apply Q2]; auto.
        - intros [= -> E E']. apply Q1 in E. apply Q2 in E'. destruct E, E'. split; [auto|].
          apply (kl_bi lim); auto. }
    1:{ split; [|discriminate]. destruct Hb as [Hb1 Hb2]. rewrite (shape_pair lim) by assumption.
        intros [(E & _) _]. simpl in E. destruct ordered; discriminate. }
    1:{ split; [|discriminate]. rewrite (shape_tuple1 lim) by assumption.
        intros [(E & _) _]. simpl in E. destruct ordered; discriminate. }
  - (* pair *)
    rewrite (key_agree lim) by (try assumption; now apply good_get).
    destruct Ha as [Hk Hv]. rewrite (shape_pair lim) by assumption.
    destruct b as [f'|b|k' b|b n'|o k' v|x y|x].
    1:{ split; [|discriminate]. rewrite (shape_base lim) by assumption. intros [(E & _) _]. simpl in E. lia. }
    1:{ split; [|discriminate]. intros [(_ & E & _) _]. fold (pb_of (CPtr b)) in E.
        rewrite (pb_isP lim (CPtr b) LO Hb) in E. simpl in E. discriminate. }
    1:{ split; [|discriminate]. rewrite (shape_seq lim) by assumption.
        intros [(E & _) _]. simpl in E. destruct k'; discriminate. }
    1:{ split; [|discriminate]. intros [(E & _) _]. simpl in E. discriminate. }
    1:{ split; [|discriminate]. destruct Hb as [Hb1 Hb2]. rewrite (shape_map lim) by assumption.
        intros [(E & _) _]. simpl in E. destruct o; discriminate. }
    1:{ destruct Hb as [Hb1 Hb2]. rewrite (shape_pair lim) by assumption.
        unfold ctrls_agree; cbn [ctrl_of elems_of container ptr_bit t0 t1].
        specialize (IHa1 x Hk Hb1). specialize (IHa2 y Hv Hb2).
        pose proof (part_iff lim a1 x LO Hk Hb1 IHa1) as Q1.
        pose proof (part_iff lim a2 y LO Hv Hb2 IHa2) as Q2. cbn [erase_lengths]. split.
        - intros [(E1 & _ & E2 & E3) E4]. rewrite (kl_bi lim) in E4 by assumption.
          destruct E4. f_equal; [apply Q1|apply Q2]; auto.
        - intros [= E E']. apply Q1 in E. apply Q2 in E'. destruct E, E'. split; [auto|].
          apply (kl_bi lim); auto. }
    1:{ split; [|discriminate]. rewrite (shape_tuple1 lim) by assumption.
        intros [(_ & _ & _ & E) _]. simpl in E. destruct (code_compound lim a2 LO Hv) as (_ & R & _). lia. }
  - (* 1-tuple *)
    rewrite (key_agree lim) by (try assumption; now apply good_get).
    rewrite (shape_tuple1 lim) by assumption.
    destruct b as [f'|b|k' b|b n'|o k' v|x y|x].
    1:{ split; [|discriminate]. rewrite (shape_base lim) by assumption. intros [(E & _) _]. simpl in E. lia. }
    1:{ split; [|discriminate]. intros [(_ & E & _) _]. fold (pb_of (CPtr b)) in E.
        rewrite (pb_isP lim (CPtr b) LO Hb) in E. simpl in E. discriminate. }
    1:{ split; [|discriminate]. rewrite (shape_seq lim) by assumption.
        intros [(E & _) _]. simpl in E. destruct k'; discriminate. }
    1:{ split; [|discriminate]. intros [(E & _) _]. simpl in E. discriminate. }
    1:{ split; [|discriminate]. destruct Hb as [Hb1 Hb2]. rewrite (shape_map lim) by assumption.
        intros [(E & _) _]. simpl in E. destruct o; discriminate. }
    1:{ split; [|discriminate]. destruct Hb as [Hb1 Hb2]. rewrite (shape_pair lim) by assumption.
        intros [(_ & _ & _ & E) _]. simpl in E. destruct (code_compound lim y LO Hb2) as (_ & R & _). lia. }
    1:{ rewrite (shape_tuple1 lim) by assumption. unfold ctrls_agree; cbn [ctrl_of elems_of container ptr_bit t0 t1].
        simpl in Ha, Hb. specialize (IHa x Ha Hb). pose proof (part_iff lim a x LO Ha Hb IHa) as Q.
        cbn [erase_lengths]. split.
        - intros [(E1 & _ & E2 & _) E3]. rewrite (kl_un lim) in E3 by assumption.
          f_equal. apply Q. auto.
        - intros [= E]. apply Q in E. destruct E as [E1 E2]. split; [auto|].
          now apply (kl_un lim). }
Qed.

(** ** Order *)
Section Kcmpl.
  Variable kc : ktree -> ktree -> comparison.
  Definition kcmpo (x y : option ktree) : comparison :=
    match x, y with
    | Some x, Some y => kc x y | Some _, None => Gt | None, Some _ => Lt | None, None => Eq
    end.
  Fixpoint kcmpl (la lb : list (option ktree)) : comparison :=
    match la, lb with
    | x :: la, y :: lb => match kcmpo x y with Eq => kcmpl la lb | c => c end
    | [], [] => Eq
    | [], _ => Lt
    | _, [] => Gt
    end.
End Kcmpl.
Fixpoint kcmp (a b : ktree) {struct a} : comparison :=
  match a, b with
  | KT ka la, KT kb lb =>
      match Z.compare ka kb with
      | Eq => match Nat.compare (length la) (length lb) with
              | Eq => kcmpl kcmp la lb
              | c => c
              end
      | c => c
      end
  end.

Section KInd.
  Variable P : ktree -> Prop.
  Hypothesis H : forall k l, (forall x, In (Some x) l -> P x) -> P (KT k l).
  Fixpoint ktree_ind' (d : ktree) : P d.
  Proof.
    destruct d as [c l]; apply H.
    induction l as [|o l IH]; intros x Hin; [destruct Hin|].
    destruct Hin as [E|Hin]; [|apply IH; exact Hin].
    destruct o as [y|]; [|discriminate].
    pose proof (ktree_ind' y) as Hy. injection E as E. rewrite <- E. exact Hy.
  Qed.
End KInd.

Lemma kcmp_unfold ka la kb lb : kcmp (KT ka la) (KT kb lb) =
      match Z.compare ka kb with
      | Eq => match Nat.compare (length la) (length lb) with
              | Eq => kcmpl kcmp la lb
              | c => c
              end
      | c => c
      end.
Proof. reflexivity. Qed.

Lemma kcmp_eq a b : kcmp a b = Eq <-> a = b.
Proof.
  revert b. induction a as [k l IH] using ktree_ind'. intros [k' l'].
  rewrite kcmp_unfold. destruct (Z.compare_spec k k') as [->|C|C].
  2,3: split; [discriminate|intros [= -> _]; lia].
  destruct (Nat.compare_spec (length l) (length l')) as [E|C|C].
  2,3: split; [discriminate|intros [= ->]; lia].
  clear E. enough (kcmpl kcmp l l' = Eq <-> l = l') as ->.
  { split; [intros ->; reflexivity|now intros [= ?]]. }
  revert l'. induction l as [|x l IHl]; intros [|y l']; simpl; try (split; congruence).
  assert (Q : kcmpo kcmp x y = Eq <-> x = y).
  { destruct x as [x|], y as [y|]; simpl; try (split; congruence).
    rewrite (IH x (or_introl eq_refl) y). split; [now intros ->|now intros [= ?]]. }
  assert (IHl' := IHl (fun x Hx => IH x (or_intror Hx))). specialize (IHl' l').
  destruct (kcmpo kcmp x y).
  - rewrite IHl'. destruct Q as [Q _]. rewrite (Q eq_refl). split; [now intros ->|now intros [= ?]].
  - split; [discriminate|]. intros [= -> ->]. destruct Q as [_ Q]. specialize (Q eq_refl). discriminate.
  - split; [discriminate|]. intros [= -> ->]. destruct Q as [_ Q]. specialize (Q eq_refl). discriminate.
Qed.

Lemma kcmp_antisym a b : kcmp b a = CompOpp (kcmp a b).
Proof.
  revert b. induction a as [k l IH] using ktree_ind'. intros [k' l'].
  rewrite !kcmp_unfold. rewrite (Z.compare_antisym k k'). destruct (Z.compare k k'); try reflexivity.
  simpl. rewrite (Nat.compare_antisym (length l) (length l')).
  destruct (Nat.compare (length l) (length l')); try reflexivity. simpl.
  revert l'. induction l as [|x l IHl]; intros [|y l']; try reflexivity. simpl.
  assert (Q : kcmpo kcmp y x = CompOpp (kcmpo kcmp x y)).
  { destruct x as [x|], y as [y|]; simpl; try reflexivity. apply IH. now left. }
  rewrite Q. destruct (kcmpo kcmp x y); try reflexivity. simpl. apply IHl.
  intros z Hz. apply IH. now right.
Qed.

Lemma kcmp_trans a b c : kcmp a b = Lt -> kcmp b c = Lt -> kcmp a c = Lt.
Proof.
  revert b c. induction a as [k l IH] using ktree_ind'. intros [k' l'] [k'' l''].
  rewrite !kcmp_unfold.
  destruct (Z.compare_spec k k') as [->|C|C]; try discriminate.
  2:{ intros _. destruct (Z.compare_spec k' k'') as [<-|C'|C']; try discriminate.
      - intros _. destruct (Z.compare_spec k k'); try lia. reflexivity.
      - intros _. destruct (Z.compare_spec k k''); try lia. reflexivity. }
  intros H1. destruct (Z.compare_spec k' k'') as [<-|C'|C']; try discriminate; [|reflexivity].
  revert H1.
  destruct (Nat.compare_spec (length l) (length l')) as [E|C|C]; try discriminate.
  2:{ intros _. destruct (Nat.compare_spec (length l') (length l'')) as [E'|C'|C']; try discriminate;
      intros _; destruct (Nat.compare_spec (length l) (length l'')); try lia; reflexivity. }
  intros H1. destruct (Nat.compare_spec (length l') (length l'')) as [E'|C'|C']; try discriminate.
  2:{ intros _. destruct (Nat.compare_spec (length l) (length l'')); try lia; reflexivity. }
  destruct (Nat.compare_spec (length l) (length l'')); try lia.
  clear E E' H k'. revert l' l'' H1. induction l as [|x l IHl]; intros [|y l'] [|z l'']; simpl; try discriminate; try reflexivity.
  assert (Q : kcmpo kcmp x y = Lt -> kcmpo kcmp y z = Lt -> kcmpo kcmp x z = Lt).
  { destruct x as [x|], y as [y|], z as [z|]; simpl; try discriminate; try reflexivity.
    apply IH. now left. }
  assert (QE : forall u v, kcmpo kcmp u v = Eq -> u = v).
  { intros [u|] [v|]; simpl; try discriminate; try reflexivity. intros Hu. now apply kcmp_eq in Hu as ->. }
  destruct (kcmpo kcmp x y) eqn:Exy; try discriminate.
  - apply QE in Exy. subst y. destruct (kcmpo kcmp x z); try discriminate; [|reflexivity].
    apply IHl. intros w Hw. apply IH. now right.
  - intros _. destruct (kcmpo kcmp y z) eqn:Eyz; try discriminate.
    + apply QE in Eyz. subst z. rewrite Exy. reflexivity.
    + rewrite Q; auto.
Qed.

Lemma low_diff c c' : okc 1023 c -> okc 1023 c' ->
  wraps 32 (control c - control c') = wraps 32 (control c) - wraps 32 (control c').
Proof.
  intros H H'.
  assert (A : in_s 32 (wraps 32 (control c) - wraps 32 (control c'))).
  { rewrite (wraps32_low 1023 c), (wraps32_low 1023 c') by (lia || assumption). cbv zeta.
    destruct H as (A & B & C & D & E), H' as (A' & B' & C' & D' & E').
    unfold DATA_COMPLEX_OBJECT in *. unfold in_s. change (32 - 1) with 31. pows.
    destruct (Z.ltb_spec (t1 c) 1024), (Z.ltb_spec (t1 c') 1024),
      (Z.ltb_spec (t1 c) 2047), (Z.ltb_spec (t1 c') 2047); lia. }
  rewrite <- (wraps_id 32 (wraps 32 (control c) - wraps 32 (control c'))) by (lia || assumption).
  assert (W : forall a b, a mod 2 ^ 32 = b mod 2 ^ 32 -> wraps 32 a = wraps 32 b).
  { intros a b E. unfold wraps. now rewrite E. }
  assert (M : forall a, wraps 32 a mod 2 ^ 32 = a mod 2 ^ 32).
  { intros a. unfold wraps. cbv zeta. destruct (Z.ltb_spec (a mod 2 ^ 32) (2 ^ (32 - 1))).
    - apply Z.mod_mod. pows. lia.
    - replace (a mod 2 ^ 32 - 2 ^ 32) with (a mod 2 ^ 32 + (-1) * 2 ^ 32) by lia.
      rewrite Z_mod_plus_full. apply Z.mod_mod. pows; lia. }
  apply W. rewrite (Zminus_mod (wraps 32 (control c))), !M, <- Zminus_mod. reflexivity.
Qed.

Lemma compare_sign a b : good 1023 a -> good 1023 b ->
  exists r, compare a b = Ret r /\ (r ?= 0) = kcmp (key a) (key b).
Proof.
  revert b. induction a as [ca ea IH] using dtype_rect'.
  intros [cb eb] Ha Hb.
  inversion Ha as [? ? Oa Fa Ca Sa Ga]; subst. inversion Hb as [? ? Ob Fb Cb Sb Gb]; subst.
  rewrite compare_unfold. cbv zeta.
  rewrite (wraps64_id 1023 ca), (wraps64_id 1023 cb) by (lia || assumption).
  pose proof (control_bound 1023 ca ltac:(lia) Oa) as Ba. pose proof (control_bound 1023 cb ltac:(lia) Ob) as Bb.
  replace ((control ca - control cb <? - 2 ^ 63) || (2 ^ 63 <=? control ca - control cb)) with false
    by (symmetry; apply orb_false_iff; split; [apply Z.ltb_ge|apply Z.leb_gt]; pows; lia).
  rewrite !key_DT. rewrite kcmp_unfold.
  destruct (Z.eqb_spec (control ca - control cb) 0) as [Z0|Z0]; cbn [negb].
  - assert (Ec : control ca = control cb) by lia. rewrite Ec. rewrite Z.compare_refl.
    destruct (Z.eqb_spec (elems_size ea) (elems_size eb)) as [S0|S0]; cbn [negb].
    + assert (length (kl ea) = length (kl eb)) as EL by (apply Nat2Z.inj; rewrite !kl_length; exact S0).
      rewrite EL, Nat.compare_refl.
      destruct ea as [la|], eb as [lb|].
      2:{ exists 0. split; [reflexivity|]. destruct la; [reflexivity|]. discriminate. }
      2:{ exists 0. split; [reflexivity|]. destruct lb; [reflexivity|]. discriminate. }
      2:{ exists 0. split; reflexivity. }
      clear Ha Hb Sa Sb Ca Cb Fa Fb EL. simpl kl. simpl in S0. apply Nat2Z.inj in S0.
      assert (IH' : forall x, In (Some x) la -> forall b, good 1023 x -> good 1023 b ->
                exists r, compare x b = Ret r /\ (r ?= 0) = kcmp (key x) (key b)).
      { intros x Hx. exact (IH la x eq_refl Hx). }
      assert (Ga' : forall x, In (Some x) la -> good 1023 x) by (intros; eapply Ga; eauto).
      assert (Gb' : forall x, In (Some x) lb -> good 1023 x) by (intros; eapply Gb; eauto).
      clear IH Ga Gb. revert lb S0 Gb'.
      induction la as [|x la IHl]; intros [|y lb] S0 Gb'; try discriminate.
      { exists 0. simpl. split; reflexivity. }
      cbn [compare_elems map kcmpl].
      assert (Q : exists r, match x, y with
                  | Some x, Some y => compare x y | Some _, None => Ret 1
                  | None, Some _ => Ret (-1) | None, None => Ret 0 end = Ret r /\
                  (r ?= 0) = kcmpo kcmp (option_map key x) (option_map key y)).
      { destruct x as [x|], y as [y|]; simpl.
        - apply (IH' x (or_introl eq_refl) y); [apply Ga'|apply Gb']; now left.
        - exists 1. split; reflexivity.
        - exists (-1). split; reflexivity.
        - exists 0. split; reflexivity. }
      destruct Q as (r & -> & R2). cbn [obind]. rewrite <- R2.
      destruct (Z.eqb_spec r 0) as [R0|R0]; cbn [negb].
      * subst r. rewrite Z.compare_refl.
        apply (IHl (fun x H => IH' x (or_intror H)) (fun x H => Ga' x (or_intror H)) lb).
        -- simpl in S0. lia.
        -- intros; apply Gb'; now right.
      * exists r. split; [reflexivity|]. destruct (Z.compare_spec r 0); try reflexivity. lia.
    + exists (wraps 32 (elems_size ea - elems_size eb)). split; [reflexivity|].
      rewrite <- !kl_length in *. rewrite wraps_id; [|lia|unfold in_s; change (32 - 1) with 31; pows; lia].
      destruct (Nat.compare_spec (length (kl ea)) (length (kl eb))) as [E|E|E];
        [congruence| |]; [apply Z.compare_lt_iff|apply Z.compare_gt_iff]; lia.
  - exists (wraps 32 (control ca - control cb)). split; [reflexivity|].
    rewrite low_diff by assumption.
    destruct (Z.compare_spec (wraps 32 (control ca)) (wraps 32 (control cb))) as [E|E|E].
    + destruct (low_inj 1023 ca cb ltac:(lia) Oa Ob E) as (E1 & E2 & E3 & E4).
      assert (D : fixed_size ca <> fixed_size cb).
      { intros D. apply Z0. unfold control. rewrite E1, E2, E3, E4, D. lia. }
      assert (container ca = 1) as K.
      { destruct (Z.eq_dec (fixed_size ca) 0); [|now apply Fa]. rewrite E1. apply Fb. lia. }
      rewrite (Ca K). rewrite E1 in K. rewrite (Cb K). simpl. apply Z.compare_eq_iff. lia.
    + apply Z.compare_lt_iff. lia.
    + apply Z.compare_gt_iff. lia.
Qed.

(** ** Statements about types *)
Lemma eqb_iff_same_up_to_lengths a b : supported 2047 a -> supported 2047 b ->
  exists r, dtype_eqb (get_dtype a) (get_dtype b) = Ret r /\
            (r = true <-> erase_lengths a = erase_lengths b).
Proof.
  intros Ha Hb.
  destruct (compare_zero 2047 ltac:(lia) (get_dtype a) (get_dtype b)) as (r & R1 & R2);
    try (apply good_get; [lia|assumption]).
  exists (r =? 0). unfold dtype_eqb. rewrite R1. split; [reflexivity|].
  rewrite Z.eqb_eq, R2. apply key_erase with (lim := 2047); [lia|assumption|assumption].
Qed.

Lemma no_arrays_erase a : no_arrays a -> erase_lengths a = a.
Proof. induction a; simpl; intuition congruence. Qed.

Lemma eqb_iff_same a b : supported 2047 a -> supported 2047 b -> no_arrays a -> no_arrays b ->
  exists r, dtype_eqb (get_dtype a) (get_dtype b) = Ret r /\ (r = true <-> a = b).
Proof.
  intros Ha Hb Na Nb. destruct (eqb_iff_same_up_to_lengths a b Ha Hb) as (r & R1 & R2).
  exists r. split; [exact R1|]. now rewrite R2, !no_arrays_erase.
Qed.

Definition lt_type (a b : cpptype) : Prop := dtype_ltb (get_dtype a) (get_dtype b) = Ret true.

Lemma ltb_spec a b : supported 1023 a -> supported 1023 b ->
  dtype_ltb (get_dtype a) (get_dtype b) =
    Ret (match kcmp (key (get_dtype a)) (key (get_dtype b)) with Lt => true | _ => false end) /\
  dtype_gtb (get_dtype a) (get_dtype b) =
    Ret (match kcmp (key (get_dtype a)) (key (get_dtype b)) with Gt => true | _ => false end) /\
  dtype_eqb (get_dtype a) (get_dtype b) =
    Ret (match kcmp (key (get_dtype a)) (key (get_dtype b)) with Eq => true | _ => false end).
Proof.
  intros Ha Hb.
  destruct (compare_sign (get_dtype a) (get_dtype b)) as (r & R1 & R2);
    try (apply good_get; [lia|assumption]).
  unfold dtype_ltb, dtype_gtb, dtype_eqb. rewrite R1, <- R2. cbn [obind].
  destruct (Z.compare_spec r 0); repeat split; f_equal;
    try (apply Z.ltb_lt; lia); try (apply Z.ltb_ge; lia); try (apply Z.eqb_eq; lia); try (apply Z.eqb_neq; lia).
Qed.

Lemma order_trichotomy a b : supported 1023 a -> supported 1023 b ->
  (dtype_ltb (get_dtype a) (get_dtype b) = Ret true /\ dtype_ltb (get_dtype b) (get_dtype a) = Ret false /\
   dtype_eqb (get_dtype a) (get_dtype b) = Ret false /\ dtype_gtb (get_dtype a) (get_dtype b) = Ret false) \/
  (dtype_ltb (get_dtype a) (get_dtype b) = Ret false /\ dtype_ltb (get_dtype b) (get_dtype a) = Ret true /\
   dtype_eqb (get_dtype a) (get_dtype b) = Ret false /\ dtype_gtb (get_dtype a) (get_dtype b) = Ret true) \/
  (dtype_ltb (get_dtype a) (get_dtype b) = Ret false /\ dtype_ltb (get_dtype b) (get_dtype a) = Ret false /\
   dtype_eqb (get_dtype a) (get_dtype b) = Ret true /\ dtype_gtb (get_dtype a) (get_dtype b) = Ret false).
Proof.
  intros Ha Hb. destruct (ltb_spec a b Ha Hb) as (-> & -> & ->).
  destruct (ltb_spec b a Hb Ha) as (-> & _ & _).
  rewrite (kcmp_antisym (key (get_dtype a)) (key (get_dtype b))).
  destruct (kcmp (key (get_dtype a)) (key (get_dtype b))); simpl; tauto.
Qed.

Lemma order_transitive a b c : supported 1023 a -> supported 1023 b -> supported 1023 c ->
  lt_type a b -> lt_type b c -> lt_type a c.
Proof.
  unfold lt_type. intros Ha Hb Hc.
  rewrite (proj1 (ltb_spec a b Ha Hb)), (proj1 (ltb_spec b c Hb Hc)), (proj1 (ltb_spec a c Ha Hc)).
  intros [= E1] [= E2]. f_equal.
  destruct (kcmp (key (get_dtype a)) (key (get_dtype b))) eqn:K1; try discriminate.
  destruct (kcmp (key (get_dtype b)) (key (get_dtype c))) eqn:K2; try discriminate.
  now rewrite (kcmp_trans _ _ _ K1 K2).
Qed.

Lemma order_irreflexive a : supported 1023 a -> ~ lt_type a a.
Proof.
  unfold lt_type. intros Ha. rewrite (proj1 (ltb_spec a a Ha Ha)).
  assert (kcmp (key (get_dtype a)) (key (get_dtype a)) = Eq) as -> by now apply kcmp_eq. discriminate.
Qed.

(** ** Constructors and destructors *)
Definition LIM := 2 ^ 14 - 1.
Lemma LIM_ok : lim_ok LIM. Proof. unfold lim_ok, LIM. lia. Qed.

Lemma ptr_to_ptr d : ptr_bit (ctrl_of d) = 0 -> is_complex d = false -> ptr_to (to_ptr d) = Ret d.
Proof.
  destruct d as [[ct pb a b n] e]; unfold ptr_to, to_ptr, is_complex, set_ptr; simpl. intros -> ->.
  reflexivity.
Qed.

Lemma ptr_to_CPtr t : supported LIM t -> first_simple t ->
  ptr_to (get_dtype (CPtr t)) = Ret (get_dtype t).
Proof.
  intros H F. rewrite (shape_ptr LIM) by (exact LIM_ok || assumption).
  destruct (isP t) eqn:P; [reflexivity|].
  apply (ptr_to_ptr (get_dtype t)).
  - pose proof (pb_isP LIM t LIM_ok H) as Q. unfold pb_of in Q. rewrite Q, P. reflexivity.
  - unfold is_complex, DATA_COMPLEX_OBJECT.
    assert (B : forall f, 1 <= f < LIM -> (f =? 2 ^ 14 - 1) = false).
    { intros f Hf. apply Z.eqb_neq. unfold LIM in Hf. lia. }
    destruct t; try discriminate; simpl in F.
    + rewrite (shape_base LIM) by (exact LIM_ok || assumption). now apply B.
    + rewrite (shape_seq LIM) by (exact LIM_ok || assumption). destruct t; try discriminate. now apply B.
    + pose proof H as H'. destruct H' as [(f & -> & Hf) Hn].
      rewrite (shape_array LIM) by (exact LIM_ok || assumption). now apply B.
    + destruct H as [H1 H2]. rewrite (shape_map LIM) by (exact LIM_ok || assumption).
      destruct t1; try discriminate. now apply B.
    + destruct H as [H1 H2]. rewrite (shape_pair LIM) by (exact LIM_ok || assumption).
      destruct t1; try discriminate. now apply B.
    + rewrite (shape_tuple1 LIM) by (exact LIM_ok || assumption). destruct t; try discriminate. now apply B.
Qed.

Lemma ptr_to_compound_seq k t : supported LIM t -> compound t = true ->
  ptr_to (get_dtype (CPtr (CSeq k t))) = Ret (get_dtype t).
Proof.
  intros H C. rewrite (shape_ptr LIM) by (exact LIM_ok || assumption). cbn [isP].
  rewrite (shape_seq LIM) by (exact LIM_ok || assumption). unfold un. rewrite C.
  unfold ptr_to. destruct t; try discriminate; reflexivity.
Qed.

Lemma elem_seq k t : supported LIM t -> elem_of (get_dtype (CSeq k t)) = get_dtype t.
Proof.
  intros H. rewrite (shape_seq LIM) by (exact LIM_ok || assumption).
  unfold elem_of, un, is_map, is_unordered_map. cbn [ctrl_of elems_of container].
  replace ((seq_code k =? COLLECTION_MAP) || (seq_code k =? COLLECTION_UNORDERED_MAP)) with false
    by (destruct k; reflexivity).
  destruct t; try reflexivity. rewrite (shape_base LIM) by (exact LIM_ok || assumption). reflexivity.
Qed.

Lemma elem_array t n : supported LIM (CArray t n) ->
  dtype_eqb (elem_of (get_dtype (CArray t n))) (get_dtype t) = Ret true.
Proof.
  intros H. pose proof H as H'. destruct H' as [(f & -> & Hf) Hn].
  rewrite (shape_array LIM) by (exact LIM_ok || assumption).
  rewrite (shape_base LIM) by (exact LIM_ok || assumption).
  unfold elem_of, is_map, is_unordered_map, dtype_eqb. simpl ctrl_of. cbn [elems_of container].
  change ((1 =? COLLECTION_MAP) || (1 =? COLLECTION_UNORDERED_MAP)) with false. cbv iota zeta.
  rewrite compare_unfold. cbv zeta. unfold set_container. cbn [container ptr_bit t0 t1 fixed_size].
  change (wrapu 6 0) with 0.
  unfold LIM in Hf.
  set (c := control (mk_ctrl 0 0 f 0 n)). set (c' := control (mk_ctrl 0 0 f 0 0)).
  assert (Ec : c = c' + n * 2 ^ 35) by (unfold c, c', control; cbn [container ptr_bit t0 t1 fixed_size]; pows; lia).
  assert (Bc' : 0 <= c' < 2 ^ 21) by (unfold c', control; cbn [container ptr_bit t0 t1 fixed_size]; pows; lia).
  rewrite (wraps_id 64 c) by (unfold in_s; change (64 - 1) with 63; pows; lia).
  rewrite (wraps_id 64 c') by (unfold in_s; change (64 - 1) with 63; pows; lia).
  replace ((c - c' <? - 2 ^ 63) || (2 ^ 63 <=? c - c')) with false
    by (symmetry; apply orb_false_iff; split; [apply Z.ltb_ge|apply Z.leb_gt]; pows; lia).
  destruct (Z.eqb_spec (c - c') 0) as [E|E]; [reflexivity|]. cbn [negb obind]. f_equal.
  apply Z.eqb_eq. unfold wraps. replace (c - c') with ((8 * n) * 2 ^ 32) by (pows; lia).
  rewrite Z.mod_mul by (pows; lia). reflexivity.
Qed.

Lemma array_elem_control t n : supported LIM (CArray t n) -> n <> 0 ->
  dtype_hash (elem_of (get_dtype (CArray t n))) <> dtype_hash (get_dtype t).
Proof.
  intros H N. pose proof H as H'. destruct H' as [(f & -> & Hf) Hn].
  rewrite (shape_array LIM) by (exact LIM_ok || assumption).
  rewrite (shape_base LIM) by (exact LIM_ok || assumption).
  unfold dtype_hash, control; simpl. change (wrapu 6 0) with 0. pows. lia.
Qed.

Lemma key_map o k v : supported LIM k -> supported LIM v -> key_of (get_dtype (CMap o k v)) = get_dtype k.
Proof.
  intros Hk Hv. rewrite (shape_map LIM) by (exact LIM_ok || assumption).
  unfold key_of, is_map, is_unordered_map, bi. cbn [ctrl_of elems_of container t0].
  replace (((if o then 3 else 5) =? COLLECTION_MAP) || ((if o then 3 else 5) =? COLLECTION_UNORDERED_MAP))
    with true by (destruct o; reflexivity).
  destruct k; cbn [compound]; try (destruct (compound v); reflexivity).
Qed.

Lemma elem_map_compound o k v : supported LIM k -> supported LIM v -> compound v = true ->
  elem_of (get_dtype (CMap o k v)) = get_dtype v.
Proof.
  intros Hk Hv C. rewrite (shape_map LIM) by (exact LIM_ok || assumption).
  unfold elem_of, is_map, is_unordered_map, bi. rewrite C. cbn [ctrl_of elems_of container t0].
  replace (((if o then 3 else 5) =? COLLECTION_MAP) || ((if o then 3 else 5) =? COLLECTION_UNORDERED_MAP))
    with true by (destruct o; reflexivity).
  destruct (compound k); reflexivity.
Qed.

Lemma elem_map_base o k f : supported LIM k -> 1 <= f < 2047 ->
  dtype_eqb (elem_of (get_dtype (CMap o k (CBase f)))) (get_dtype (CBase f)) = Ret false.
Proof.
  intros Hk Hf. assert (Hf' : supported LIM (CBase f)) by (simpl; unfold LIM; pows; lia).
  rewrite (shape_map LIM) by (exact LIM_ok || assumption).
  rewrite (shape_base LIM) by (exact LIM_ok || assumption).
  set (m := elem_of _).
  assert (m = DT (mk_ctrl 0 0 f f 0) None) as ->.
  { unfold m, elem_of, is_map, is_unordered_map, bi. cbn [ctrl_of elems_of container t0 compound].
    replace (((if o then 3 else 5) =? COLLECTION_MAP) || ((if o then 3 else 5) =? COLLECTION_UNORDERED_MAP))
      with true by (destruct o; reflexivity).
    unfold set_t0, set_container; cbn [container ptr_bit t0 t1 fixed_size code].
    rewrite (wrapu14 LIM) by (exact LIM_ok || assumption).
    destruct (compound k); reflexivity. }
  assert (G : good 2047 (DT (mk_ctrl 0 0 f f 0) None)).
  { constructor; simpl; try congruence; try lia. unfold okc; simpl. pows. lia. }
  assert (G' : good 2047 (DT (mk_ctrl 0 0 f 0 0) None)).
  { constructor; simpl; try congruence; try lia. unfold okc; simpl. pows. lia. }
  destruct (compare_zero 2047 ltac:(lia) _ _ G G') as (r & R1 & R2).
  unfold dtype_eqb. rewrite R1. cbn [obind]. f_equal. apply Z.eqb_neq. rewrite R2.
  rewrite (key_agree 2047) by (lia || assumption). unfold ctrls_agree; simpl. lia.
Qed.

(** ** Tuples *)
Lemma tuple1_base f : 1 <= f < LIM ->
  tuple_size (get_dtype (CTuple1 (CBase f))) = 1 /\
  extract_tuple_dtypes (get_dtype (CTuple1 (CBase f))) = [get_dtype (CBase f)].
Proof.
  intros H. assert (H' : supported LIM (CBase f)) by exact H.
  rewrite (shape_tuple1 LIM), (shape_base LIM) by (exact LIM_ok || assumption).
  unfold tuple_size, extract_tuple_dtypes, is_tuple. cbn [code ctrl_of container t0 t1].
  change (8 =? COLLECTION_TUPLE) with true. cbn [negb].
  destruct (Z.eqb_spec f 0); [lia|]. rewrite Z.eqb_refl. split; [reflexivity|].
  unfold dtype_of. now rewrite (wrapu14 LIM) by (exact LIM_ok || assumption).
Qed.

Lemma tuple1_size a : supported LIM a -> tuple_size (get_dtype (CTuple1 a)) = 1.
Proof.
  intros H. rewrite (shape_tuple1 LIM) by (exact LIM_ok || assumption).
  destruct (code_compound LIM a LIM_ok H) as (_ & R & _).
  unfold tuple_size, is_tuple. cbn [ctrl_of container t0 t1].
  change (8 =? COLLECTION_TUPLE) with true. cbn [negb].
  destruct (Z.eqb_spec (code a) 0); [lia|]. reflexivity.
Qed.

Lemma pair_size a b : supported LIM a -> supported LIM b -> tuple_size (get_dtype (CPair a b)) = 4.
Proof.
  intros H H'. rewrite (shape_pair LIM) by (exact LIM_ok || assumption).
  destruct (code_compound LIM a LIM_ok H) as (_ & R & _).
  destruct (code_compound LIM b LIM_ok H') as (_ & R' & _).
  unfold tuple_size, is_tuple. cbn [ctrl_of container t0 t1].
  change (8 =? COLLECTION_TUPLE) with true. cbn [negb].
  destruct (Z.eqb_spec (code a) 0); [lia|]. destruct (Z.eqb_spec (code b) 0); [lia|]. reflexivity.
Qed.

Lemma pair_extract_length a b : supported LIM a -> supported LIM b ->
  length (extract_tuple_dtypes (get_dtype (CPair a b))) = 2%nat.
Proof.
  intros H H'. rewrite (shape_pair LIM) by (exact LIM_ok || assumption).
  destruct (code_compound LIM a LIM_ok H) as (_ & R & _).
  destruct (code_compound LIM b LIM_ok H') as (_ & R' & _).
  unfold extract_tuple_dtypes, is_tuple. cbn [ctrl_of container t0 t1].
  change (8 =? COLLECTION_TUPLE) with true. cbn [negb].
  destruct (Z.eqb_spec (code a) 0); [lia|]. destruct (Z.eqb_spec (code b) 0); [lia|]. reflexivity.
Qed.

Lemma pair_extract f g : 1 <= f < LIM -> 1 <= g < LIM ->
  extract_tuple_dtypes (get_dtype (CPair (CBase f) (CBase g))) = [get_dtype (CBase f); get_dtype (CBase g)].
Proof.
  intros H H'. assert (Hf : supported LIM (CBase f)) by exact H. assert (Hg : supported LIM (CBase g)) by exact H'.
  rewrite (shape_pair LIM) by (exact LIM_ok || assumption).
  unfold extract_tuple_dtypes, is_tuple. cbn [ctrl_of container t0 t1 code].
  change (8 =? COLLECTION_TUPLE) with true. cbn [negb].
  destruct (Z.eqb_spec f 0); [lia|]. destruct (Z.eqb_spec g 0); [lia|]. reflexivity.
Qed.

(** ** Integer conversion *)
Lemma int_bits_range t : int_bits t = 8 \/ int_bits t = 16 \/ int_bits t = 32 \/ int_bits t = 64.
Proof. destruct t; simpl; tauto. Qed.

Lemma wraps_mod w x : 1 <= w -> wraps w x mod 2 ^ w = x mod 2 ^ w.
Proof.
  intros Hw. pose proof (Z.pow_pos_nonneg 2 w ltac:(lia) ltac:(lia)).
  unfold wraps. cbv zeta. destruct (Z.ltb_spec (x mod 2 ^ w) (2 ^ (w - 1))).
  - apply Z.mod_mod. lia.
  - replace (x mod 2 ^ w - 2 ^ w) with (x mod 2 ^ w + (-1) * 2 ^ w) by lia.
    rewrite Z_mod_plus_full. apply Z.mod_mod. lia.
Qed.

Lemma to_int_converts t v : converts t v (to_int t v).
Proof.
  unfold converts, to_int, int_value. pose proof (int_bits_range t) as B.
  assert (P : 0 < 2 ^ int_bits t) by (apply Z.pow_pos_nonneg; lia).
  destruct (int_signed t).
  - split; [apply (wraps_range (int_bits t) v); lia|].
    pose proof (wraps_mod (int_bits t) v ltac:(lia)) as E.
    exists (v / 2 ^ int_bits t - wraps (int_bits t) v / 2 ^ int_bits t).
    pose proof (Z.div_mod v (2 ^ int_bits t) ltac:(lia)).
    pose proof (Z.div_mod (wraps (int_bits t) v) (2 ^ int_bits t) ltac:(lia)). nia.
  - split; [apply (wrapu_range (int_bits t) v); lia|].
    exists (v / 2 ^ int_bits t). unfold wrapu. pose proof (Z.div_mod v (2 ^ int_bits t) ltac:(lia)). lia.
Qed.

Lemma converts_fun t v w w' : converts t v w -> converts t v w' -> w = w'.
Proof.
  unfold converts, int_value. pose proof (int_bits_range t) as B.
  pose proof (pow2_split (int_bits t) ltac:(lia)).
  assert (P : 0 < 2 ^ int_bits t) by (apply Z.pow_pos_nonneg; lia).
  destruct (int_signed t); intros [R [k K]] [R' [k' K']]; assert (k = k') by nia; subst k'; lia.
Qed.

Lemma mod_mod_le a w w' : 0 <= w <= w' -> (a mod 2 ^ w') mod 2 ^ w = a mod 2 ^ w.
Proof.
  intros. symmetry. apply Zmod_div_mod; try (apply Z.pow_pos_nonneg; lia).
  exists (2 ^ (w' - w)). rewrite <- Z.pow_add_r by lia. f_equal. lia.
Qed.

Lemma to_int_mod t v : to_int t v mod 2 ^ int_bits t = v mod 2 ^ int_bits t.
Proof.
  pose proof (int_bits_range t). unfold to_int. destruct (int_signed t).
  - apply wraps_mod. lia.
  - unfold wrapu. apply Z.mod_mod. apply Z.pow_nonzero; lia.
Qed.

Lemma wraps_of_low w s v : 1 <= w -> in_s w v -> s mod 2 ^ w = v mod 2 ^ w -> wraps w s = v.
Proof.
  intros Hw Hv E. rewrite <- (wraps_id w v Hw Hv). unfold wraps. now rewrite E.
Qed.

Lemma int_dtype_eqb a b : dtype_eqb (int_dtype a) (int_dtype b) = Ret (if int_type_eq_dec a b then true else false).
Proof. destruct a, b; vm_compute; reflexivity. Qed.

Lemma convert_is_cast oof tof src dst s : src <> dst ->
  convert_to oof tof s (int_dtype src) (int_dtype dst) = cast_to oof dst (int_dtype src) s.
Proof.
  intros N. unfold convert_to. rewrite int_dtype_eqb.
  destruct (int_type_eq_dec src dst); [contradiction|]. destruct src, dst; reflexivity.
Qed.

Lemma cast_value oof dst src s :
  cast_to oof dst (int_dtype src) s =
  Ret (wrapu (int_bits dst) (to_int dst
        (match src with
         | I8 | I16 => wraps 16 (wrapu 16 s)
         | I32 => wraps 32 (wrapu 32 s)
         | I64 => wraps 64 s
         | _ => s
         end))).
Proof. destruct src; reflexivity. Qed.

Lemma wraps_wrapu_low w s v : 1 <= w -> in_s w v -> s mod 2 ^ w = v mod 2 ^ w -> wraps w (wrapu w s) = v.
Proof.
  intros Hw Hv E. apply wraps_of_low; [exact Hw|exact Hv|].
  unfold wrapu. rewrite Z.mod_mod by (apply Z.pow_nonzero; lia). exact E.
Qed.

Lemma cast_signed_low oof tof src dst s v :
  src <> I8 -> int_signed src = true -> src <> dst -> slot_low_holds src s v ->
  convert_to oof tof s (int_dtype src) (int_dtype dst) = Ret (to_int dst v mod 2 ^ int_bits dst).
Proof.
  intros N8 S N [Hv Hs]. rewrite convert_is_cast by assumption. rewrite cast_value. unfold wrapu at 1.
  do 3 f_equal. destruct src; try discriminate; try contradiction.
  - apply wraps_wrapu_low; [lia|exact Hv|exact Hs].
  - apply wraps_wrapu_low; [lia|exact Hv|exact Hs].
  - apply wraps_of_low; [lia|exact Hv|exact Hs].
Qed.

Lemma cast_unsigned oof tof src dst s v :
  int_signed src = false -> src <> dst -> slot_holds src s v ->
  convert_to oof tof s (int_dtype src) (int_dtype dst) = Ret (to_int dst v mod 2 ^ int_bits dst).
Proof.
  intros S N [Hv Hs]. rewrite convert_is_cast by assumption. rewrite cast_value. unfold wrapu at 1.
  assert (s = v) as ->.
  { rewrite Hs. apply Z.mod_small. unfold int_value in Hv. rewrite S in Hv.
    assert (2 ^ int_bits src <= 2 ^ 64) by (destruct src; vm_compute; discriminate). lia. }
  destruct src; try discriminate; reflexivity.
Qed.

Lemma cast_i8_extended oof tof dst s v :
  I8 <> dst -> slot_holds I8 s v ->
  convert_to oof tof s (int_dtype I8) (int_dtype dst) = Ret (to_int dst v mod 2 ^ int_bits dst).
Proof.
  intros N [Hv Hs]. rewrite convert_is_cast by assumption. rewrite cast_value. unfold wrapu at 1.
  do 3 f_equal. apply wraps_wrapu_low; [lia| |].
  - unfold int_value in Hv; simpl in Hv. unfold in_s. change (8 - 1) with 7 in Hv. change (16 - 1) with 15. pows. lia.
  - rewrite Hs. apply mod_mod_le. lia.
Qed.

Lemma slot_holds_low t s v : slot_holds t s v -> slot_low_holds t s v.
Proof.
  intros [Hv ->]. split; [exact Hv|]. apply mod_mod_le. pose proof (int_bits_range t). lia.
Qed.

Lemma convert_ok oof tof src dst s v : slot_holds src s v ->
  exists r w, convert_to oof tof s (int_dtype src) (int_dtype dst) = Ret r /\
              converts dst v w /\ slot_low_holds dst r w.
Proof.
  intros H.
  assert (FIN : src <> dst ->
     convert_to oof tof s (int_dtype src) (int_dtype dst) = Ret (to_int dst v mod 2 ^ int_bits dst) ->
     exists r w, convert_to oof tof s (int_dtype src) (int_dtype dst) = Ret r /\
              converts dst v w /\ slot_low_holds dst r w).
  { intros N E. exists (to_int dst v mod 2 ^ int_bits dst), (to_int dst v).
    split; [exact E|]. pose proof (to_int_converts dst v) as Q. split; [exact Q|].
    split; [exact (proj1 Q)|]. rewrite Z.mod_mod by (apply Z.pow_nonzero; [lia|destruct dst; simpl; lia]).
    reflexivity. }
  destruct (int_type_eq_dec src dst) as [->|N].
  - exists s, v. split.
    + unfold convert_to. rewrite int_dtype_eqb. destruct (int_type_eq_dec dst dst); [reflexivity|contradiction].
    + split; [|now apply slot_holds_low]. split; [exact (proj1 H)|]. exists 0. lia.
  - apply FIN; [exact N|]. destruct (int_signed src) eqn:S.
    + destruct (int_type_eq_dec src I8) as [->|N8].
      * now apply cast_i8_extended.
      * apply cast_signed_low; auto. now apply slot_holds_low.
    + now apply cast_unsigned.
Qed.

Lemma convert_chain oof tof src mid dst s v : slot_holds src s v -> mid <> I8 ->
  exists r1 r2 w1 w2,
    convert_to oof tof s (int_dtype src) (int_dtype mid) = Ret r1 /\
    convert_to oof tof r1 (int_dtype mid) (int_dtype dst) = Ret r2 /\
    converts mid v w1 /\ converts dst w1 w2 /\ slot_low_holds dst r2 w2.
Proof.
  intros H N8. destruct (convert_ok oof tof src mid s v H) as (r1 & w1 & E1 & C1 & L1).
  exists r1.
  assert (M : slot_holds mid r1 w1 \/ int_signed mid = true).
  { destruct (int_signed mid) eqn:S; [now right|left].
    destruct (int_type_eq_dec src mid) as [->|N].
    - assert (r1 = s) as ->.
      { unfold convert_to in E1. rewrite int_dtype_eqb in E1.
        destruct (int_type_eq_dec mid mid); [|contradiction]. now injection E1. }
      assert (w1 = v) as ->; [|exact H].
      eapply converts_fun; [exact C1|]. split; [exact (proj1 H)|]. exists 0. lia.
    - assert (E : convert_to oof tof s (int_dtype src) (int_dtype mid) = Ret (to_int mid v mod 2 ^ int_bits mid)).
      { destruct (int_signed src) eqn:S'.
        + destruct (int_type_eq_dec src I8) as [->|N8'].
          * now apply cast_i8_extended.
          * apply cast_signed_low; auto. now apply slot_holds_low.
        + now apply cast_unsigned. }
      rewrite E in E1. injection E1 as <-.
      pose proof (converts_fun _ _ _ _ C1 (to_int_converts mid v)) as ->.
      split; [exact (proj1 L1)|]. pose proof (proj1 L1) as R. unfold int_value in R. rewrite S in R.
      rewrite Z.mod_small by exact R. symmetry. apply Z.mod_small.
      assert (2 ^ int_bits mid <= 2 ^ 64) by (destruct mid; vm_compute; discriminate). lia. }
  destruct M as [M|M].
  - destruct (convert_ok oof tof mid dst r1 w1 M) as (r2 & w2 & E2 & C2 & L2).
    exists r2, w1, w2. auto.
  - destruct (int_type_eq_dec mid dst) as [->|N].
    + exists r1, w1, w1. split; [exact E1|]. split.
      { unfold convert_to. rewrite int_dtype_eqb. destruct (int_type_eq_dec dst dst); [reflexivity|contradiction]. }
      split; [exact C1|]. split; [|exact L1]. split; [exact (proj1 L1)|]. exists 0. lia.
    + exists (to_int dst w1 mod 2 ^ int_bits dst), w1, (to_int dst w1).
      split; [exact E1|]. split; [now apply cast_signed_low|]. split; [exact C1|].
      pose proof (to_int_converts dst w1) as Q. split; [exact Q|]. split; [exact (proj1 Q)|].
      rewrite Z.mod_mod by (apply Z.pow_nonzero; [lia|destruct dst; simpl; lia]). reflexivity.
Qed.

Lemma convert_chain_i8 oof tof :
  slot_holds I32 (2 ^ 64 - 1) (-1) /\
  exists r1, convert_to oof tof (2 ^ 64 - 1) (int_dtype I32) (int_dtype I8) = Ret r1 /\
             slot_low_holds I8 r1 (-1) /\
             convert_to oof tof r1 (int_dtype I8) (int_dtype I32) = Ret 255.
Proof.
  split; [split; [split; vm_compute; congruence|reflexivity]|].
  exists 255. split; [vm_compute; reflexivity|]. split; [|vm_compute; reflexivity].
  split; [split; vm_compute; congruence|reflexivity].
Qed.

Lemma primitive_roundtrip T v : int_value T v ->
  exists s, from_primitive (int_dtype T) v = Some s /\ slot_holds T s v /\
            to_primitive T (int_dtype T) s = Some v.
Proof.
  intros H. exists (wrapu 64 v). split; [destruct T; reflexivity|]. split; [split; [exact H|reflexivity]|].
  assert (E : to_int T (wrapu 64 v) = v).
  { apply (converts_fun T v); [|split; [exact H|exists 0; lia]].
    pose proof (to_int_converts T (wrapu 64 v)) as [R [k K]]. split; [exact R|].
    unfold wrapu in *. pose proof (Z.div_mod v (2 ^ 64) ltac:(pows; lia)) as D.
    assert (exists j, 2 ^ 64 = j * 2 ^ int_bits T) as [j J].
    { exists (2 ^ (64 - int_bits T)). rewrite <- Z.pow_add_r by (destruct T; simpl; lia). f_equal. lia. }
    exists (k + (v / 2 ^ 64) * j).
    replace ((k + v / 2 ^ 64 * j) * 2 ^ int_bits T) with (k * 2 ^ int_bits T + v / 2 ^ 64 * (j * 2 ^ int_bits T)) by ring.
    rewrite <- J. lia. }
  unfold to_primitive. rewrite E. destruct T; reflexivity.
Qed.

Lemma primitive_wrong_type T T' s : T <> T' -> to_primitive T (int_dtype T') s = None.
Proof. intros N. destruct T, T'; try contradiction; reflexivity. Qed.

Lemma equal_hash a b : supported 2047 a -> supported 2047 b -> no_arrays a -> no_arrays b ->
  dtype_eqb (get_dtype a) (get_dtype b) = Ret true -> dtype_hash (get_dtype a) = dtype_hash (get_dtype b).
Proof.
  intros Ha Hb Na Nb E. destruct (eqb_iff_same a b Ha Hb Na Nb) as (r & R1 & R2).
  rewrite E in R1. injection R1 as <-. rewrite (proj1 R2 eq_refl). reflexivity.
Qed.

Lemma array_elem_hash t n : supported (2 ^ 14 - 1) (CArray t n) -> n <> 0 ->
    dtype_eqb (elem_of (get_dtype (CArray t n))) (get_dtype t) = Ret true /\
    dtype_hash (elem_of (get_dtype (CArray t n))) <> dtype_hash (get_dtype t).
Proof. intros. split; [now apply elem_array|now apply array_elem_control]. Qed.
