(** Lemmas for C54. *)
From Coq Require Import List Bool Arith ZArith Lia.
Import ListNotations.
From Verif Require Import Base DType_Spec DType_Model DType_Proofs DynObject_Model Function_Model Abi_Spec Abi_Model.
Local Open Scope Z_scope.

Definition sup (t : cpptype) : Prop := supported LIM t.

(** ** Data types *)
Definition okd (d : dtype) : Prop := is_complex d = false \/ exists e l, elems_of d = Some (Some e :: l).

Lemma okd_get t : sup t -> okd (get_dtype t).
Proof.
  pose proof LIM_ok as L.
  assert (B : forall f, 1 <= f < LIM -> (f =? DATA_COMPLEX_OBJECT) = false).
  { intros f Hf. apply Z.eqb_neq. unfold LIM, DATA_COMPLEX_OBJECT in *. lia. }
  unfold okd, is_complex. induction t as [f|t IH|k t _|t _ n|o k _ v _|a _ b _|a _]; intros H.
  - left. rewrite (shape_base LIM) by assumption. now apply B.
  - rewrite (shape_ptr LIM) by assumption. destruct (isP t); [right; cbn; eauto|].
    destruct (IH H) as [I|I]; [left|right]; exact I.
  - rewrite (shape_seq LIM) by assumption. cbn [ctrl_of t0 elems_of]. unfold un.
    destruct (compound t) eqn:C; [right; eauto|left]. destruct t; try discriminate. now apply B.
  - left. pose proof H as H'. destruct H' as [(f & -> & Hf) Hn].
    rewrite (shape_array LIM) by assumption. now apply B.
  - destruct H as [H1 H2]. rewrite (shape_map LIM) by assumption. cbn [ctrl_of t0 elems_of]. unfold bi.
    destruct (compound k) eqn:C; [right; destruct (compound v); eauto|left]. destruct k; try discriminate. now apply B.
  - destruct H as [H1 H2]. rewrite (shape_pair LIM) by assumption. cbn [ctrl_of t0 elems_of]. unfold bi.
    destruct (compound a) eqn:C; [right; destruct (compound b); eauto|left]. destruct a; try discriminate. now apply B.
  - rewrite (shape_tuple1 LIM) by assumption. cbn [ctrl_of t0 elems_of]. unfold un.
    destruct (compound a) eqn:C; [right; eauto|left]. destruct a; try discriminate. now apply B.
Qed.

Lemma ptr_to_total t : sup t -> exists e, ptr_to (get_dtype t) = Ret e.
Proof.
  intros H. unfold ptr_to. destruct (okd_get t H) as [->|(e & l & ->)]; [eauto|].
  destruct (is_complex _); eauto.
Qed.

Lemma is_ptr_to_total f t : sup t -> exists b, is_ptr_to f (get_dtype t) = Ret b.
Proof.
  intros H. unfold is_ptr_to. destruct (is_ptr _); [|eauto].
  destruct (ptr_to_total t H) as (e & ->). cbn. eauto.
Qed.

(** What the code sees of a type that can be passed. *)
Definition viewlike (d : dtype) : bool :=
  is_simd_vector d || is_absl_span d || is_string_view d || is_std_string_view d.
Inductive seen : cpptype -> dtype -> passing -> llvm_type -> Prop :=
| Seen_ptr t d : is_ptr d = true -> (exists e, ptr_to d = Ret e) -> viewlike d = pointer_to_view t ->
    view t = false -> seen t d (Words [INTEGER]) TPtr
| Seen_int t d : is_ptr d = false -> is_integer d || is_bit d = true -> viewlike d = false ->
    is_absl_span d = false -> is_simd_vector d = false -> view t = false -> pointer_to_view t = false ->
    get_type d = Ret (Some TInt) -> seen t d (Words [INTEGER]) TInt
| Seen_float t d : request_registers d = 0 -> viewlike d = false -> is_ptr d = false -> view t = false ->
    pointer_to_view t = false -> get_type d = Ret (Some TFloat) -> seen t d (Words [SSE]) TFloat
| Seen_long t d : request_registers d = 0 -> viewlike d = false -> is_ptr d = false -> view t = false ->
    pointer_to_view t = false -> get_type d = Ret (Some TX86_fp80) -> seen t d Long_double TX86_fp80
| Seen_view t d : request_registers d = 2 -> viewlike d = true -> is_ptr d = false -> view t = true ->
    pointer_to_view t = false -> get_type d = Ret (Some TStruct2) -> seen t d (Words [INTEGER; INTEGER]) TStruct2
| Seen_string d : request_registers d = 2 -> viewlike d = true -> is_ptr d = false ->
    get_type d = Ret (Some TI128) -> seen (CBase 17) d (Words [INTEGER; INTEGER]) TI128.

Lemma viewlike_ptr t : sup t -> viewlike (get_dtype (CPtr t)) = pointer_to_view (CPtr t).
Proof.
  intros H. pose proof LIM_ok as L. rewrite (shape_ptr LIM) by assumption.
  unfold viewlike, is_simd_vector, is_simd_vector_any, is_absl_span, is_string_view, is_std_string_view, is_data,
    is_fundamental.
  destruct t as [f|t|k t|t n|o k v|a b|a]; cbn [isP pointer_to_view].
  - rewrite (shape_base LIM) by assumption. reflexivity.
  - reflexivity.
  - rewrite (shape_seq LIM) by assumption. destruct k; reflexivity.
  - pose proof H as H'. destruct H' as [(f & -> & Hf) Hn]. rewrite (shape_array LIM) by assumption. reflexivity.
  - destruct H. rewrite (shape_map LIM) by assumption. destruct o; reflexivity.
  - destruct H. rewrite (shape_pair LIM) by assumption. reflexivity.
  - rewrite (shape_tuple1 LIM) by assumption. reflexivity.
Qed.

Lemma seen_all t p : sup t -> abi_class t = Some p -> exists ty, seen t (get_dtype t) p ty.
Proof.
  intros H A. pose proof LIM_ok as L. destruct t as [f|t|k t|t n|o k v|a b|a]; cbn in A; try discriminate.
  - rewrite (shape_base LIM) by assumption. cbn in H.
    destruct ((3 <=? f) && (f <=? 11)) eqn:E1.
    { injection A as <-. apply andb_prop in E1. destruct E1 as [E1 E1'].
      apply Z.leb_le in E1. apply Z.leb_le in E1'.
      assert (C : f = 3 \/ f = 4 \/ f = 5 \/ f = 6 \/ f = 7 \/ f = 8 \/ f = 9 \/ f = 10 \/ f = 11) by lia.
      exists TInt. destruct C as [->|[->|[->|[->|[->|[->|[->|[->| ->]]]]]]]]; apply Seen_int; reflexivity. }
    destruct ((12 <=? f) && (f <=? 14)) eqn:E2.
    { injection A as <-. apply andb_prop in E2. destruct E2 as [E2 E2'].
      apply Z.leb_le in E2. apply Z.leb_le in E2'.
      assert (C : f = 12 \/ f = 13 \/ f = 14) by lia.
      exists TFloat. destruct C as [->|[->| ->]]; apply Seen_float; reflexivity. }
    destruct (Z.eqb_spec f 15) as [->|N15].
    { injection A as <-. exists TX86_fp80. apply Seen_long; reflexivity. }
    destruct (Z.eqb_spec f 16) as [->|N16].
    { injection A as <-. exists TStruct2. apply Seen_view; reflexivity. }
    destruct (Z.eqb_spec f 17) as [->|N17].
    { injection A as <-. exists TI128. apply Seen_string; reflexivity. }
    destruct (Z.eqb_spec f 24) as [->|N24]; [|discriminate].
    injection A as <-. exists TStruct2. apply Seen_view; reflexivity.
  - injection A as <-. exists TPtr. apply Seen_ptr.
    + rewrite (is_ptr_get LIM) by assumption. reflexivity.
    + now apply ptr_to_total.
    + now apply viewlike_ptr.
    + reflexivity.
  - destruct k; try discriminate; injection A as <-; exists TStruct2;
      rewrite (shape_seq LIM) by assumption; apply Seen_view; reflexivity.
Qed.

(** ** Registers counted and registers used *)
Definition agrees (us : Z) (u : used) : Prop :=
  (xmms u <= 8)%nat /\
  ((us <= 6 /\ Z.of_nat (gprs u) = us) \/ (6 < us /\ (gprs u = 5 \/ gprs u = 6)%nat)).

Lemma used_snoc l d : used_registers (l ++ [d]) = wrapu 32 (used_registers l + request_registers d).
Proof. unfold used_registers. rewrite fold_left_app. reflexivity. Qed.

Lemma request_bounds d : 0 <= request_registers d <= 2.
Proof. unfold request_registers. destruct (_ || _); [lia|]. destruct (_ || _); lia. Qed.

Lemma used_bounds l : Z.of_nat (length l) < 2 ^ 30 -> 0 <= used_registers l <= 2 * Z.of_nat (length l).
Proof.
  induction l as [|d l IH] using rev_ind; intros H; [cbn; lia|].
  rewrite app_length in *. cbn [length] in *. rewrite used_snoc.
  pose proof (request_bounds d). rewrite wrapu_id; [lia|]. unfold in_u. pows. lia.
Qed.

Lemma used_step l d : Z.of_nat (length (l ++ [d])) < 2 ^ 30 ->
  used_registers (l ++ [d]) = used_registers l + request_registers d.
Proof.
  intros H. rewrite used_snoc. rewrite app_length in H. cbn [length] in H.
  pose proof (used_bounds l ltac:(lia)). pose proof (request_bounds d).
  apply wrapu_id. unfold in_u. pows. lia.
Qed.

Lemma by_value_at pre d post : pass_arg_by_value (pre ++ d :: post) (length pre) =
  (viewlike d && (6 <? used_registers (pre ++ [d]))).
Proof.
  unfold pass_arg_by_value. rewrite nth_error_app2, Nat.sub_diag by lia. cbn [nth_error].
  fold (viewlike d).
  replace (firstn (S (length pre)) (pre ++ d :: post)) with (pre ++ [d]).
  - destruct (viewlike d); reflexivity.
  - replace (S (length pre)) with (length (pre ++ [d])) by (rewrite app_length; cbn; lia).
    replace (pre ++ d :: post) with ((pre ++ [d]) ++ post) by (now rewrite <- app_assoc).
    now rewrite firstn_app, Nat.sub_diag, firstn_all, app_nil_r.
Qed.

Lemma request_seen t d p ty : seen t d p ty ->
  request_registers d =
    match ty with TPtr | TInt => 1 | TStruct2 | TI128 => 2 | _ => 0 end.
Proof.
  intros [ ]; try assumption.
  - unfold request_registers. rewrite H. reflexivity.
  - unfold request_registers. rewrite H. cbn [orb]. rewrite H0. reflexivity.
Qed.

Lemma get_type_seen t d p ty : seen t d p ty -> get_type d = Ret (Some ty).
Proof.
  intros [ ]; try assumption. unfold get_type. rewrite H. destruct H0 as (e & ->). reflexivity.
Qed.

(** One step: the standard and LLVM put the argument in the same place, and the count stays in agreement. *)
Definition places_as (p : passing) (q : param) (u : used) : Prop :=
  llvm_place q u = Some (abi_place p u).

Lemma place_int u q : (xmms u <= 8)%nat -> q = TInt \/ q = TPtr -> places_as (Words [INTEGER]) (PValue q) u.
Proof.
  intros X Q. unfold places_as.
  assert (llvm_place (PValue q) u = llvm_place (PValue TInt) u) as -> by (destruct Q; subst q; reflexivity).
  cbn [llvm_place abi_place]. cbv [count_class]. cbn [filter is_INTEGER negb length].
  rewrite (proj2 (Nat.leb_le (xmms u + 0) 8)) by lia. rewrite andb_true_r.
  destruct (Nat.ltb_spec (gprs u) 6).
  - rewrite (proj2 (Nat.leb_le (gprs u + 1) 6)) by lia. cbn [in_registers]. do 3 f_equal; lia.
  - rewrite (proj2 (Nat.leb_gt (gprs u + 1) 6)) by lia. cbn [on_stack]. do 3 f_equal; lia.
Qed.

Lemma place_float u : (gprs u <= 6)%nat -> places_as (Words [SSE]) (PValue TFloat) u.
Proof.
  intros X. unfold places_as.
  cbn [llvm_place abi_place]. cbv [count_class]. cbn [filter is_INTEGER negb length].
  rewrite (proj2 (Nat.leb_le (gprs u + 0) 6)) by lia. cbn [andb].
  destruct (Nat.ltb_spec (xmms u) 8).
  - rewrite (proj2 (Nat.leb_le (xmms u + 1) 8)) by lia. cbn [in_registers]. do 3 f_equal; lia.
  - rewrite (proj2 (Nat.leb_gt (xmms u + 1) 8)) by lia. cbn [on_stack]. do 3 f_equal; lia.
Qed.

Lemma place_long u : places_as Long_double (PValue TX86_fp80) u.
Proof. reflexivity. Qed.

Lemma place_pair u q : (xmms u <= 8)%nat -> (gprs u + 2 <= 6)%nat -> q = TStruct2 \/ q = TI128 ->
  places_as (Words [INTEGER; INTEGER]) (PValue q) u.
Proof.
  intros X G Q. unfold places_as.
  assert (llvm_place (PValue q) u = llvm_place (PValue TI128) u) as -> by (destruct Q; subst q; reflexivity).
  cbn [llvm_place abi_place]. cbv [count_class]. cbn [filter is_INTEGER negb length].
  rewrite (proj2 (Nat.leb_le (xmms u + 0) 8)) by lia. rewrite andb_true_r.
  rewrite (proj2 (Nat.leb_le (gprs u + 2) 6)) by lia. cbn [in_registers]. do 3 f_equal; lia.
Qed.

Lemma place_spilled u : (6 < gprs u + 2)%nat -> places_as (Words [INTEGER; INTEGER]) (PByval 2 1) u.
Proof.
  intros G. unfold places_as.
  cbn [llvm_place abi_place Nat.eqb]. cbv [count_class]. cbn [filter is_INTEGER negb length].
  rewrite (proj2 (Nat.leb_gt (gprs u + 2) 6)) by lia. reflexivity.
Qed.

Lemma agrees_step t d p ty us u : seen t d p ty -> agrees us u -> 0 <= us ->
  agrees (us + request_registers d) (snd (abi_place p u)).
Proof.
  intros S [X A] P. rewrite (request_seen _ _ _ _ S). unfold agrees.
  destruct S; cbn [abi_place]; cbv [count_class]; cbn [filter is_INTEGER negb length].
  - destruct ((gprs u + 1 <=? 6)%nat && (xmms u + 0 <=? 8)%nat) eqn:E; cbn [snd gprs xmms].
    + apply andb_prop in E. destruct E as [E _]. apply Nat.leb_le in E. lia.
    + rewrite (proj2 (Nat.leb_le (xmms u + 0) 8)), andb_true_r in E by lia. apply Nat.leb_gt in E. lia.
  - destruct ((gprs u + 1 <=? 6)%nat && (xmms u + 0 <=? 8)%nat) eqn:E; cbn [snd gprs xmms].
    + apply andb_prop in E. destruct E as [E _]. apply Nat.leb_le in E. lia.
    + rewrite (proj2 (Nat.leb_le (xmms u + 0) 8)), andb_true_r in E by lia. apply Nat.leb_gt in E. lia.
  - destruct ((gprs u + 0 <=? 6)%nat && (xmms u + 1 <=? 8)%nat) eqn:E; cbn [snd gprs xmms].
    + apply andb_prop in E. destruct E as [_ E]. apply Nat.leb_le in E. lia.
    + lia.
  - cbn [snd gprs xmms]. lia.
  - destruct ((gprs u + 2 <=? 6)%nat && (xmms u + 0 <=? 8)%nat) eqn:E; cbn [snd gprs xmms].
    + apply andb_prop in E. destruct E as [E _]. apply Nat.leb_le in E. lia.
    + rewrite (proj2 (Nat.leb_le (xmms u + 0) 8)), andb_true_r in E by lia. apply Nat.leb_gt in E. lia.
  - destruct ((gprs u + 2 <=? 6)%nat && (xmms u + 0 <=? 8)%nat) eqn:E; cbn [snd gprs xmms].
    + apply andb_prop in E. destruct E as [E _]. apply Nat.leb_le in E. lia.
    + rewrite (proj2 (Nat.leb_le (xmms u + 0) 8)), andb_true_r in E by lia. apply Nat.leb_gt in E. lia.
Qed.

(** The parameter DeclareExternFunctions gives. *)
Definition declared (vl : bool) (us' : Z) (ty : llvm_type) : param :=
  if vl && (6 <? us') then PByval (eightbytes ty) 1 else PValue ty.
Lemma place_declared t d p ty us u : seen t d p ty -> agrees us u -> 0 <= us -> pointer_to_view t = false ->
  places_as p (declared (viewlike d) (us + request_registers d) ty) u.
Proof.
  intros S [X A] P N. rewrite (request_seen _ _ _ _ S). unfold declared. destruct S.
  - rewrite H1, N. cbn [andb]. apply place_int; auto.
  - rewrite H1. apply place_int; auto.
  - rewrite H0. apply place_float. lia.
  - rewrite H0. apply place_long.
  - rewrite H0. cbn [andb eightbytes]. destruct (Z.ltb_spec 6 (us + 2)).
    + apply place_spilled. lia.
    + apply place_pair; auto. lia.
  - rewrite H0. cbn [andb eightbytes]. destruct (Z.ltb_spec 6 (us + 2)).
    + apply place_spilled. lia.
    + apply place_pair; auto. lia.
Qed.

Lemma not_void t d p ty : seen t d p ty -> ty <> TVoid.
Proof. intros []; discriminate. Qed.

Lemma param_type_seen pre post t d p ty : seen t d p ty ->
  param_type (pre ++ d :: post) (length pre) d =
  Ret (ty, if viewlike d && (6 <? used_registers (pre ++ [d])) then TPtr else ty).
Proof.
  intros S. unfold param_type. rewrite (get_type_seen _ _ _ _ S). cbn [obind].
  rewrite by_value_at. pose proof (not_void _ _ _ _ S). destruct ty; congruence || reflexivity.
Qed.

(** ** Whole lists *)
Lemma classes_cons t ts ps : classes (t :: ts) = Some ps ->
  exists p ps', abi_class t = Some p /\ classes ts = Some ps' /\ ps = p :: ps'.
Proof.
  cbn [classes]. destruct (abi_class t) as [p|]; [|discriminate].
  destruct (classes ts) as [ps'|]; [|discriminate]. intros [= <-]. eauto.
Qed.

Section Walk.
(** What is declared for argument [d] of type [t], after [pre]. *)
Variable A : Type.
Variable f : list dtype -> nat -> dtype -> outcome A.
Variable q : A -> param.
Variable good : cpptype -> A -> Prop.
Variable cond : cpptype -> Prop.
Hypothesis f_ok : forall pre post t d p ty us u,
  seen t d p ty -> cond t -> agrees us u -> 0 <= us ->
  us = used_registers pre -> used_registers (pre ++ [d]) = us + request_registers d ->
  exists a, f (pre ++ d :: post) (length pre) d = Ret a /\ places_as p (q a) u /\ good t a.

Lemma walk ts : forall pre ps u,
  Forall sup ts -> classes ts = Some ps -> Forall cond ts ->
  Z.of_nat (length pre + length ts) < 2 ^ 30 -> agrees (used_registers pre) u ->
  exists l, map_args (f (pre ++ map get_dtype ts)) (length pre) (map get_dtype ts) = Ret l /\
    llvm_places (map q l) u = Some (abi_places ps u) /\ Forall2 good ts l.
Proof.
  induction ts as [|t ts IH]; intros pre ps u Hs Hc Hp Hl Ha.
  - injection Hc as <-. exists []. repeat split; constructor.
  - destruct (classes_cons _ _ _ Hc) as (p & ps' & E1 & E2 & ->).
    inversion_clear Hs as [|? ? Hs1 Hs2]. inversion_clear Hp as [|? ? Hp1 Hp2].
    cbn [length] in Hl.
    destruct (seen_all t p Hs1 E1) as (ty & S).
    assert (Hu : used_registers (pre ++ [get_dtype t]) = used_registers pre + request_registers (get_dtype t)).
    { apply used_step. rewrite app_length. cbn [length]. lia. }
    assert (H0 : 0 <= used_registers pre) by (apply used_bounds; lia).
    destruct (f_ok pre (map get_dtype ts) t (get_dtype t) p ty _ u S Hp1 Ha H0 eq_refl Hu) as (a & F1 & F2 & F3).
    destruct (IH (pre ++ [get_dtype t]) ps' (snd (abi_place p u)) Hs2 E2 Hp2) as (l & L1 & L2 & L3).
    + rewrite app_length. cbn [length]. lia.
    + rewrite Hu. now apply (agrees_step t _ _ ty).
    + exists (a :: l). cbn [map map_args]. rewrite F1. cbn [obind].
      rewrite app_length, <- app_assoc in L1. cbn [length app] in L1. rewrite Nat.add_1_r in L1.
      rewrite L1. cbn [obind]. split; [reflexivity|]. split; [|constructor; assumption].
      cbn [llvm_places abi_places]. rewrite F2. destruct (abi_place p u) as [pl u']. cbn [snd] in L2.
      rewrite L2. reflexivity.
Qed.
End Walk.

Lemma agrees_0 : agrees 0 none_used.
Proof. unfold agrees. cbn. lia. Qed.

Definition no_pointer_to_view (ts : list cpptype) : Prop := Forall (fun t => pointer_to_view t = false) ts.

Lemma abi_classes ts pl : abi ts = Some pl -> exists ps, classes ts = Some ps /\ pl = abi_places ps none_used.
Proof. unfold abi. destruct (classes ts) as [ps|]; [|discriminate]. intros [= <-]. eauto. Qed.

Lemma declare_ok ts pl : Forall sup ts -> abi ts = Some pl -> no_pointer_to_view ts ->
  Z.of_nat (length ts) < 2 ^ 30 ->
  exists ps, declare_function (map get_dtype ts) = Ret ps /\ llvm_places ps none_used = Some pl.
Proof.
  intros Hs Ha Hp Hl. destruct (abi_classes _ _ Ha) as (cs & Hc & ->).
  destruct (walk param (fun args i d => do! (t, pt) <- param_type args i d;
      Ret (if pass_arg_by_value args i then PByval (eightbytes t) 1 else PValue pt)) (fun a => a) (fun _ _ => True)
      (fun t => pointer_to_view t = false))
    with (ts := ts) (pre := @nil dtype) (ps := cs) (u := none_used) as (l & L1 & L2 & _).
  - intros pre post t d p ty us u S N A P E1 E2.
    rewrite (param_type_seen _ _ _ _ _ _ S), by_value_at. cbn [obind].
    eexists. split; [reflexivity|]. split; [|exact I].
    rewrite E2. pose proof (place_declared _ _ _ _ _ _ S A P N) as Q. unfold declared in Q.
    destruct (viewlike d && (6 <? us + request_registers d)); exact Q.
  - assumption.
  - assumption.
  - assumption.
  - cbn [length]. lia.
  - apply agrees_0.
  - exists l. rewrite map_id in L2. split; [exact L1|exact L2].
Qed.

(** The parameter DefineFunction gives. *)
Lemma place_defined al t d p ty us u : seen t d p ty -> agrees us u -> 0 <= us -> al = 1%nat \/ t <> CBase 17 ->
  viewlike d && (6 <? us + request_registers d) = true -> ty <> TPtr ->
  places_as p (PByval (eightbytes ty) (type_align al ty)) u.
Proof.
  intros S [X A] P N B T. rewrite (request_seen _ _ _ _ S) in B. apply andb_prop in B. destruct B as [B1 B2].
  apply Z.ltb_lt in B2. destruct S; try congruence.
  - cbn [eightbytes type_align]. apply place_spilled. lia.
  - cbn [eightbytes type_align]. destruct N as [->|N]; [|congruence]. apply place_spilled. lia.
Qed.

Lemma type_eqb_refl t : llvm_type_eqb t t = true.
Proof. destruct t; reflexivity. Qed.

Lemma is_ptr_to_seen f t d p ty : seen t d p ty -> exists b, is_ptr_to f d = Ret b /\ (b = true -> ty = TPtr).
Proof.
  unfold is_ptr_to. intros [ ].
  - rewrite H. destruct H0 as (e & ->). cbn [obind]. eauto.
  - rewrite H. exists false. split; [reflexivity|discriminate].
  - rewrite H1. exists false. split; [reflexivity|discriminate].
  - rewrite H1. exists false. split; [reflexivity|discriminate].
  - rewrite H1. exists false. split; [reflexivity|discriminate].
  - rewrite H1. exists false. split; [reflexivity|discriminate].
Qed.

Lemma viewlike_order d : is_simd_vector d || is_string_view d || is_std_string_view d || is_absl_span d = viewlike d.
Proof.
  unfold viewlike. destruct (is_simd_vector d), (is_string_view d), (is_std_string_view d), (is_absl_span d); reflexivity.
Qed.

Lemma define_ok al ts pl : Forall sup ts -> abi ts = Some pl -> no_pointer_to_view ts ->
  Z.of_nat (length ts) < 2 ^ 30 -> al = 1%nat \/ ~ In (CBase 17) ts ->
  exists ps, define_function al (map get_dtype ts) = Ret ps /\ llvm_places (map fst ps) none_used = Some pl /\
    Forall (fun q => snd q = false) ps.
Proof.
  intros Hs Ha Hp Hl Hal. destruct (abi_classes _ _ Ha) as (cs & Hc & ->).
  destruct (walk (param * bool) (fun args i d => do! (t, pt) <- param_type args i d;
    do! ctx <- is_ptr_to DATA_CONTEXT d;
    Ret (if ctx then (PValue pt, false)
         else if negb (llvm_type_eqb t pt) then (PByval (eightbytes t) (type_align al t), false)
         else if llvm_type_eqb pt TPtr &&
                 (is_simd_vector d || is_string_view d || is_std_string_view d || is_absl_span d)
         then (PValue pt, true)
         else (PValue pt, false))) fst (fun _ q => snd q = false)
      (fun t => pointer_to_view t = false /\ (al = 1%nat \/ t <> CBase 17)))
    with (ts := ts) (pre := @nil dtype) (ps := cs) (u := none_used) as (l & L1 & L2 & L3).
  - intros pre post t d p ty us u S [N1 N2] A P E1 E2.
    rewrite (param_type_seen _ _ _ _ _ _ S). cbn [obind].
    destruct (is_ptr_to_seen DATA_CONTEXT _ _ _ _ S) as (b & -> & B). cbn [obind].
    rewrite E2, viewlike_order. eexists. split; [reflexivity|].
    pose proof (place_declared _ _ _ _ _ _ S A P N1) as Q. unfold declared in Q.
    destruct (viewlike d && (6 <? us + request_registers d)) eqn:V.
    + assert (T : ty <> TPtr).
      { intros ->. apply andb_prop in V. destruct V as [V _]. inversion S; subst; congruence. }
      destruct b; [exfalso; auto|].
      assert (llvm_type_eqb ty TPtr = false) as -> by (destruct ty; (reflexivity || congruence)).
      cbn [negb fst snd]. split; [|reflexivity]. now apply (place_defined al t d p ty us).
    + rewrite type_eqb_refl. cbn [negb].
      destruct b; [cbn [fst snd]; auto|].
      destruct (llvm_type_eqb ty TPtr && viewlike d) eqn:W; cbn [fst snd]; [|auto]. exfalso.
      apply andb_prop in W. destruct W as [W1 W2]. inversion S; subst; try discriminate. congruence.
  - assumption.
  - assumption.
  - apply Forall_forall. intros t T. split; [exact (proj1 (Forall_forall _ _) Hp t T)|].
    destruct Hal; [auto|right; intros ->; contradiction].
  - cbn [length]. lia.
  - apply agrees_0.
  - exists l. split; [exact L1|]. split; [exact L2|]. clear -L3. induction L3; constructor; auto.
Qed.

(** ** Which views are spilled *)
Lemma by_value_walk ts : forall pre ps u i t l,
  Forall sup ts -> classes ts = Some ps -> Z.of_nat (length pre + length ts) < 2 ^ 30 ->
  agrees (used_registers pre) u -> nth_error ts i = Some t -> view t = true ->
  nth_error (abi_places ps u) i = Some l ->
  if pass_arg_by_value (pre ++ map get_dtype ts) (length pre + i)
  then exists s, l = [Stack s; Stack (S s)]
  else exists g, (g < 5)%nat /\ l = [Gpr g; Gpr (S g)].
Proof.
  induction ts as [|t ts IH]; intros pre ps u i t' l Hs Hc Hl Ha Ht Hv Hn; [destruct i; discriminate|].
  destruct (classes_cons _ _ _ Hc) as (p & ps' & E1 & E2 & ->).
  inversion_clear Hs as [|? ? Hs1 Hs2]. cbn [length] in Hl.
  destruct (seen_all t p Hs1 E1) as (ty & SE).
  assert (Hu : used_registers (pre ++ [get_dtype t]) = used_registers pre + request_registers (get_dtype t)).
  { apply used_step. rewrite app_length. cbn [length]. lia. }
  assert (H0 : 0 <= used_registers pre) by (apply used_bounds; lia).
  cbn [map]. cbn [abi_places] in Hn. destruct (abi_place p u) as [pl u'] eqn:Ep.
  destruct i as [|i].
  - injection Ht as <-. injection Hn as <-. rewrite Nat.add_0_r, by_value_at, Hu.
    rewrite (request_seen _ _ _ _ SE). destruct Ha as [X A].
    assert (P : p = Words [INTEGER; INTEGER] /\ viewlike (get_dtype t) = true /\
        match ty with TPtr | TInt => 1 | TStruct2 | TI128 => 2 | _ => 0 end = 2).
    { inversion SE; subst; try congruence; auto. }
    destruct P as (-> & -> & ->). cbn [andb abi_place] in *.
    cbv [count_class] in Ep. cbn [filter is_INTEGER negb length] in Ep.
    rewrite (proj2 (Nat.leb_le (xmms u + 0) 8)), andb_true_r in Ep by lia.
    destruct (Z.ltb_spec 6 (used_registers pre + 2)).
    + rewrite (proj2 (Nat.leb_gt (gprs u + 2) 6)) in Ep by lia. injection Ep as <- <-. cbn. eauto.
    + rewrite (proj2 (Nat.leb_le (gprs u + 2) 6)) in Ep by lia. injection Ep as <- <-. cbn.
      exists (gprs u). split; [lia|reflexivity].
  - specialize (IH (pre ++ [get_dtype t]) ps' u' i t' l Hs2 E2).
    rewrite app_length, <- app_assoc in IH. cbn [length app] in IH.
    replace (length pre + S i)%nat with (length pre + 1 + i)%nat by lia. apply IH; auto; try lia.
    rewrite Hu. replace u' with (snd (abi_place p u)) by (rewrite Ep; reflexivity).
    now apply (agrees_step t _ _ ty).
Qed.

Lemma by_value_iff ts pl i t : Forall sup ts -> abi ts = Some pl -> Z.of_nat (length ts) < 2 ^ 30 ->
  nth_error ts i = Some t -> view t = true ->
  if pass_arg_by_value (map get_dtype ts) i
  then exists s, nth_error pl i = Some [Stack s; Stack (S s)]
  else exists g, nth_error pl i = Some [Gpr g; Gpr (S g)].
Proof.
  intros Hs Ha Hl Ht Hv. destruct (abi_classes _ _ Ha) as (cs & Hc & ->).
  assert (L : length (abi_places cs none_used) = length ts).
  { clear -Hc. revert cs Hc. generalize none_used. induction ts as [|t ts IH]; intros u cs Hc.
    - injection Hc as <-. reflexivity.
    - destruct (classes_cons _ _ _ Hc) as (p & ps' & E1 & E2 & ->). cbn [abi_places].
      destruct (abi_place p u). cbn [length]. f_equal. now apply IH. }
  destruct (nth_error (abi_places cs none_used) i) as [l|] eqn:E.
  2: { apply nth_error_None in E. assert (nth_error ts i <> None) by congruence.
       apply nth_error_Some in H. lia. }
  pose proof (by_value_walk ts [] cs none_used i t l Hs Hc Hl agrees_0 Ht Hv E) as Q.
  cbn [length app] in Q. rewrite Nat.add_0_l in Q. destruct (pass_arg_by_value _ _).
  - destruct Q as (s & ->). eauto.
  - destruct Q as (g & _ & ->). eauto.
Qed.

(** ** Member functions *)
Lemma map_args_ext {A} (f g : nat -> dtype -> outcome A) l : forall i,
  (forall j d, nth_error l j = Some d -> f (i + j)%nat d = g (i + j)%nat d) -> map_args f i l = map_args g i l.
Proof.
  induction l as [|d l IH]; intros i H; [reflexivity|]. cbn [map_args].
  pose proof (H O d eq_refl) as H0. rewrite Nat.add_0_r in H0. rewrite H0.
  rewrite (IH (S i)); [reflexivity|]. intros j e E. rewrite Nat.add_succ_comm. now apply H.
Qed.

Lemma map_args_nth {A} (f : nat -> dtype -> outcome A) l : forall i r j d, map_args f i l = Ret r ->
  nth_error l j = Some d -> exists a, nth_error r j = Some a /\ f (i + j)%nat d = Ret a.
Proof.
  induction l as [|x l IH]; intros i r j d H N; [destruct j; discriminate|]. cbn [map_args] in H.
  destruct (f i x) as [a| | |] eqn:E; try discriminate. cbn [obind] in H.
  destruct (map_args f (S i) l) as [r'| | |] eqn:E'; try discriminate. injection H as <-.
  destruct j as [|j].
  - injection N as <-. exists a. rewrite Nat.add_0_r. auto.
  - destruct (IH _ _ _ _ E' N) as (b & B1 & B2). exists b. split; [exact B1|]. now rewrite <- Nat.add_succ_comm.
Qed.

Lemma member_ok ts pl : Forall sup ts -> abi ts = Some pl -> no_pointer_to_view ts ->
  Z.of_nat (length ts) < 2 ^ 30 ->
  (forall i t s, nth_error ts i = Some t -> view t = true -> nth_error pl i <> Some [Stack s; Stack (S s)]) ->
  exists ps, declare_member (map get_dtype ts) = Ret ps /\ llvm_places ps none_used = Some pl.
Proof.
  intros Hs Ha Hp Hl Hf. destruct (declare_ok ts pl Hs Ha Hp Hl) as (ps & P1 & P2).
  exists ps. split; [|exact P2]. rewrite <- P1. unfold declare_member, declare_function.
  apply map_args_ext. intros j d E. rewrite Nat.add_0_l.
  destruct (param_type (map get_dtype ts) j d) as [[t pt]| | |]; [|reflexivity..]. cbn [obind].
  assert (pass_arg_by_value (map get_dtype ts) j = false) as ->; [|reflexivity].
  rewrite nth_error_map in E. destruct (nth_error ts j) as [c|] eqn:C; [|discriminate]. injection E as <-.
  destruct (view c) eqn:V.
  - pose proof (by_value_iff ts pl j c Hs Ha Hl C V) as Q. destruct (pass_arg_by_value _ _); [|reflexivity].
    destruct Q as (s & Q). destruct (Hf j c s C V Q).
  - unfold pass_arg_by_value. rewrite nth_error_map, C. cbn [option_map]. fold (viewlike (get_dtype c)).
    assert (S : sup c) by (exact (proj1 (Forall_forall _ _) Hs c (nth_error_In _ _ C))).
    destruct (abi_classes _ _ Ha) as (cs & Hc & _).
    assert (exists p, abi_class c = Some p) as (p & Ep).
    { clear -Hc C. revert cs j Hc C. induction ts as [|t ts IH]; intros cs j Hc C; [destruct j; discriminate|].
      destruct (classes_cons _ _ _ Hc) as (p & ps' & E1 & E2 & ->). destruct j as [|j]; [injection C as <-; eauto|].
      eapply IH; eauto. }
    destruct (seen_all c p S Ep) as (ty & SE). pose proof (proj1 (Forall_forall _ _) Hp c (nth_error_In _ _ C)) as N.
    cbn beta in N. inversion SE; subst; try congruence; try (discriminate V);
      match goal with H : viewlike _ = _ |- _ => rewrite H end; try rewrite N; reflexivity.
Qed.

Lemma llvm_places_nth ps : forall u pl i q l, llvm_places ps u = Some pl -> nth_error ps i = Some q ->
  nth_error pl i = Some l -> exists u1 u2, llvm_place q u1 = Some (l, u2).
Proof.
  induction ps as [|p ps IH]; intros u pl i q l H Hq Hl; [destruct i; discriminate|]. cbn [llvm_places] in H.
  destruct (llvm_place p u) as [[l0 u0]|] eqn:E; [|discriminate].
  destruct (llvm_places ps u0) as [r|] eqn:R; [|discriminate]. injection H as <-.
  destruct i as [|i].
  - injection Hq as <-. injection Hl as <-. eauto.
  - eapply IH; eauto.
Qed.

Lemma member_bad ts pl ps i t s : Forall sup ts -> abi ts = Some pl -> Z.of_nat (length ts) < 2 ^ 30 ->
  nth_error ts i = Some t -> view t = true -> nth_error pl i = Some [Stack s; Stack (S s)] ->
  declare_member (map get_dtype ts) = Ret ps -> llvm_places ps none_used <> Some pl.
Proof.
  intros Hs Ha Hl Ht Hv Hi Hd E.
  pose proof (by_value_iff ts pl i t Hs Ha Hl Ht Hv) as Q.
  destruct (pass_arg_by_value (map get_dtype ts) i) eqn:B; [|destruct Q as (g & Q); congruence].
  unfold declare_member in Hd.
  assert (N : nth_error (map get_dtype ts) i = Some (get_dtype t)) by (rewrite nth_error_map, Ht; reflexivity).
  destruct (map_args_nth _ _ _ _ _ _ Hd N) as (q & Q1 & Q2). rewrite Nat.add_0_l in Q2.
  unfold param_type in Q2. rewrite B in Q2. destruct (get_type (get_dtype t)) as [[ty|]| | |]; try discriminate.
  cbn [obind] in Q2.
  assert (Q3 : Ret (PValue TPtr) = Ret q) by (destruct ty; (discriminate Q2 || exact Q2)).
  injection Q3 as <-.
  destruct (llvm_places_nth _ _ _ _ _ _ E Q1 Hi) as (u1 & u2 & P). cbn [llvm_place] in P.
  destruct (gprs u1 <? 6)%nat; discriminate.
Qed.

(** ** Pointers to views *)
Lemma define_pointer_bad al ts ps i t : Forall sup ts -> nth_error ts i = Some t -> pointer_to_view t = true ->
  define_function al (map get_dtype ts) = Ret ps -> exists q, nth_error ps i = Some (q, true).
Proof.
  intros Hs Ht Hp Hd. unfold define_function in Hd.
  assert (N : nth_error (map get_dtype ts) i = Some (get_dtype t)) by (rewrite nth_error_map, Ht; reflexivity).
  destruct (map_args_nth _ _ _ _ _ _ Hd N) as (q & Q1 & Q2). rewrite Nat.add_0_l in Q2.
  pose proof (proj1 (Forall_forall _ _) Hs t (nth_error_In _ _ Ht)) as Hst. cbn beta in Hst.
  destruct t as [ |[ | |k t| | | | ]| | | | | ]; try discriminate.
  assert (V : viewlike (get_dtype (CPtr (CSeq k t))) = true) by (rewrite viewlike_ptr by exact Hst; exact Hp).
  unfold param_type in Q2.
  assert (G : get_type (get_dtype (CPtr (CSeq k t))) = Ret (Some TPtr)).
  { unfold get_type. rewrite (is_ptr_get LIM) by (exact LIM_ok || exact Hst). cbn [isP].
    destruct (ptr_to_total (CPtr (CSeq k t)) Hst) as (e & ->). reflexivity. }
  rewrite G in Q2. cbn [obind] in Q2.
  assert (C : is_ptr_to DATA_CONTEXT (get_dtype (CPtr (CSeq k t))) = Ret false).
  { unfold is_ptr_to. rewrite (is_ptr_get LIM) by (exact LIM_ok || exact Hst). cbn [isP].
    destruct (compound t) eqn:Co.
    - rewrite ptr_to_compound_seq by assumption. cbn [obind]. f_equal. unfold is_data, is_fundamental.
      pose proof (compound_get LIM t LIM_ok Hst) as CG. rewrite Co in CG. unfold is_ptr, is_collection in CG.
      destruct (ptr_bit (ctrl_of (get_dtype t)) =? 0) eqn:P0; [|reflexivity].
      apply Z.eqb_eq in P0. rewrite P0 in CG. cbn [Z.eqb orb] in CG. rewrite negb_true_iff in CG. rewrite CG.
      reflexivity.
    - rewrite ptr_to_CPtr; [|assumption|exact Co]. cbn [obind].
      rewrite (shape_seq LIM) by (exact LIM_ok || exact Hst). destruct k; reflexivity. }
  rewrite C in Q2. cbn [obind] in Q2. rewrite viewlike_order, V in Q2.
  assert (Q3 : Ret (PValue TPtr, true) = Ret q) by (destruct (pass_arg_by_value _ _); exact Q2).
  injection Q3 as <-. eauto.
Qed.
