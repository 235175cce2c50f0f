(** Proofs for C90: chains on objects with a schema that are not accepted are refused with an error. *)
From Coq Require Import Ascii String List Bool Arith ZArith Lia.
Import ListNotations.
From Verif Require Import Base Lexer_Model Lexer_Proofs DType_Spec DType_Model DType_Proofs DynObject_Model DynObject_Spec DynObject_Proofs Function_Model
  Names_Spec Names_Model Names_Proofs Members_Spec Members_Model Members_Proofs Access_Spec Access_Model Access_Proofs AccessTotal_Spec AccessTotal_Proofs
  ObjField_Spec ObjField_Model ObjField_Proofs.
Local Open Scope Z_scope.

(** The names of functions for plain types. *)
Definition small (d : dtype) : Prop := elems_of d = None /\ 0 <= t0 (ctrl_of d) < 2047 /\ 0 <= t1 (ctrl_of d) < 2047.
Lemma small_plain t : plain t -> small (get_dtype t).
Proof.
  intros P. destruct (plain_shape t P) as (A & B & C & D). unfold okc, DATA_COMPLEX_OBJECT in B. repeat split; auto; try lia.
Qed.
Lemma small_elem d : small d -> small (elem_of d).
Proof.
  intros (A & B & C). destruct d as [c e]. cbn [elems_of ctrl_of] in *. subst e. unfold elem_of. cbn [elems_of ctrl_of].
  unfold small. cbn [elems_of ctrl_of]. destruct (is_map _ || is_unordered_map _); cbn [set_container set_t0 t0 t1]; [|auto].
  rewrite wrapu_id; [auto|]. unfold in_u. pows. lia.
Qed.
Lemma small_ptr d : small d -> exists b, ptr_to d = Ret b.
Proof.
  intros (A & B & C). destruct d as [c e]. cbn [elems_of ctrl_of] in *. subst e. unfold ptr_to, is_complex. cbn [ctrl_of elems_of].
  destruct (Z.eqb_spec (t0 c) DATA_COMPLEX_OBJECT) as [Q|Q]; [unfold DATA_COMPLEX_OBJECT in Q; revert Q; pows; lia|]. eexists; reflexivity.
Qed.
Lemma small_name F n d : small d -> exists s, function_name F n d = Ret s.
Proof.
  intros S. unfold function_name, type_string. destruct (small_ptr _ (small_elem _ (small_elem _ S))) as [b ->]. cbn [obind].
  destruct (is_empty _); [eexists; reflexivity|]. destruct (is_collection _); [|eexists; reflexivity].
  destruct (_ || _ || _); [|eexists; reflexivity]. destruct (is_empty _); eexists; reflexivity.
Qed.

Section Total.
Context {E : Type}.
Variable arg_ty : E -> option dtype.
Variable arg_value : E -> mem -> outcome (dtype * Z).
Variable var : text -> option (dtype * Z).
Variable text_word : text -> Z.
Variable conv : dtype -> dtype -> Z -> mem -> outcome Z.
Variable ext : Z -> list Z -> mem -> outcome (Z * mem).
Variable json : bool -> desc.
Variable F : factory.
Variable os : list offer.
Notation R := (fst (offer_members os [])).
Hypothesis OS : Forall (ordinary plain) os.
Hypothesis JNAME : forall b, d_name (json b) = json_name b.
Hypothesis JRET : forall b, d_return (json b) = get_dtype (CPtr (CBase 20)).
Hypothesis SARG : forall e m d w, arg_value e m = Ret (d, w) -> sized d.
Hypothesis SVAR : forall x d w, var x = Some (d, w) -> sized d.
Hypothesis SJSON : forall b, Forall sized (d_args (json b)).
Hypothesis SMETH : forall t n b ret args f, In (OMethod t n b ret args f) os -> Forall (supported 2047) args.
Hypothesis DARG : forall e m, defined (arg_value e m).
Hypothesis DCONV : forall d p w m, defined (conv d p w m).
Hypothesis DEXT : forall f ws m, defined (ext f ws m).
Hypothesis TARG : forall e d, arg_ty e = Some d -> exists u, plain u /\ d = get_dtype u.
Notation validate := (svalidate_access arg_ty var json F R).
Notation known := (known json F os).

Lemma svalidate_defined t sch a : plain t -> fine sch -> defined (validate (Tag (get_dtype t) sch) a).
Proof.
  intros P FI. destruct (dyn_some t P) as [d D]. destruct (checked_ptr t P) as [PT PP].
  pose proof (fun a => validate_access_defined arg_ty var json F os OS t a P) as VD.
  destruct a as [n|n es|k]; cbn [svalidate_access].
  - apply defined_bind; [|intros [[? ?] ?] _; exact I]. unfold svalidate_field. cbn [g_ty g_schema]. rewrite D. cbn [obind].
    destruct (if d then sch else None) as [s|] eqn:DS.
    + assert (sch = Some s) as -> by (destruct d; [auto|discriminate DS]). destruct (get_field s n) as [f|] eqn:G; [|exact I].
      destruct (FI n f G) as (T & PL & _ & _ & _ & FE & _ & _). apply defined_bind; [|intros; exact I]. destruct (s_table s); [|exact I].
      destruct (small_name F get_column (elem_of (f_dtype f))) as [x ->]; [rewrite FE; cbn [f_dtype]; apply small_elem; now apply small_plain|].
      cbn [obind]. rewrite PT. exact I.
    + apply defined_bind; [|intros [? ?] _; exact I]. specialize (VD (AField n)). cbn [Access_Model.validate_access] in VD.
      destruct (validate_field R (get_dtype t) n) as [[? ?]| | |]; [exact I|exact I|exact VD|exact VD].
  - apply defined_bind; [|intros [[? ?] ?] _; exact I]. unfold svalidate_call. cbn [g_ty g_schema]. rewrite D. cbn [obind].
    destruct (forallb _ es); [|exact I]. apply defined_bind.
    + destruct (_ && _); [|exact I]. destruct es as [|e [|e' es]]; try exact I. destruct (arg_ty e) as [d0|] eqn:A; [|exact I].
      destruct (TARG e d0 A) as (u & PU & ->). destruct (small_name F n (elem_of (get_dtype u))) as [x ->]; [apply small_elem; now apply small_plain|exact I].
    + intros n' _. apply defined_bind; [|intros [[? ?] ?] _; exact I]. specialize (VD (ACall n' es)). cbn [Access_Model.validate_access] in VD.
      destruct (validate_call arg_ty R (get_dtype t) n' es) as [[[? ?] ?]| | |]; [exact I|exact I|exact VD|exact VD].
  - apply defined_bind; [|intros [[[? ?] ?] ?] _; exact I]. cbn [g_ty]. specialize (VD (AIndex k)). cbn [Access_Model.validate_access] in VD.
    destruct (validate_index var json F R (get_dtype t) k) as [[[[? ?] ?] ?]| | |]; [exact I|exact I|exact VD|exact VD].
Qed.
(** Fields that the checks resolved. *)
Definition field_ok (r : sresolved (E := E)) : Prop :=
  match fst r with RField mb => exists f, m_field mb = Some (get_dtype f) /\ plain f /\ f <> CBase 3 | _ => True end.
Lemma struct_field t n T r : plain t -> validate_field R (get_dtype t) n = Ret (T, r) -> forall sch, field_ok (r, sch).
Proof.
  intros P V sch. unfold validate_field in V. destruct (checked_ptr t P) as [PT PP]. rewrite PT in V. cbn [obind] in V.
  destruct (get_member R (get_dtype (pointee t)) n) as [mb|] eqn:G; [|discriminate V]. destruct (m_field mb) as [d|] eqn:MF; [|discriminate V].
  injection V as <- <-. cbn. destruct (found os OS _ _ _ PP G) as [FF _]. destruct (FF _ MF) as (f & off & H & -> & O & PF & NB & OFF).
  exists f. auto.
Qed.
Lemma svalidate_field_ok t sch a g r us ns : plain t -> fine sch -> validate (Tag (get_dtype t) sch) a = Ret (g, r, us, ns) -> field_ok r.
Proof.
  intros P FI V. destruct a as [n|n es|k]; cbn [svalidate_access] in V.
  - unfold svalidate_field in V. cbn [g_ty g_schema] in V. destruct (is_dyn_ptr (get_dtype t)) as [d| | |]; try discriminate V. cbn [obind] in V.
    destruct (if d then sch else None) as [s|] eqn:DS.
    + assert (sch = Some s) as -> by (destruct d; [auto|discriminate DS]). destruct (get_field s n) as [f|] eqn:G; [|discriminate V].
      destruct (FI n f G) as (T & PL & NB & _ & _ & FE & _ & _).
      match type of V with obind (obind ?x _) _ = _ => destruct x as [u1| | |]; try discriminate V end. cbn [obind] in V. injection V as <- <- <- <-.
      cbn. exists T. rewrite FE. auto.
    + destruct (validate_field R (get_dtype t) n) as [[T r0]| | |] eqn:VF; try discriminate V. cbn [obind] in V. injection V as <- <- <- <-.
      exact (struct_field _ _ _ _ P VF _).
  - unfold svalidate_call in V. cbn [g_ty g_schema] in V. destruct (is_dyn_ptr (get_dtype t)) as [d| | |]; try discriminate V. cbn [obind] in V.
    destruct (forallb _ es) eqn:FA; [|discriminate V].
    match type of V with obind (obind ?x _) _ = _ => destruct x as [n'| | |]; try discriminate V end. cbn [obind] in V.
    unfold validate_call in V. rewrite FA in V. destruct (ptr_to (get_dtype t)); try discriminate V. cbn [obind] in V.
    destruct (get_member _ _ _) as [mb|]; [|discriminate V]. destruct (m_func mb); [|discriminate V]. cbn [obind] in V. injection V as <- <- <- <-. exact I.
  - cbn [g_ty] in V. destruct (validate_index var json F R (get_dtype t) k) as [[[[T r0] u] name]| | |] eqn:VI; try discriminate V. cbn [obind] in V. injection V as <- <- <- <-.
    assert (validate_access arg_ty var json F R (get_dtype t) (AIndex k) = Ret (T, r0, [u], [name])) as VA by (cbn [validate_access]; rewrite VI; reflexivity).
    destruct (access_shape arg_ty var json F R (get_dtype t) (AIndex k) T r0 [u] [name] VA) as [_ S]. destruct (S eq_refl) as [k' ->]. exact I.
Qed.
Lemma svalidate_chain_defined : forall l t sch, plain t -> fine sch -> defined (svalidate_chain arg_ty var json F R (Tag (get_dtype t) sch) l) /\
  forall g rs us ns, svalidate_chain arg_ty var json F R (Tag (get_dtype t) sch) l = Ret (g, rs, us, ns) -> Forall field_ok rs.
Proof.
  induction l as [|a l IH]; intros t sch P FI; [split; [exact I|intros g rs us ns [= <- <- <- <-]; constructor]|]. split.
  - cbn [svalidate_chain]. apply defined_bind; [now apply svalidate_defined|]. intros [[[g1 r] us] ns] A.
    destruct (svalidate_ok arg_ty var json F os OS _ _ _ _ _ _ _ P FI A) as (_ & _ & (t1 & P1 & G1) & FI1).
    destruct g1 as [d1 s1]; cbn [g_ty g_schema] in *. subst d1. destruct (IH t1 s1 P1 FI1) as [D _].
    apply defined_bind; [exact D|]. intros [[[? ?] ?] ?] _. exact I.
  - intros g rs us ns V. destruct (svalidate_cons _ _ _ _ _ _ _ _ _ _ _ _ V) as (g1 & r & us1 & ns1 & rs2 & us2 & ns2 & A & C & -> & -> & ->).
    destruct (svalidate_ok arg_ty var json F os OS _ _ _ _ _ _ _ P FI A) as (_ & _ & (t1 & P1 & G1) & FI1).
    pose proof (svalidate_field_ok _ _ _ _ _ _ _ P FI A) as FO.
    destruct g1 as [d1 s1]; cbn [g_ty g_schema] in *. subst d1. destruct (IH t1 s1 P1 FI1) as [_ D]. constructor; [exact FO|exact (D _ _ _ _ C)].
Qed.
Lemma sbuild_defined X names idx v r m u : known X -> field_ok r -> plain u -> v_ty v = get_dtype u ->
  defined (sbuild_access arg_value var text_word conv ext F X names idx v r m) /\
  forall v' m', sbuild_access arg_value var text_word conv ext F X names idx v r m = Ret (v', m') -> exists u', plain u' /\ v_ty v' = get_dtype u'.
Proof.
  intros K FO P VT.
  assert (sized_params X) as SP by (exact (known_sized json F os OS SJSON SMETH X K)).
  destruct r as [[mb|n es mb|k] sch]; cbn [sbuild_access fst snd];
    [|apply (build_access_defined arg_value var text_word conv ext json F os OS JRET SARG SVAR SJSON SMETH DARG DCONV DEXT X names idx v _ m u); auto; exact I ..].
  destruct FO as (f & MF & PF & NB). rewrite MF. destruct (negb (is_ptr (v_ty v))) eqn:IP; [split; [exact I|discriminate]|].
  destruct (dyn_some u P) as [d D]. assert (is_dyn_ptr (v_ty v) = Ret d) as DV by (rewrite VT; exact D). rewrite DV. cbn [obind]. destruct (d && _) eqn:TB.
  - apply andb_prop in TB. destruct TB as [-> _]. pose proof (proj1 (dyn_ptr u true P D) eq_refl) as ->. 
    destruct (checked_ptr (CPtr dyn) P) as [PT _]. rewrite VT, PT. cbn [obind pointee].
    destruct (small_name F get_column (elem_of (get_dtype f))) as [x ->]; [apply small_elem; now apply small_plain|]. cbn [obind].
    rewrite dyn_name. cbn [obind].
    split; [|intros v' m' H; exact (call_type conv ext json F os OS JRET _ _ _ _ _ _ K H)].
    apply call_defined; auto. cbn [map fst]. constructor; [now apply plain_sized|]. constructor; [|constructor].
    exists (CBase DATA_U32). split; [cbn; unfold DATA_U32; lia|reflexivity].
  - cbn [Access_Model.build_access]. rewrite IP, MF.
    unfold get_struct_field. fold (field_is_value (get_dtype f)). destruct (field_kind f PF NB) as (FK1 & FK2 & FK3).
    destruct (field_type_ok f PF NB) as (FT & FG & FP). unfold field_type in FT. destruct (field_is_value (get_dtype f)).
    + rewrite (FK3 eq_refl). cbn [obind]. split; [exact I|]. intros v' m' [= <- <-]. exists f. auto.
    + cbn [obind]. split; [exact I|]. intros v' m' [= <- <-]. exists (CPtr f). split; [exact FT|]. cbn [v_ty]. symmetry. now apply FP.
Qed.
Lemma sbuild_chain_defined X names : known X -> forall rs idx v m u, Forall field_ok rs -> plain u -> v_ty v = get_dtype u ->
  defined (sbuild_chain arg_value var text_word conv ext F X names idx v rs m).
Proof.
  intros K. induction rs as [|r rs IH]; intros idx v m u RO P VT; [exact I|]. inversion RO; subst. cbn [sbuild_chain].
  destruct (sbuild_defined X names idx v r m u K H1 P VT) as [D T]. apply defined_bind; [exact D|].
  intros [v' m'] H. destruct (T _ _ H) as (u' & P' & VT'). eauto.
Qed.
Theorem schain_defined t sch w l m : plain t -> made sch -> defined (run_schain arg_ty arg_value var text_word conv ext json F R (get_dtype t) sch w l m).
Proof.
  intros P MD. pose proof (made_fine sch MD) as FI. unfold run_schain. destruct (svalidate_chain_defined l t sch P FI) as [D FO].
  apply defined_bind; [exact D|]. intros [[[g rs] us] ns] V.
  pose proof (svalidate_uses arg_ty var json F os OS _ _ _ _ _ _ _ P FI V) as U.
  destruct (externs_ret json F os OS us U []) as (X & EX & _). rewrite EX. cbn [obind].
  assert (known X) as K. { eapply externs_known; [exact JNAME|exact U| |exact EX]. intros s f X1. discriminate X1. }
  apply defined_bind; [|intros [? ?] _; exact I].
  apply (sbuild_chain_defined X ns K rs 0 _ m t); [exact (FO _ _ _ _ V)|exact P|reflexivity].
Qed.
End Total.

Theorem schain_error_iff E arg_ty (arg_value : E -> mem -> outcome (dtype * Z)) var text_word conv ext json F os :
  Forall (ordinary plain) os ->
  (forall b, d_name (json b) = json_name b) -> (forall b, d_return (json b) = get_dtype (CPtr (CBase 20))) ->
  (forall e m d w, arg_value e m = Ret (d, w) -> sized d) -> (forall x d w, var x = Some (d, w) -> sized d) ->
  (forall b, Forall sized (d_args (json b))) ->
  (forall t n b ret args f, In (OMethod t n b ret args f) os -> Forall (supported 2047) args) ->
  (forall d p w m, dtype_eqb d p = Ret true -> conv d p w m = Ret w) ->
  methods_apart (fun t => member_name F (get_dtype t)) json_name os ->
  (forall e m v, arg_value e m = Ret v -> arg_ty e <> None) ->
  gives_columns (fun t => member_name F (get_dtype t)) os ->
  (forall e m, defined (arg_value e m)) -> (forall d p w m, defined (conv d p w m)) -> (forall f ws m, defined (ext f ws m)) ->
  (forall e d, arg_ty e = Some d -> exists u, plain u /\ d = get_dtype u) ->
  forall t sch w l m, plain t -> made sch -> brackets_first l -> sorts_by_columns arg_ty l ->
  (run_schain arg_ty arg_value var text_word conv ext json F (fst (offer_members os [])) (get_dtype t) sch w l m = Err <->
   forall o, ~ ssteps os arg_ty arg_value (fun k _ => key_means var text_word k) conv ext (fun b => d_args (json b)) (fun b => d_func (json b)) (t, w, m, sch) l o).
Proof.
  intros OS JN JR SA SV SJ SM CONV APART CH COL DA DC DE TA t sch w l m P MD BF SC. split.
  - intros H [[[u x] m'] sch'] ST.
    destruct (schain_accepted arg_ty arg_value var text_word conv ext json F os OS JN JR SA SV SJ SM CONV APART CH COL t sch w l m u x m' sch' P (made_fine sch MD) BF ST) as (T' & v & R1 & _).
    congruence.
  - intros H. pose proof (schain_defined arg_ty arg_value var text_word conv ext json F os OS JN JR SA SV SJ SM DA DC DE TA t sch w l m P MD) as D.
    destruct (run_schain arg_ty arg_value var text_word conv ext json F (fst (offer_members os [])) (get_dtype t) sch w l m) as [[[T' v] m']| | |] eqn:RC; [|reflexivity|destruct D|destruct D].
    destruct (schain arg_ty arg_value var text_word conv ext json F os OS CONV APART JN JR COL t sch w l m T' v m' P (made_fine sch MD) BF SC RC) as (u & sch' & _ & ST & _).
    destruct (H _ ST).
Qed.
