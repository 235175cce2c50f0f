(** Proofs for C75: which chains are accepted, and that the others are refused with an error. *)
From Coq Require Import Ascii String List Bool Arith ZArith Lia.
Import ListNotations.
From Verif Require Import Base Lexer_Model Lexer_Proofs DType_Spec DType_Model DType_Proofs DynObject_Model Function_Model
  Names_Spec Names_Model Names_Proofs Members_Spec Members_Model Members_Proofs Access_Spec Access_Model Access_Proofs
  AccessTotal_Spec.
Local Open Scope Z_scope.

(** The name of a member of a plain type. *)
Lemma plain_member F t n : plain t -> isP t = false -> exists s, member_name F (get_dtype t) n = Ret s.
Proof.
  intros P N. destruct (plain_shape t P) as (A & B & C & D). unfold member_name.
  assert (exists s, type_string F (get_dtype t) = Ret s) as [s ->]; [|eexists; reflexivity].
  unfold type_string.
  assert (exists b, ptr_to (elem_of (get_dtype t)) = Ret b) as [b ->].
  { destruct (get_dtype t) as [c e]. cbn [elems_of ctrl_of] in *. subst e.
    assert (exists c', elem_of (DT c None) = DT c' None /\ t0 c' < 2047) as (c' & -> & K2).
    { unfold elem_of. cbn [elems_of ctrl_of]. eexists. split; [reflexivity|].
      destruct (is_map _ || is_unordered_map _); cbn [set_container set_t0 t0]; [|assumption].
      rewrite wrapu_id; [assumption|]. destruct B as (_ & _ & _ & B & _). unfold in_u, DATA_COMPLEX_OBJECT in *. pows. lia. }
    unfold ptr_to, is_complex. cbn [ctrl_of elems_of]. 
    destruct (Z.eqb_spec (t0 c') DATA_COMPLEX_OBJECT) as [Q|Q]; [unfold DATA_COMPLEX_OBJECT in Q; revert Q; pows; lia|]. eexists; reflexivity. }
  cbn [obind]. destruct (is_empty _); [eexists; reflexivity|]. destruct (is_collection _); [|eexists; reflexivity].
  destruct (_ || _ || _); [|eexists; reflexivity]. destruct (is_empty _); eexists; reflexivity.
Qed.

Lemma first_unique {A} (P : A -> Prop) l a b : first P l a -> first P l b -> a = b.
Proof.
  intros (l1 & l2 & -> & Pa & N) (k1 & k2 & E & Pb & M). revert k1 E M. induction l1 as [|x l1 IH]; intros [|y k1] E M; cbn in E; injection E as E1 E2.
  - exact E1.
  - subst y. inversion M; subst. contradiction.
  - subst x. inversion N; subst. contradiction.
  - subst y. inversion N; subst. inversion M; subst. eauto.
Qed.

Lemma sized_eqb a b : sized a -> sized b -> exists r, dtype_eqb a b = Ret r.
Proof. intros (t & T & ->) (u & U & ->). destruct (eqb_iff_same_up_to_lengths t u T U) as (r & -> & _). eauto. Qed.

Section Total.
Context {E : Type}.
Variable arg_ty : E -> option dtype.
Variable arg_value : E -> mem -> outcome (dtype * Z).
Variable var : text -> option (dtype * Z).
Variable text_word : text -> Z.
Variable conv : dtype -> dtype -> Z -> mem -> outcome Z.
Variable ext : Z -> list Z -> mem -> outcome (Z * mem).
Variable json : bool -> desc.
Variable F : factory.
Variable os : list offer.
Notation R := (fst (offer_members os [])).
Hypothesis OS : Forall (ordinary plain) os.
Hypothesis JNAME : forall b, d_name (json b) = json_name b.
Hypothesis JRET : forall b, d_return (json b) = get_dtype (CPtr (CBase 20)).
Hypothesis SARG : forall e m d w, arg_value e m = Ret (d, w) -> sized d.
Hypothesis SVAR : forall x d w, var x = Some (d, w) -> sized d.
Hypothesis SJSON : forall b, Forall sized (d_args (json b)).
Hypothesis SMETH : forall t n b ret args f, In (OMethod t n b ret args f) os -> Forall (supported 2047) args.

Notation kv := (fun k (_ : mem) => key_value var text_word k).
Notation step := (step os arg_value kv conv ext (fun b => d_args (json b)) (fun b => d_func (json b))).
Notation steps := (steps os arg_value kv conv ext (fun b => d_args (json b)) (fun b => d_func (json b))).
Notation validate_chain := (validate_chain arg_ty var json F R).
Notation validate_access := (validate_access arg_ty var json F R).
Notation build_access := (build_access arg_value var text_word conv ext F).
Notation build_chain := (build_chain arg_value var text_word conv ext F).
Notation use_ok := (use_ok json os).
Notation known := (known json F os).
Notation found := (found os OS).

Lemma sized_key k v : key_value var text_word k = Ret v -> sized (fst v).
Proof.
  assert (forall f, 1 <= f < 2047 -> sized (get_dtype (CBase f))) as B by (intros f H; exists (CBase f); split; [cbn; lia|reflexivity]).
  destruct k as [n|s|x]; cbn; try (intros [= <-]; apply B; unfold DATA_U32, DATA_STRING_VIEW; lia).
  destruct (var x) as [[d w]|] eqn:V; [|discriminate]. intros [= <-]. exact (SVAR _ _ _ V).
Qed.
Lemma plain_sized t : plain t -> sized (get_dtype t).
Proof. intros [S _]. now exists t. Qed.
Lemma method_sized t n mb f : plain t -> get_member R (get_dtype t) n = Some mb -> m_func mb = Some f -> Forall sized (d_args f).
Proof.
  intros P G M. destruct (found t n mb P G) as [_ FM]. destruct (FM f M) as (b & ret & args & fn & H & PR & ->). cbn [d_args].
  destruct (first_in _ _ _ H) as [I _]. constructor.
  - pose proof (proj1 (Forall_forall _ _) OS _ I) as ((PT & NP & _) & _). cbn in PT, NP. destruct b; apply plain_sized; [|exact PT].
    apply plain_ptr_of; [exact PT|]. destruct t; try reflexivity. now destruct (NP t).
  - apply Forall_map. eapply Forall_impl; [|exact (SMETH _ _ _ _ _ _ I)]. intros u U. now exists u.
Qed.
Lemma member_notP t n mb : plain t -> get_member R (get_dtype t) n = Some mb -> isP t = false.
Proof.
  intros P G. pose proof (first_wins os (REG os OS) t n P) as H. rewrite G in H. destruct H as (H & _). apply Exists_exists in H.
  destruct H as (o & I & [OT _]). pose proof (proj1 (Forall_forall _ _) OS _ I) as ((_ & NP & _) & _). rewrite OT in NP.
  destruct t; try reflexivity. now destruct (NP t).
Qed.

(** ** Refusals are errors *)
Section Defined.
Hypothesis DARG : forall e m, defined (arg_value e m).
Hypothesis DCONV : forall d p w m, defined (conv d p w m).
Hypothesis DEXT : forall f ws m, defined (ext f ws m).

Lemma defined_bind {A B} (x : outcome A) (k : A -> outcome B) : defined x -> (forall a, x = Ret a -> defined (k a)) -> defined (obind x k).
Proof. destruct x; cbn; auto. Qed.

Lemma is_ptr_to_plain f t : plain t -> exists b, is_ptr_to f (get_dtype t) = Ret b.
Proof. intros P. unfold is_ptr_to. rewrite (ptr_to_plain t P). destruct (is_ptr _); eexists; reflexivity. Qed.
Lemma has_get_plain t : plain t -> exists b, has_get (get_dtype t) = Ret b.
Proof. intros P. unfold has_get. rewrite (ptr_to_plain t P). destruct (is_ptr _); eexists; reflexivity. Qed.

Lemma validate_access_defined t a : plain t -> defined (validate_access (get_dtype t) a).
Proof.
  intros P. destruct (checked_ptr t P) as [PT PP]. destruct a as [n|n es|k]; cbn [Access_Model.validate_access]; apply defined_bind.
  - unfold validate_field. rewrite PT. cbn [obind]. destruct (get_member _ _ _) as [mb|]; [|exact I]. destruct (m_field mb); exact I.
  - intros [? ?] _. exact I.
  - unfold validate_call. destruct (forallb _ es); [|exact I]. rewrite PT. cbn [obind]. destruct (get_member _ _ _) as [mb|]; [|exact I].
    destruct (m_func mb); exact I.
  - intros [[? ?] ?] _. exact I.
  - unfold validate_index. destruct (is_ptr_to_plain DATA_JSON t P) as [j ->]. destruct (has_get_plain t P) as [g ->]. cbn [obind].
    destruct (negb (j || g)); [exact I|]. destruct j.
    + apply defined_bind; [|intros; exact I]. destruct k as [z|s|x]; try exact I. cbn. destruct (var x) as [[d w]|]; [|exact I].
      destruct (is_integer d); [exact I|]. destruct (_ || _); exact I.
    + rewrite PT. cbn [obind]. destruct (get_member _ _ _) as [mb|] eqn:G; [|exact I]. destruct (m_func mb) as [f|] eqn:M; [|exact I].
      destruct (found _ _ _ PP G) as [_ FM]. destruct (FM f M) as (b & ret & args & fn & H & PR & ->). cbn [d_return].
      rewrite (ptr_to_plain ret PR). cbn [obind].
      destruct (plain_member F (pointee t) (lit "get") PP (member_notP _ _ _ PP G)) as [s ->].
      destruct (is_ptr _); exact I.
  - intros [[[? ?] ?] ?] _. exact I.
Qed.
Lemma validate_chain_defined : forall l t, plain t -> defined (validate_chain (get_dtype t) l).
Proof.
  induction l as [|a l IH]; intros t P; [exact I|]. cbn [Access_Model.validate_chain]. apply defined_bind; [now apply validate_access_defined|].
  intros [[[T1 r] us] ns] A. destruct (validate_type arg_ty var json F os OS _ _ _ _ _ _ P A) as (t1 & P1 & ->).
  apply defined_bind; [now apply IH|]. intros [[[? ?] ?] ?] _. exact I.
Qed.
Lemma externs_ret us : Forall use_ok us -> forall acc, exists X, externs F us acc = Ret X /\
  (forall s, find_text acc s <> None -> find_text X s <> None) /\
  Forall (fun u => match u with UMember P n f => forall s, member_name F P n = Ret s -> find_text X s <> None | UFunc f => find_text X (d_name f) <> None end) us.
Proof.
  induction 1 as [|u us U _ IH]; intros acc; cbn [externs].
  - exists acc. repeat split; auto.
  - destruct u as [P n f|f].
    + destruct U as (t & mb & PT & -> & G & M). destruct (plain_member F t n PT (member_notP _ _ _ PT G)) as [s N]. rewrite N. cbn [obind].
      destruct (IH ((s, f) :: acc)) as (X & -> & KEEP & ALL). exists X. split; [reflexivity|]. split.
      * intros s' H. apply KEEP. cbn. destruct (text_eqb s s'); [discriminate|exact H].
      * constructor; [|exact ALL]. intros s' Q. rewrite N in Q. injection Q as <-. apply KEEP. cbn. now rewrite (proj2 (text_eqb_eq _ _) eq_refl).
    + destruct (IH ((d_name f, f) :: acc)) as (X & -> & KEEP & ALL). exists X. split; [reflexivity|]. split.
      * intros s' H. apply KEEP. cbn. destruct (text_eqb (d_name f) s'); [discriminate|exact H].
      * constructor; [|exact ALL]. apply KEEP. cbn. now rewrite (proj2 (text_eqb_eq _ _) eq_refl).
Qed.

Lemma call_words_defined m : forall vs ps, Forall sized (map fst vs) -> Forall sized ps -> defined (call_words conv vs ps m).
Proof.
  induction vs as [|[d w] vs IH]; intros [|p ps] V P; try exact I. cbn [map fst] in V. inversion V; subst. inversion P; subst. cbn [call_words].
  destruct (sized_eqb d p) as [r ->]; [assumption|assumption|]. cbn [obind]. apply defined_bind; [destruct r; [exact I|apply DCONV]|]. intros w' _.
  apply defined_bind; [now apply IH|]. intros; exact I.
Qed.
(** Every function that can be found has parameters of sized types. *)
Definition sized_params (X : list (text * desc)) : Prop := forall s f, find_text X s = Some f -> Forall sized (d_args f).
Lemma known_sized X : known X -> sized_params X.
Proof.
  intros K s f H. destruct (K _ _ H) as [(t & n & mb & P & _ & G & M)|(b & -> & _)]; [exact (method_sized _ _ _ _ P G M)|apply SJSON].
Qed.
Lemma call_defined X s vs m : sized_params X -> Forall sized (map fst vs) -> defined (call_function conv ext X s vs m).
Proof.
  intros K V. unfold call_function. destruct (find_text X s) as [f|] eqn:FI; [|exact I]. destruct (negb _); [exact I|].
  apply defined_bind; [apply call_words_defined; [exact V|exact (K _ _ FI)]|]. intros ws _. apply defined_bind; [apply DEXT|]. intros [? ?] _. exact I.
Qed.
Lemma arg_values_defined es m : defined (arg_values arg_value es m) /\ forall vs, arg_values arg_value es m = Ret vs -> Forall sized (map fst vs).
Proof.
  induction es as [|e es [IH1 IH2]]; cbn [arg_values]; [split; [exact I|intros vs [= <-]; constructor]|]. split.
  - apply defined_bind; [apply DARG|]. intros v _. apply defined_bind; [exact IH1|]. intros; exact I.
  - intros vs H. destruct (arg_value e m) as [[d w]| | |] eqn:A; try discriminate H. cbn [obind] in H.
    destruct (arg_values arg_value es m) as [vs'| | |]; try discriminate H. cbn [obind] in H. injection H as <-. cbn [map fst].
    constructor; [exact (SARG _ _ _ _ A)|now apply IH2].
Qed.
(** Results of methods and getters have plain types. *)
Lemma known_returns X s f : known X -> find_text X s = Some f -> exists u, plain u /\ d_return f = get_dtype u.
Proof.
  intros K H. destruct (K _ _ H) as [(t & n & mb & P & _ & G & M)|(b & -> & _)].
  - destruct (found _ _ _ P G) as [_ FM]. destruct (FM f M) as (b & ret & args & fn & H' & PR & ->). now exists ret.
  - exists (CPtr (CBase 20)). split; [split; [cbn; lia|reflexivity]|apply JRET].
Qed.
Lemma call_type X s vs m v m' : known X -> call_function conv ext X s vs m = Ret (v, m') -> exists u, plain u /\ v_ty v = get_dtype u.
Proof.
  intros K H. unfold call_function in H. destruct (find_text X s) as [f|] eqn:FI; [|discriminate H]. destruct (negb _); [discriminate H|].
  destruct (call_words _ _ _ _); try discriminate H. cbn [obind] in H. destruct (ext _ _ _) as [[x m1]| | |]; try discriminate H. cbn [obind] in H.
  injection H as <- <-. cbn [v_ty]. exact (known_returns _ _ _ K FI).
Qed.
(** A member that the checks resolved. *)
Definition res_ok (r : resolved (E := E)) : Prop :=
  match r with
  | RField mb => exists t n, plain t /\ get_member R (get_dtype t) n = Some mb
  | RCall _ _ _ => True
  | RIndex _ => True
  end.
Lemma validate_access_res t a T' r us ns : plain t -> validate_access (get_dtype t) a = Ret (T', r, us, ns) -> res_ok r.
Proof.
  intros P V. destruct (checked_ptr t P) as [PT PP]. destruct a as [n|n es|k]; cbn [Access_Model.validate_access] in V.
  - unfold validate_field in V. rewrite PT in V. cbn [obind] in V. destruct (get_member R (get_dtype (pointee t)) n) as [mb|] eqn:G; [|discriminate V].
    destruct (m_field mb); [|discriminate V]. injection V as <- <- <- <-. exists (pointee t), n. auto.
  - destruct (validate_call _ _ _ _ _) as [[[T1 r1] u1]| | |] eqn:C; try discriminate V. cbn [obind] in V. injection V as <- <- <- <-.
    unfold validate_call in C. destruct (forallb _ es); [|discriminate C]. rewrite PT in C. cbn [obind] in C.
    destruct (get_member R (get_dtype (pointee t)) n) as [mb|]; [|discriminate C]. destruct (m_func mb); [|discriminate C]. injection C as <- <- <-. exact I.
  - destruct (access_shape arg_ty var json F R (get_dtype t) (AIndex k) T' r us ns V) as [_ S]. destruct (S eq_refl) as [k' ->]. exact I.
Qed.
Lemma validate_chain_res : forall l t T' rs us ns, plain t -> validate_chain (get_dtype t) l = Ret (T', rs, us, ns) -> Forall res_ok rs.
Proof.
  induction l as [|a l IH]; intros t T' rs us ns P V; [cbn in V; injection V as <- <- <- <-; constructor|].
  destruct (validate_chain_cons arg_ty var json F os _ _ _ _ _ _ _ V) as (T1 & r & us1 & ns1 & rs2 & us2 & ns2 & A & C & -> & -> & ->).
  destruct (validate_type arg_ty var json F os OS _ _ _ _ _ _ P A) as (t1 & P1 & ->).
  constructor; [exact (validate_access_res _ _ _ _ _ _ P A)|exact (IH _ _ _ _ _ P1 C)].
Qed.

Lemma build_access_defined X names idx v r m u : known X -> res_ok r -> plain u -> v_ty v = get_dtype u ->
  defined (build_access X names idx v r m) /\
  forall v' m', build_access X names idx v r m = Ret (v', m') -> exists u', plain u' /\ v_ty v' = get_dtype u'.
Proof.
  intros K RO P VT. assert (sized (v_ty v)) as SV by (rewrite VT; now apply plain_sized). destruct r as [mb|n es mb|k]; cbn [Access_Model.build_access].
  - destruct (negb _); [split; [exact I|discriminate]|]. destruct RO as (t & n & PT & G). destruct (m_field mb) as [d|] eqn:MF; [|split; [exact I|discriminate]].
    destruct (found _ _ _ PT G) as [FF _]. destruct (FF _ MF) as (f & off & H & -> & O & PF & NB & OFF).
    unfold get_struct_field. fold (field_is_value (get_dtype f)). destruct (field_kind f PF NB) as (FK1 & FK2 & FK3).
    destruct (field_type_ok f PF NB) as (FT & FG & FP). unfold field_type in FT. destruct (field_is_value (get_dtype f)).
    + rewrite (FK3 eq_refl). cbn [obind]. split; [exact I|]. intros v' m' [= <- <-]. exists f. auto.
    + cbn [obind]. split; [exact I|]. intros v' m' [= <- <-]. exists (CPtr f). split; [exact FT|]. cbn [v_ty]. symmetry. now apply FP.
  - destruct (_ && _ && _ && _); [split; [exact I|discriminate]|]. destruct (m_func mb); [|split; [exact I|discriminate]].
    destruct (arg_values_defined es m) as [A1 A2]. destruct (arg_values arg_value es m) as [vs| | |]; [|split; [exact I|discriminate]|destruct A1|destruct A1].
    cbn [obind]. rewrite VT. destruct (checked_ptr u P) as [PU PPU]. rewrite PU. cbn [obind].
    destruct (plain_member F (pointee u) n PPU) as [s ->]; [destruct u; try reflexivity; now apply plain_not_ptrptr|]. cbn [obind].
    split; [apply call_defined; [now apply known_sized|constructor; [cbn; now apply plain_sized|now apply A2]]|].
    intros v' m' H. exact (call_type _ _ _ _ _ _ K H).
  - assert (defined (key_value var text_word k)) as DK by (destruct k as [z|s|y]; try exact I; cbn; destruct (var y); exact I).
    destruct (key_value var text_word k) as [x| | |] eqn:KV; cbn [obind]; [|split; [exact I|discriminate]|destruct DK|destruct DK].
    destruct (nth_error names idx) as [name|]; [|split; [exact I|discriminate]].
    split; [apply call_defined; [now apply known_sized|cbn; constructor; [exact SV|constructor; [exact (sized_key _ _ KV)|constructor]]]|].
    intros v' m' H. exact (call_type _ _ _ _ _ _ K H).
Qed.
Lemma build_chain_defined X names : known X -> forall rs idx v m u, Forall res_ok rs -> plain u -> v_ty v = get_dtype u ->
  defined (build_chain X names idx v rs m).
Proof.
  intros K. induction rs as [|r rs IH]; intros idx v m u RO P VT; [exact I|]. inversion RO; subst. cbn [Access_Model.build_chain].
  destruct (build_access_defined X names idx v r m u K H1 P VT) as [D T]. apply defined_bind; [exact D|].
  intros [v' m'] H. destruct (T _ _ H) as (u' & P' & VT'). eauto.
Qed.
Theorem chain_defined t w l m : plain t -> defined (run_chain arg_ty arg_value var text_word conv ext json F R (get_dtype t) w l m).
Proof.
  intros P. unfold run_chain. apply defined_bind; [now apply validate_chain_defined|]. intros [[[T' rs] us] ns] V.
  pose proof (validate_chain_uses arg_ty var json F os OS _ _ _ _ _ _ P V) as U.
  destruct (externs_ret us U []) as (X & EX & _). rewrite EX. cbn [obind].
  assert (known X) as K. { eapply externs_known; [exact JNAME|exact U| |exact EX]. intros s f X1. discriminate X1. }
  apply defined_bind; [|intros [? ?] _; exact I].
  apply (build_chain_defined X ns K rs 0 _ m t); [exact (validate_chain_res _ _ _ _ _ _ P V)|exact P|reflexivity].
Qed.
End Defined.

(** ** Chains that mean something are accepted *)
Section Accepted.
Hypothesis CONV : forall d p w m, dtype_eqb d p = Ret true -> conv d p w m = Ret w.
Hypothesis APART : methods_apart (fun t => member_name F (get_dtype t)) json_name os.
Hypothesis CHECKED : forall e m v, arg_value e m = Ret v -> arg_ty e <> None.

Lemma has_field t n f off : plain t -> first (a_field t n) os (OField t n f off) ->
  exists mb, get_member R (get_dtype t) n = Some mb /\ m_field mb = Some (get_dtype f) /\ m_offset mb = off /\ plain f /\ f <> CBase 3 /\ 0 <= off < 2 ^ 31.
Proof.
  intros P H. pose proof (first_wins os (REG os OS) t n P) as W. destruct (first_in _ _ _ H) as [I A].
  destruct (get_member R (get_dtype t) n) as [mb|] eqn:G.
  - exists mb. split; [reflexivity|]. destruct W as (_ & _ & HF & _). unfold says_field in HF. destruct (m_field mb) as [d|] eqn:M.
    + destruct (found _ _ _ P G) as [FF _]. destruct (FF d M) as (f' & off' & H' & -> & O & R1 & R2 & R3).
      pose proof (first_unique _ _ _ _ H H') as [= -> ->]. auto.
    + destruct (proj1 (Forall_forall _ _) HF _ I A).
  - destruct (proj1 (Forall_forall _ _) W _ I). now split.
Qed.
Lemma has_method t n b ret args fn : plain t -> first (a_method t n) os (OMethod t n b ret args fn) ->
  exists mb, get_member R (get_dtype t) n = Some mb /\ plain ret /\
    m_func mb = Some (Desc n (get_dtype ret) (get_dtype (if b then CPtr t else t) :: map get_dtype args) fn None false).
Proof.
  intros P H. pose proof (first_wins os (REG os OS) t n P) as W. destruct (first_in _ _ _ H) as [I A].
  destruct (get_member R (get_dtype t) n) as [mb|] eqn:G.
  - exists mb. split; [reflexivity|]. destruct W as (_ & _ & _ & HF). unfold says_method in HF. destruct (m_func mb) as [d|] eqn:M.
    + destruct (found _ _ _ P G) as [_ FM]. destruct (FM d M) as (b' & ret' & args' & fn' & H' & PR & ->).
      pose proof (first_unique _ _ _ _ H H') as [= -> -> -> ->]. auto.
    + destruct (proj1 (Forall_forall _ _) HF _ I A).
  - destruct (proj1 (Forall_forall _ _) W _ I). now split.
Qed.
Lemma passes_words m : forall vs ps ws, Forall sized (map fst vs) -> Forall sized ps -> passes conv m vs ps ws -> call_words conv vs ps m = Ret ws.
Proof.
  induction vs as [|[d w] vs IH]; intros [|p ps] ws V P [A L]; cbn in L; try discriminate L; cbn in A; inversion A; subst; [reflexivity|].
  cbn [map fst] in V. inversion V; subst. inversion P; subst. cbn [call_words]. destruct (sized_eqb d p) as [r Q]; [assumption|assumption|].
  rewrite Q. cbn [obind fst snd] in *. rewrite (IH ps l'); [|assumption|assumption|split; [assumption|congruence]].
  destruct r; [|rewrite H1; reflexivity]. rewrite (CONV _ _ w m Q) in H1. injection H1 as ->. reflexivity.
Qed.
Lemma passes_call X s f vs m ws x m' : find_text X s = Some f -> Forall sized (map fst vs) -> Forall sized (d_args f) -> passes conv m vs (d_args f) ws ->
  ext (d_func f) ws m = Ret (x, m') -> call_function conv ext X s vs m = Ret (Val (d_return f) (Imm x), m').
Proof.
  intros FI V P PS EX. unfold call_function. rewrite FI. rewrite (proj2 (Nat.eqb_eq _ _) (proj2 PS)). cbn [negb].
  rewrite (passes_words _ _ _ _ V P PS). cbn [obind]. rewrite EX. reflexivity.
Qed.
Lemma args_values es m vs : Forall2 (fun e v => arg_value e m = Ret v) es vs ->
  arg_values arg_value es m = Ret vs /\ Forall sized (map fst vs) /\ forallb (fun e => match arg_ty e with Some _ => true | None => false end) es = true.
Proof.
  induction 1 as [|e [d w] es vs H _ (IH1 & IH2 & IH3)]; [repeat split; constructor|]. cbn [arg_values map fst forallb]. rewrite H, IH1, IH3. cbn [obind].
  split; [reflexivity|]. split; [constructor; [exact (SARG _ _ _ _ H)|exact IH2]|].
  pose proof (CHECKED _ _ _ H). destruct (arg_ty e); [reflexivity|congruence].
Qed.
Lemma name_by k b v : key_value var text_word k = Ret v -> by_name k (fst v) b -> json_by_name var k = Ret b.
Proof.
  destruct k as [n|s|x]; cbn; [intros _ ->; reflexivity|intros _ ->; reflexivity|]. destruct (var x) as [[d w]|]; [|discriminate]. intros [= <-]. cbn [fst].
  intros (H1 & H2 & H3). unfold is_integer, is_string_view, is_std_string_view, is_data, is_fundamental, DATA_U8, DATA_I64, DATA_STRING_VIEW, DATA_STD_STRING_VIEW.
  rewrite H1, H2. cbn [Z.eqb andb]. destruct b.
  - destruct H3 as [-> | ->]; reflexivity.
  - destruct (Z.leb_spec 4 (t0 (ctrl_of d))); [|lia]. destruct (Z.leb_spec (t0 (ctrl_of d)) 11); [reflexivity|lia].
Qed.
(** The functions that the checks asked for are declared. *)
Definition declares (X : list (text * desc)) (u : use) : Prop :=
  match u with UMember P n f => forall s, member_name F P n = Ret s -> find_text X s <> None | UFunc f => find_text X (d_name f) <> None end.

Lemma access_accept t u x m a u' x' m' : plain t -> plain u -> seen t u -> step (u, x, m) a (u', x', m') ->
  exists t' r us ns, validate_access (get_dtype t) a = Ret (get_dtype t', r, us, ns) /\ plain t' /\ plain u' /\ seen t' u' /\ Forall use_ok us /\
    forall X names idx v, known X -> Forall (declares X) us -> (forall name, ns = [name] -> nth_error names idx = Some name) ->
      v_ty v = get_dtype u -> word v m = x -> exists v', build_access X names idx v r m = Ret (v', m') /\ v_ty v' = get_dtype u' /\ word v' m' = x'.
Proof.
  intros P U SN ST. destruct (checked_ptr t P) as [PT PP]. pose proof (seen_pointee _ _ SN) as SP. destruct (checked_ptr u U) as [PU PPU].
  inversion ST as [p n f off w m0 H VF|p n f off w m0 H VF|o q n es vs o' AV C|w m0 q k v o' WB KV C|w m0 k v b ws y m1 KV BN PS EX]; subst.
  - cbn [pointee] in *. rewrite SP in PT, PP. destruct (has_field _ _ _ _ PP H) as (mb & G & MF & MO & PF & NB & OFF).
    destruct (field_type_ok u' PF NB) as (FT & FG & FP). destruct (field_kind u' PF NB) as (FK1 & FK2 & FK3). apply FK2 in VF.
    exists u', (RField mb), [], []. cbn [Access_Model.validate_access]. unfold validate_field. rewrite PT. cbn [obind]. rewrite G, MF. cbn [obind].
    change (get_dtype (field_type u')) with (get_dtype (field_type u')) in FG. unfold field_type in FG, FT. rewrite VF in FG, FT. unfold inner_of, field_is_inner in FG. rewrite <- FG.
    split; [reflexivity|]. split; [exact PF|]. split; [exact PF|]. split; [now left|]. split; [constructor|].
    intros X names idx v K D NM VT WD. cbn [Access_Model.build_access]. rewrite VT, (is_ptr_plain _ U). cbn [isP negb]. rewrite MF.
    unfold get_struct_field. fold (field_is_value (get_dtype u')). rewrite VF, (FK3 VF). cbn [obind]. eexists. split; [reflexivity|]. cbn [v_ty word v_loc].
    split; [reflexivity|]. rewrite MO, (offset_wraps _ _ OFF), WD. reflexivity.
  - cbn [pointee] in *. rewrite SP in PT, PP. destruct (has_field _ _ _ _ PP H) as (mb & G & MF & MO & PF & NB & OFF).
    destruct (field_type_ok f PF NB) as (FT & FG & FP). destruct (field_kind f PF NB) as (FK1 & FK2 & FK3).
    assert (field_is_value (get_dtype f) = false) as FV by (destruct (field_is_value (get_dtype f)); [destruct VF; now apply FK2|reflexivity]).
    exists (CPtr f), (RField mb), [], []. cbn [Access_Model.validate_access]. unfold validate_field. rewrite PT. cbn [obind]. rewrite G, MF. cbn [obind].
    unfold field_type in FG, FT. rewrite FV in FG, FT. unfold inner_of, field_is_inner in FG. rewrite <- FG.
    split; [reflexivity|]. split; [exact FT|]. split; [exact FT|]. split; [now left|]. split; [constructor|].
    intros X names idx v K D NM VT WD. cbn [Access_Model.build_access]. rewrite VT, (is_ptr_plain _ U). cbn [isP negb]. rewrite MF.
    unfold get_struct_field. fold (field_is_value (get_dtype f)). rewrite FV. cbn [obind]. eexists. split; [reflexivity|]. cbn [v_ty word v_loc].
    split; [symmetry; now apply FP|]. rewrite MO, (offset_wraps _ _ OFF), WD. reflexivity.
  - cbn [snd] in AV. destruct (args_values _ _ _ AV) as (A1 & A2 & A3).
    destruct C as (RC & b & ret & args & fn & ws & y & m1 & H & PS & EX & [= -> -> ->]).
    assert (pointee u = q) as PQ.
    { destruct RC as [->|[-> BV]]; [reflexivity|]. destruct q; try reflexivity. destruct BV. }
    rewrite SP, PQ in *. destruct (has_method _ _ _ _ _ _ PP H) as (mb & G & PR & MF).
    exists ret, (RCall n es mb), [UMember (get_dtype q) n (Desc n (get_dtype ret) (get_dtype (if b then CPtr q else q) :: map get_dtype args) fn None false)], [].
    cbn [Access_Model.validate_access]. unfold validate_call. rewrite A3, PT. cbn [obind]. rewrite G, MF. cbn [obind].
    split; [reflexivity|]. split; [exact PR|]. split; [exact PR|]. split; [now left|]. split; [constructor; [exists q, mb; auto|constructor]|].
    intros X names idx v K D NM VT WD. cbn [Access_Model.build_access]. rewrite receives_neg, VT.
    assert (receives (get_dtype u) = true) as RV.
    { apply (receives_ok u U). destruct RC as [->|[-> BV]]; [now left|now right]. }
    rewrite RV. cbn [negb]. rewrite MF, A1. cbn [obind]. rewrite PU. cbn [obind].
    destruct (plain_member F q n PP (member_notP _ _ _ PP G)) as [s N]. rewrite N. cbn [obind].
    inversion D as [|? ? D1 _]; subst. specialize (D1 s N). destruct (find_text X s) as [g|] eqn:FI; [|now destruct D1].
    pose proof (method_known json F os OS APART X _ _ _ _ _ _ K PP G MF N FI). subst g.
    eexists. split; [|split].
    + eapply passes_call; [exact FI|constructor; [now apply plain_sized|exact A2]|exact (method_sized _ _ _ _ PP G MF)|exact PS|exact EX].
    + reflexivity.
    + reflexivity.
  - destruct C as (RC & b & ret & args & fn & ws & y & m1 & H & PS & EX & [= -> -> ->]).
    cbn [pointee] in *. destruct SN as [->|(f & -> & [= ->] & _)]; [|destruct WB]. cbn [pointee] in *. clear RC.
    destruct (has_method _ _ _ _ _ _ PP H) as (mb & G & PR & MF).
    assert (is_ptr_to DATA_JSON (get_dtype (CPtr q)) = Ret false) as J.
    { destruct (is_ptr_to_plain DATA_JSON _ P) as [j J]. rewrite J. destruct j; [|reflexivity]. apply (json_ptr _ P) in J. injection J as ->. destruct WB. }
    assert (has_get (get_dtype (CPtr q)) = Ret true) as HG.
    { unfold has_get. rewrite (is_ptr_plain _ P). cbn [isP]. rewrite PT. cbn [obind]. f_equal.
      destruct (plain_word q PP (plain_not_ptrptr _ P)) as (k0 & a & b0 & n & W & A & K). rewrite W. unfold is_vector, is_map, is_unordered_map. cbn [ctrl_of container].
      destruct q; try destruct WB; [destruct k1; try destruct WB|destruct ordered]; subst k0; reflexivity. }
    destruct (plain_member F q (lit "get") PP (member_notP _ _ _ PP G)) as [s N].
    assert (exists t', (if is_ptr (get_dtype ret) then do! p <- ptr_to (get_dtype ret); Ret (if is_integer p || is_float p then p else get_dtype ret) else Ret (get_dtype ret)) = Ret (get_dtype t') /\
      plain t' /\ seen t' ret) as (t' & RT & PT' & ST').
    { rewrite (is_ptr_plain ret PR). destruct (isP ret) eqn:IR; [|exists ret; repeat split; try apply PR; now left].
      destruct (checked_ptr ret PR) as [PR1 PR2]. rewrite PR1. cbn [obind].
      destruct (is_integer (get_dtype (pointee ret)) || is_float (get_dtype (pointee ret))) eqn:NUM.
      - destruct (number_plain _ PR2 NUM) as (z & Z1 & ZB). exists (pointee ret). split; [reflexivity|]. split; [exact PR2|]. right. exists z. split; [exact Z1|]. split; [|exact ZB].
        destruct ret; try discriminate IR. cbn in Z1. now rewrite Z1.
      - exists ret. repeat split; try apply PR. now left. }
    exists t', (RIndex k), [UMember (get_dtype q) (lit "get") (Desc (lit "get") (get_dtype ret) (get_dtype (if b then CPtr q else q) :: map get_dtype args) fn None false)], [s].
    cbn [Access_Model.validate_access]. unfold validate_index. rewrite J, HG. cbn [obind orb negb]. rewrite PT. cbn [obind]. rewrite G, MF. cbn [d_return]. rewrite RT. cbn [obind]. rewrite N. cbn [obind].
    split; [reflexivity|]. split; [exact PT'|]. split; [exact PR|]. split; [exact ST'|]. split; [constructor; [exists q, mb; auto|constructor]|].
    intros X names idx v0 K D NM VT WD. cbn [Access_Model.build_access]. rewrite KV. cbn [obind]. rewrite (NM _ eq_refl).
    inversion D as [|? ? D1 _]; subst. specialize (D1 s N). destruct (find_text X s) as [g|] eqn:FI; [|now destruct D1].
    pose proof (method_known json F os OS APART X _ _ _ _ _ _ K PP G MF N FI). subst g.
    eexists. split; [|split].
    + eapply passes_call; [exact FI|constructor; [cbn; rewrite VT; now apply plain_sized|constructor; [exact (sized_key _ _ KV)|constructor]]|exact (method_sized _ _ _ _ PP G MF)|rewrite VT; exact PS|exact EX].
    + reflexivity.
    + reflexivity.
  - destruct SN as [->|(f & -> & [= <-] & B20)]; [|lia].
    assert (is_ptr_to DATA_JSON (get_dtype (CPtr (CBase 20))) = Ret true) as J by reflexivity.
    assert (has_get (get_dtype (CPtr (CBase 20))) = Ret false) as HG by reflexivity.
    pose proof (name_by _ _ _ KV BN) as JB.
    exists (CPtr (CBase 20)), (RIndex k), [UFunc (json b)], [json_name b].
    cbn [Access_Model.validate_access]. unfold validate_index. rewrite J, HG. cbn [obind orb negb]. rewrite JB. cbn [obind].
    split; [reflexivity|]. split; [exact P|]. split; [exact P|]. split; [now left|]. split; [constructor; [exists b; reflexivity|constructor]|].
    intros X names idx v0 K D NM VT WD. cbn [Access_Model.build_access]. rewrite KV. cbn [obind]. rewrite (NM _ eq_refl).
    inversion D as [|? ? D1 _]; subst. cbn in D1. rewrite JNAME in D1. destruct (find_text X (json_name b)) as [g|] eqn:FI; [|now destruct D1].
    pose proof (json_known json F os OS APART X b g K FI). subst g.
    eexists. split; [|split].
    + eapply passes_call; [exact FI|constructor; [cbn [fst]; rewrite VT; now apply plain_sized|constructor; [exact (sized_key _ _ KV)|constructor]]|apply SJSON|rewrite VT; exact PS|exact EX].
    + apply JRET.
    + reflexivity.
Qed.

Lemma chain_accept : forall l t u x m u' x' m', plain t -> plain u -> seen t u -> steps (u, x, m) l (u', x', m') ->
  exists t' rs us ns, validate_chain (get_dtype t) l = Ret (get_dtype t', rs, us, ns) /\ Forall use_ok us /\
    forall X names idx pre post v, known X -> Forall (declares X) us ->
      (names = pre ++ ns ++ post /\ length pre = idx /\ brackets_first l) \/ Forall (fun a => is_index a = false) l ->
      v_ty v = get_dtype u -> word v m = x -> exists v', build_chain X names idx v rs m = Ret (v', m') /\ v_ty v' = get_dtype u' /\ word v' m' = x'.
Proof.
  induction l as [|a l IH]; intros t u x m u' x' m' P U SN ST.
  - inversion ST; subst. exists t, [], [], []. split; [reflexivity|]. split; [constructor|]. intros X names idx pre post v K D SH VT WD. exists v. auto.
  - inversion ST as [|o a0 [[u1 x1] m1] l0 o'' S1 S2]; subst.
    destruct (access_accept _ _ _ _ _ _ _ _ P U SN S1) as (t1 & r & us1 & ns1 & V1 & P1 & U1 & SN1 & UO1 & B1).
    destruct (IH _ _ _ _ _ _ _ P1 U1 SN1 S2) as (t' & rs & us & ns & V2 & UO2 & B2).
    exists t', (r :: rs), (us1 ++ us), (ns1 ++ ns). cbn [Access_Model.validate_chain]. rewrite V1. cbn [obind]. rewrite V2. cbn [obind].
    split; [reflexivity|]. split; [apply Forall_app; auto|]. intros X names idx pre post v K D SH VT WD. apply Forall_app in D. destruct D as [D1 D2].
    destruct (validate_access_ok arg_ty var json F os _ _ _ _ _ _ P V1) as [_ LN].
    assert (forall name, ns1 = [name] -> nth_error names idx = Some name) as NM.
    { intros name ->. destruct SH as [(-> & <- & _)|SH].
      - rewrite nth_error_app2 by lia. now rewrite Nat.sub_diag.
      - inversion SH as [|? ? H _]. rewrite H in LN. discriminate LN. }
    destruct (B1 X names idx v K D1 NM VT WD) as (v1 & B1' & VT1 & WD1). cbn [Access_Model.build_chain]. rewrite B1'. cbn [obind].
    apply (B2 X names (S idx) (pre ++ ns1) post v1 K D2); [|exact VT1|exact WD1].
    destruct SH as [(-> & <- & BF)|SH].
    + cbn in BF. destruct (is_index a); [|right; exact BF]. left. split; [now rewrite !app_assoc|]. split; [|exact BF]. rewrite app_length, LN. lia.
    + right. now inversion SH.
Qed.
Theorem chain_accepted t w l m u x m' : plain t -> brackets_first l -> steps (t, w, m) l (u, x, m') ->
  exists T' v, run_chain arg_ty arg_value var text_word conv ext json F R (get_dtype t) w l m = Ret (T', v, m') /\ v_ty v = get_dtype u /\ word v m' = x.
Proof.
  intros P BF ST. destruct (chain_accept l t t w m u x m' P P (or_introl eq_refl) ST) as (t' & rs & us & ns & V & U & B).
  unfold run_chain. rewrite V. cbn [obind]. destruct (externs_ret us U []) as (X & EX & _ & D). rewrite EX. cbn [obind].
  assert (known X) as K. { eapply externs_known; [exact JNAME|exact U| |exact EX]. intros s f X1. discriminate X1. }
  destruct (B X ns 0%nat [] [] (Val (get_dtype t) (Imm w)) K) as (v & B' & VT & WD); [exact D|left; cbn; now rewrite app_nil_r|reflexivity|reflexivity|].
  rewrite B'. cbn [obind]. eauto.
Qed.
Theorem error_iff t w l m : (forall e m, defined (arg_value e m)) -> (forall d p w m, defined (conv d p w m)) -> (forall f ws m, defined (ext f ws m)) ->
  plain t -> brackets_first l ->
  (run_chain arg_ty arg_value var text_word conv ext json F R (get_dtype t) w l m = Err <-> forall o, ~ steps (t, w, m) l o).
Proof.
  intros D1 D2 D3 P BF. split.
  - intros H [[u x] m'] ST. destruct (chain_accepted t w l m u x m' P BF ST) as (T' & v & R1 & _). congruence.
  - intros H. pose proof (chain_defined D1 D2 D3 t w l m P) as D.
    destruct (run_chain arg_ty arg_value var text_word conv ext json F R (get_dtype t) w l m) as [[[T' v] m']| | |] eqn:RC; [|reflexivity|destruct D|destruct D].
    destruct (chain arg_ty arg_value var text_word conv ext json F os OS CONV APART JNAME JRET _ _ _ _ _ _ _ P BF RC) as (u & _ & ST & _).
    destruct (H _ ST).
Qed.
End Accepted.

(** ** Assignments that are refused *)
Lemma build_last X names idx v r m v' m' : known X -> (forall mb, r <> RField mb) -> build_access X names idx v r m = Ret (v', m') ->
  exists u w, plain u /\ v' = Val (get_dtype u) (Imm w).
Proof.
  intros K N B.
  assert (forall s vs m1, call_function conv ext X s vs m1 = Ret (v', m') -> exists u w, plain u /\ v' = Val (get_dtype u) (Imm w)) as C.
  { intros s vs m1 C. destruct (call_type _ _ _ _ _ _ K C) as (u & PU & VT). unfold call_function in C. destruct (find_text X s) as [f|]; [|discriminate C].
    destruct (negb _); [discriminate C|]. destruct (call_words _ _ _ _); try discriminate C. cbn [obind] in C.
    destruct (ext _ _ _) as [[x m2]| | |]; try discriminate C. cbn [obind] in C. injection C as <- <-. cbn [v_ty] in VT. rewrite VT. eauto. }
  destruct r as [mb|n es mb|k]; cbn [Access_Model.build_access] in B; [now destruct (N mb)| |].
  - destruct (_ && _ && _ && _); [discriminate B|]. destruct (m_func mb); [|discriminate B]. destruct (arg_values _ _ _); try discriminate B. cbn [obind] in B.
    destruct (ptr_to _); try discriminate B. cbn [obind] in B. destruct (member_name _ _ _); try discriminate B. cbn [obind] in B. eauto.
  - destruct (key_value _ _ _); try discriminate B. cbn [obind] in B. destruct (nth_error _ _); [|discriminate B]. eauto.
Qed.
Theorem assign_result t w l a m T' v m' : plain t -> (forall n, a <> AField n) ->
  run_chain arg_ty arg_value var text_word conv ext json F R (get_dtype t) w (l ++ [a]) m = Ret (T', v, m') ->
  forall src x, sized src -> assign v src x m' = Err.
Proof.
  intros P N H src x S. unfold run_chain in H. destruct (validate_chain (get_dtype t) (l ++ [a])) as [[[[T1 rs] us] ns]| | |] eqn:V; try discriminate H. cbn [obind] in H.
  destruct (externs F us []) as [X| | |] eqn:EX; try discriminate H. cbn [obind] in H.
  destruct (Access_Model.build_chain _ _ _ _ _ _ _ _ _ _ _ _) as [[v1 m1]| | |] eqn:B; try discriminate H. cbn [obind] in H. injection H as <- <- <-.
  assert (known X) as K. { eapply externs_known; [exact JNAME|eapply validate_chain_uses; eassumption| |exact EX]. intros s f X1. discriminate X1. }
  destruct (validate_chain_app arg_ty var json F os _ _ _ _ _ _ _ V) as (T2 & rs1 & us1 & ns1 & rs2 & us2 & ns2 & V1 & V2 & -> & -> & ->).
  destruct (validate_chain_cons arg_ty var json F os _ _ _ _ _ _ _ V2) as (T3 & r & us3 & ns3 & rs4 & us4 & ns4 & A & C & -> & _ & _). cbn in C. injection C as <- <- _ _.
  destruct (build_chain_app arg_value var text_word conv ext F _ _ _ _ _ _ _ _ _ B) as (v2 & m2 & B1 & B2).
  destruct (build_chain_cons arg_value var text_word conv ext F _ _ _ _ _ _ _ _ _ B2) as (v3 & m3 & B3 & B4). cbn in B4. injection B4 as <- <-.
  assert (forall mb, r <> RField mb) as NR.
  { intros mb ->. destruct a as [n|n es|k]; [now destruct (N n)| |]; cbn [Access_Model.validate_access] in A.
    - destruct (validate_call _ _ _ _ _) as [[[T4 r1] u1]| | |] eqn:D; try discriminate A. cbn [obind] in A. injection A as _ -> _ _.
      unfold validate_call in D. destruct (forallb _ es); [|discriminate D]. destruct (ptr_to T2); try discriminate D. cbn [obind] in D.
      destruct (get_member _ _ _) as [mb'|]; [|discriminate D]. destruct (m_func mb'); [|discriminate D]. discriminate D.
    - destruct (access_shape arg_ty var json F R T2 (AIndex k) _ _ _ _ A) as [_ SH]. destruct (SH eq_refl) as [k' X1]. discriminate X1. }
  destruct (build_last _ _ _ _ _ _ _ _ K NR B3) as (u & y & PU & ->). unfold assign. cbn [v_ty v_loc].
  destruct (sized_eqb _ _ (plain_sized u PU) S) as [b ->]. cbn [obind]. destruct b; reflexivity.
Qed.
Theorem assign_type f n a g x m : supported 2047 f -> supported 2047 g -> erase_lengths f <> erase_lengths g ->
  assign (Val (get_dtype f) (InMem n a)) (get_dtype g) x m = Err.
Proof.
  intros Hf Hg N. unfold assign. cbn [v_ty v_loc]. destruct (eqb_iff_same_up_to_lengths f g Hf Hg) as (r & -> & I). cbn [obind].
  destruct r; [destruct N; now apply I|reflexivity].
Qed.
End Total.
