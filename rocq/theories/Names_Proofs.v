(** Proofs about the names of types and functions. *)
From Coq Require Import Ascii String List Bool Arith ZArith Lia.
Import ListNotations.
From Verif Require Import Base Lexer_Model Lexer_Proofs Op_Model Op_Lemmas DType_Spec DType_Model DType_Proofs
  DynObject_Model Names_Spec Names_Model.
Local Open Scope Z_scope.

(** ** Texts that can follow an operator *)
Definition key_eqb (a b : Z * Z) : bool := (fst a =? fst b) && (snd a =? snd b).
Lemma key_eqb_eq a b : key_eqb a b = true <-> a = b.
Proof.
  destruct a, b; unfold key_eqb; cbn. rewrite andb_true_iff, !Z.eqb_eq. split; [intros [-> ->]; easy|intros [= -> ->]; easy].
Qed.
Definition entry : Type := ((Z * Z) * text)%type.
Definition no_clash (p q : entry) : bool :=
  let r := snd p in
  let r' := snd q in
  if (length r <=? length r')%nat then
    let d := (length r' - length r)%nat in
    if text_eqb (skipn d r') r then
      let l := firstn d r' in
      (is_empty l && key_eqb (fst p) (fst q)) || text_eqb l (lit "_std") || text_eqb l (lit "_fbs")
    else true
  else true.
Definition no_clashes (T : list entry) : bool := forallb (fun p => forallb (no_clash p) T) T.
Definition good_start (p : entry) : bool :=
  text_eqb (firstn 1 (snd p)) (lit "_") && negb (text_eqb (firstn 8 (snd p)) (lit "_vector_")).

Lemma no_clash_ok T k r k' r' l : no_clashes T = true -> In (k, r) T -> In (k', r') T -> r' = l ++ r ->
  (l = [] /\ k = k') \/ l = lit "_std" \/ l = lit "_fbs".
Proof.
  intros N I I' E. unfold no_clashes in N. rewrite forallb_forall in N. specialize (N _ I).
  rewrite forallb_forall in N. specialize (N _ I'). unfold no_clash in N. cbn [fst snd] in N.
  assert (length r' = (length l + length r)%nat) as L by (subst; apply app_length).
  destruct (Nat.leb_spec (length r) (length r')); [|lia].
  replace (length r' - length r)%nat with (length l) in N by lia.
  rewrite E in N. rewrite skipn_app, skipn_all, Nat.sub_diag in N. cbn [skipn app] in N.
  rewrite (proj2 (text_eqb_eq r r) eq_refl) in N.
  rewrite firstn_app, firstn_all, Nat.sub_diag in N. cbn [firstn] in N. rewrite app_nil_r in N.
  apply orb_true_iff in N. destruct N as [N|N]; [|right; right; now apply text_eqb_eq].
  apply orb_true_iff in N. destruct N as [N|N]; [|right; left; now apply text_eqb_eq].
  apply andb_true_iff in N. destruct N as [N1 N2]. apply key_eqb_eq in N2. left. split; [|assumption].
  destruct l; [reflexivity|discriminate].
Qed.

Definition prefix (v : bool) : text := if v then lit "simd_vector_" else [].

Lemma same_prefix T o o' k r k' r' : no_clashes T = true -> operator_name o -> operator_name o' ->
  In (k, r) T -> In (k', r') T -> o ++ r = o' ++ r' -> o = o' /\ k = k'.
Proof.
  intros N (_ & A & B) (_ & A' & B') I I' E. apply app_eq_app in E.
  destruct E as (l & [[E1 E2]|[E1 E2]]).
  - destruct (no_clash_ok T k r k' r' l N I I' E2) as [(-> & ->)|[->| ->]].
    + rewrite app_nil_r in E1. auto.
    + destruct (A _ E1).
    + destruct (B _ E1).
  - destruct (no_clash_ok T k' r' k r l N I' I E2) as [(-> & ->)|[->| ->]].
    + rewrite app_nil_r in E1. auto.
    + destruct (A' _ E1).
    + destruct (B' _ E1).
Qed.

Lemma mixed_prefix T o o' k' r r' : forallb good_start T = true -> operator_name o' -> In (k', r') T ->
  lit "simd_vector_" ++ o ++ r = o' ++ r' -> False.
Proof.
  intros G (A & _ & _) I E. rewrite forallb_forall in G. specialize (G _ I).
  apply andb_true_iff in G. cbn [snd] in G. destruct G as [G1 G2]. apply negb_true_iff in G2.
  apply app_eq_app in E. destruct E as (l & [[E1 E2]|[E1 E2]]).
  2:{ apply (A (lit "_" ++ l)). exact E1. }
  assert (exists n, (n <= 12)%nat /\ o' = firstn n (lit "simd_vector_") /\ l = skipn n (lit "simd_vector_")) as (n & Ln & Ho & Hl).
  { exists (length o'). assert (length (lit "simd_vector_") = (length o' + length l)%nat) as L by (rewrite E1; apply app_length).
    change (length (lit "simd_vector_")) with 12%nat in L. split; [lia|].
    rewrite E1, firstn_app, skipn_app, firstn_all, skipn_all, Nat.sub_diag. cbn [firstn skipn app]. now rewrite app_nil_r. }
  destruct n as [|[|[|[|[|[|[|[|[|[|[|[|[|n]]]]]]]]]]]]]; try lia; subst o' l; cbn [lit list_ascii_of_string firstn skipn app] in *;
    try (rewrite E2 in G1; discriminate).
  - rewrite E2 in G2. discriminate.
  - exact (A [] eq_refl).
  - exact (A (lit "_") eq_refl).
Qed.

Theorem decode T v v' o o' k r k' r' : no_clashes T = true -> forallb good_start T = true ->
  operator_name o -> operator_name o' -> In (k, r) T -> In (k', r') T ->
  prefix v ++ o ++ r = prefix v' ++ o' ++ r' -> v = v' /\ o = o' /\ k = k'.
Proof.
  intros N G O O' I I' E. destruct v, v'; cbn [prefix] in E; try change ([] ++ ?x) with x in E.
  - apply app_inv_head in E. destruct (same_prefix T o o' k r k' r' N O O' I I' E). auto.
  - destruct (mixed_prefix T o o' k' r r' G O' I' E).
  - destruct (mixed_prefix T o' o k r' r G O I (eq_sym E)).
  - destruct (same_prefix T o o' k r k' r' N O O' I I' E). auto.
Qed.

(** ** Built-in types *)
Definition codes : list Z := map Z.of_nat (seq 1 24).
Lemma builtin_codes f : builtin f -> In f codes.
Proof.
  intros H. unfold codes. apply in_map_iff. exists (Z.to_nat f). unfold builtin in H. split; [lia|].
  apply in_seq. lia.
Qed.
Lemma builtin_supported f : builtin f -> supported LIM (CBase f).
Proof. unfold builtin, LIM. intros H. cbn. pows. lia. Qed.
Lemma type_string_base F f : builtin f -> type_string F (get_dtype (CBase f)) = Ret (fundamental_name f).
Proof.
  intros H. apply builtin_codes in H. unfold codes in H. cbn in H.
  repeat (destruct H as [<-|H]; [vm_compute; reflexivity|]). contradiction.
Qed.
Lemma elem_base f : supported LIM (CBase f) -> elem_of (get_dtype (CBase f)) = get_dtype (CBase f).
Proof. intros H. rewrite (shape_base LIM) by (exact LIM_ok || assumption). reflexivity. Qed.
Lemma elem_operand v f : supported LIM (CBase f) -> elem_of (get_dtype (operand_type v f)) = get_dtype (CBase f).
Proof. intros H. destruct v; cbn [operand_type]; [now apply elem_seq|now apply elem_base]. Qed.
Lemma simd_operand v f : supported LIM (CBase f) -> is_simd_vector (get_dtype (operand_type v f)) = is_a_vector v f.
Proof.
  intros H. destruct v; cbn [operand_type].
  - rewrite (shape_seq LIM) by (exact LIM_ok || assumption). reflexivity.
  - rewrite (shape_base LIM) by (exact LIM_ok || assumption). unfold is_simd_vector, is_a_vector, is_simd_vector_any.
    cbn [ctrl_of container t0]. rewrite orb_false_r. reflexivity.
Qed.

Lemma name_one F o v f : builtin f ->
  function_name F o (get_dtype (operand_type v f)) = Ret (prefix (is_a_vector v f) ++ o ++ (lit "_" ++ fundamental_name f)).
Proof.
  intros H. pose proof (builtin_supported f H) as S. unfold function_name.
  rewrite (elem_operand v f S), (type_string_base F f H). cbn [obind]. rewrite (simd_operand v f S). reflexivity.
Qed.
Lemma name_two F o v f w g : builtin f -> builtin g ->
  function_name2 F o (get_dtype (operand_type v f)) (get_dtype (operand_type w g)) =
  Ret (prefix (is_a_vector v f || is_a_vector w g) ++ o ++ (lit "_" ++ fundamental_name f ++ lit "_" ++ fundamental_name g)).
Proof.
  intros H K. pose proof (builtin_supported f H) as S. pose proof (builtin_supported g K) as S'. unfold function_name2.
  rewrite (elem_operand v f S), (type_string_base F f H), (elem_operand w g S'), (type_string_base F g K). cbn [obind].
  rewrite (simd_operand v f S), (simd_operand w g S'). reflexivity.
Qed.

Definition table1 : list entry := map (fun f => ((f, 0), lit "_" ++ fundamental_name f)) codes.
Definition table2 : list entry :=
  flat_map (fun f => map (fun g => ((f, g), lit "_" ++ fundamental_name f ++ lit "_" ++ fundamental_name g)) codes) codes.
Lemma table1_ok : no_clashes table1 = true /\ forallb good_start table1 = true.
Proof. split; vm_compute; reflexivity. Qed.
Lemma table2_ok : no_clashes table2 = true /\ forallb good_start table2 = true.
Proof. split; vm_compute; reflexivity. Qed.

Lemma one_type F o v f o' v' f' n : operator_name o -> operator_name o' -> an_operand v f -> an_operand v' f' ->
  function_name F o (get_dtype (operand_type v f)) = Ret n ->
  function_name F o' (get_dtype (operand_type v' f')) = Ret n -> o = o' /\ operand_type v f = operand_type v' f'.
Proof.
  intros O O' [B C] [B' C']. rewrite !name_one by assumption. intros E E'.
  assert (prefix (is_a_vector v f) ++ o ++ (lit "_" ++ fundamental_name f) =
          prefix (is_a_vector v' f') ++ o' ++ (lit "_" ++ fundamental_name f')) as Q by congruence.
  destruct table1_ok as [T1 T2].
  destruct (decode table1 _ _ o o' (f, 0) _ (f', 0) _ T1 T2 O O'
    (in_map (fun f => ((f, 0), lit "_" ++ fundamental_name f)) codes f (builtin_codes f B))
    (in_map (fun f => ((f, 0), lit "_" ++ fundamental_name f)) codes f' (builtin_codes f' B')) Q) as (V & -> & K).
  injection K as ->. split; [reflexivity|]. unfold is_a_vector in V.
  destruct v, v'; cbn [orb] in V; try reflexivity.
  - specialize (C eq_refl). symmetry in V. apply Z.eqb_eq in V. lia.
  - specialize (C' eq_refl). apply Z.eqb_eq in V. lia.
Qed.
Lemma in_table2 f g : builtin f -> builtin g ->
  In ((f, g), lit "_" ++ fundamental_name f ++ lit "_" ++ fundamental_name g) table2.
Proof.
  intros B B'. unfold table2. apply in_flat_map. exists f. split; [now apply builtin_codes|].
  apply in_map_iff. exists g. split; [reflexivity|now apply builtin_codes].
Qed.
Lemma two_types F o v f w g o' v' f' w' g' n : operator_name o -> operator_name o' ->
  an_operand v f -> an_operand w g -> an_operand v' f' -> an_operand w' g' ->
  function_name2 F o (get_dtype (operand_type v f)) (get_dtype (operand_type w g)) = Ret n ->
  function_name2 F o' (get_dtype (operand_type v' f')) (get_dtype (operand_type w' g')) = Ret n ->
  o = o' /\ f = f' /\ g = g' /\ (is_a_vector v f || is_a_vector w g) = (is_a_vector v' f' || is_a_vector w' g').
Proof.
  intros O O' [B1 _] [B2 _] [B3 _] [B4 _]. rewrite !name_two by assumption. intros E E'.
  assert (prefix (is_a_vector v f || is_a_vector w g) ++ o ++ (lit "_" ++ fundamental_name f ++ lit "_" ++ fundamental_name g) =
          prefix (is_a_vector v' f' || is_a_vector w' g') ++ o' ++ (lit "_" ++ fundamental_name f' ++ lit "_" ++ fundamental_name g'))
    as Q by congruence.
  destruct table2_ok as [T1 T2].
  destruct (decode table2 _ _ o o' (f, g) _ (f', g') _ T1 T2 O O' (in_table2 f g B1 B2) (in_table2 f' g' B3 B4) Q)
    as (V & -> & K).
  injection K as -> ->. auto.
Qed.

(** ** The operators *)
Definition op_name_ok (o : text) : bool :=
  negb (text_eqb (firstn 11 o) (lit "simd_vector")) &&
  negb (text_eqb (skipn (length o - 4) o) (lit "_std")) && negb (text_eqb (skipn (length o - 4) o) (lit "_fbs")).
Lemma op_name_ok_spec o : op_name_ok o = true -> operator_name o.
Proof.
  unfold op_name_ok. rewrite !andb_true_iff, !negb_true_iff. intros [[A B] C].
  assert (forall s x, length s = 4%nat -> o = x ++ s -> skipn (length o - 4) o = s) as K.
  { intros s x L ->. rewrite app_length, L. replace (length x + 4 - 4)%nat with (length x) by lia.
    rewrite skipn_app, skipn_all, Nat.sub_diag. reflexivity. }
  repeat split; intros x E.
  - rewrite E in A. cbn in A. discriminate.
  - rewrite (K (lit "_std") x eq_refl E) in B. now rewrite (proj2 (text_eqb_eq _ _) eq_refl) in B.
  - rewrite (K (lit "_fbs") x eq_refl E) in C. now rewrite (proj2 (text_eqb_eq _ _) eq_refl) in C.
Qed.
Lemma op_str_ok o : operator_name (op_str o).
Proof. apply op_name_ok_spec. destruct o; vm_compute; reflexivity. Qed.
Lemma in_all_ops o : In o all_ops.
Proof. pose proof (of_code_ok o) as H. unfold of_code in H. now apply find_some in H. Qed.
Lemma op_str_inj o o' : op_str o = op_str o' -> o = o'.
Proof.
  intros E.
  assert (forallb (fun p => forallb (fun q => negb (text_eqb (op_str p) (op_str q)) || optok_eqb p q) all_ops) all_ops = true)
    as F by (vm_compute; reflexivity).
  rewrite forallb_forall in F. specialize (F _ (in_all_ops o)).
  rewrite forallb_forall in F. specialize (F _ (in_all_ops o')).
  rewrite E, (proj2 (text_eqb_eq _ _) eq_refl) in F. cbn [negb orb] in F. now apply optok_eqb_eq in F.
Qed.

Lemma operators F o v f o' v' f' n : an_operand v f -> an_operand v' f' ->
  function_name F (op_str o) (get_dtype (operand_type v f)) = Ret n ->
  function_name F (op_str o') (get_dtype (operand_type v' f')) = Ret n -> o = o' /\ operand_type v f = operand_type v' f'.
Proof.
  intros A A' E E'. destruct (one_type F _ v f _ v' f' n (op_str_ok o) (op_str_ok o') A A' E E') as [H1 H2].
  split; [now apply op_str_inj|assumption].
Qed.
Lemma one_named F o v f : an_operand v f -> exists n, function_name F o (get_dtype (operand_type v f)) = Ret n.
Proof. intros [B _]. rewrite name_one by assumption. eauto. Qed.

(** ** Where names coincide *)
Lemma containers_alike F o k f : k <> KSimdVector -> builtin f -> f <> 24 ->
  function_name F o (get_dtype (CSeq k (CBase f))) = function_name F o (get_dtype (CBase f)).
Proof.
  intros K B N. pose proof (builtin_supported f B) as S. unfold function_name.
  rewrite (elem_seq k (CBase f) S), (elem_base f S), (type_string_base F f B). cbn [obind].
  assert (is_simd_vector (get_dtype (CSeq k (CBase f))) = false) as ->.
  { rewrite (shape_seq LIM) by (exact LIM_ok || assumption). destruct k; try contradiction; reflexivity. }
  change (get_dtype (CBase f)) with (get_dtype (operand_type false f)).
  rewrite (simd_operand false f S). unfold is_a_vector. cbn [orb]. apply Z.eqb_neq in N. rewrite N. reflexivity.
Qed.
Lemma type_string_unnamed F f : 25 <= f < LIM -> find_type (by_type F) (get_dtype (CBase f)) = None ->
  type_string F (get_dtype (CBase f)) = Ret [].
Proof.
  intros H N. assert (supported LIM (CBase f)) as S by (cbn; lia). unfold type_string. rewrite (elem_base f S).
  rewrite (shape_base LIM) in * by (exact LIM_ok || assumption).
  unfold ptr_to. replace (is_complex _) with false.
  2:{ symmetry. unfold is_complex. cbn [ctrl_of t0]. apply Z.eqb_neq. unfold DATA_COMPLEX_OBJECT, LIM in *. pows. lia. }
  cbn [obind]. unfold name_of_type. unfold set_ptr. cbn [ctrl_of elems_of container ptr_bit t0 t1 fixed_size is_ptr is_collection].
  unfold is_ptr, is_collection. cbn [ctrl_of container ptr_bit]. cbn [Z.eqb negb orb].
  destruct (Z.ltb_spec f 25); [lia|]. rewrite andb_false_r.
  change (find_type (by_type F) (DT (mk_ctrl 0 0 f 0 0) None) = None) in N.
  match goal with |- context [find_type (by_type F) ?d] => change d with (DT (mk_ctrl 0 0 f 0 0) None) end. rewrite N. reflexivity.
Qed.
Lemma unnamed_alike F o f g : 25 <= f < LIM -> 25 <= g < LIM ->
  find_type (by_type F) (get_dtype (CBase f)) = None -> find_type (by_type F) (get_dtype (CBase g)) = None ->
  function_name F o (get_dtype (CBase f)) = function_name F o (get_dtype (CBase g)).
Proof.
  intros A B Nf Ng. unfold function_name. rewrite !elem_base by (cbn; lia).
  rewrite !type_string_unnamed by assumption. cbn [obind].
  assert (forall f, 25 <= f < LIM -> is_simd_vector (get_dtype (CBase f)) = false) as K.
  { intros h H. change (CBase h) with (operand_type false h). rewrite simd_operand by (cbn; lia).
    unfold is_a_vector. cbn [orb]. apply Z.eqb_neq. lia. }
  rewrite !K by assumption. reflexivity.
Qed.

(** ** The cache *)
Lemma control_inj lim c c' : lim_ok lim -> okc lim c -> okc lim c' -> control c = control c' -> c = c'.
Proof.
  intros L (A & B & C & D & E) (A' & B' & C' & D' & E') H. unfold lim_ok, DATA_COMPLEX_OBJECT in *. unfold control in H.
  destruct c as [ct pb a b n], c' as [ct' pb' a' b' n']; cbn [container ptr_bit t0 t1 fixed_size] in *. pows.
  assert (ct = ct') by lia. assert (pb = pb') by lia. assert (a = a') by lia. assert (b = b') by lia. assert (n = n') by lia.
  subst. reflexivity.
Qed.

Lemma supported_up t : supported 2047 t -> supported LIM t.
Proof.
  induction t; cbn; unfold LIM in *; intros H; try (pows; lia); try (destruct H; split; auto); auto.
  - destruct H as (f & -> & H). exists f. split; [reflexivity|]. pows. lia.
Qed.
Lemma plain_shape t : plain t -> elems_of (get_dtype t) = None /\ okc 2047 (ctrl_of (get_dtype t)) /\
  t0 (ctrl_of (get_dtype t)) < 2047 /\ t1 (ctrl_of (get_dtype t)) < 2047.
Proof.
  assert (forall t, supported 2047 t -> isP t = false -> flat t = true -> elems_of (get_dtype t) = None /\
    t0 (ctrl_of (get_dtype t)) < 2047 /\ t1 (ctrl_of (get_dtype t)) < 2047) as K.
  { intros u S P F. pose proof (lim_ok_2047 2047 (Z.le_refl _)) as L. destruct u; try discriminate P; cbn [flat] in F.
    - rewrite (shape_base 2047) by assumption. cbn in *. repeat split; lia.
    - destruct u; try discriminate F. rewrite (shape_seq 2047) by assumption. cbn in *. repeat split; lia.
    - destruct u; try discriminate F. rewrite (shape_array 2047) by assumption. cbn in *. destruct S as [(g & [= <-] & S) _].
      repeat split; lia.
    - apply andb_true_iff in F. destruct F as [F1 F2]. destruct u1, u2; try discriminate. destruct S as [S1 S2].
      rewrite (shape_map 2047) by assumption. cbn in *. repeat split; lia.
    - apply andb_true_iff in F. destruct F as [F1 F2]. destruct u1, u2; try discriminate. destruct S as [S1 S2].
      rewrite (shape_pair 2047) by assumption. cbn in *. repeat split; lia.
    - destruct u; try discriminate F. rewrite (shape_tuple1 2047) by assumption. cbn in *. repeat split; lia. }
  intros [S F]. pose proof (good_get 2047 t ltac:(lia) S) as G.
  assert (okc 2047 (ctrl_of (get_dtype t))) as O by (inversion G; cbn; assumption).
  destruct (isP t) eqn:P.
  - destruct t; try discriminate P. assert (isP t = false) as P' by (destruct t; try reflexivity; discriminate F).
    assert (flat t = true) as F' by (destruct t; try discriminate F; exact F).
    destruct (K t S P' F') as (A & B & C). rewrite (shape_ptr 2047) in * by (assumption || (apply lim_ok_2047; lia)).
    rewrite P' in *. cbn [elems_of ctrl_of t0 t1 set_ptr]. auto.
  - destruct (K t S P F) as (A & B & C). auto.
Qed.
Lemma plain_same t u : plain t -> plain u -> control (ctrl_of (get_dtype t)) = control (ctrl_of (get_dtype u)) ->
  get_dtype t = get_dtype u.
Proof.
  intros T U E. destruct (plain_shape t T) as (A & B & _). destruct (plain_shape u U) as (A' & B' & _).
  pose proof (control_inj 2047 _ _ (lim_ok_2047 2047 (Z.le_refl _)) B B' E) as C.
  destruct (get_dtype t), (get_dtype u). cbn in *. congruence.
Qed.
Lemma plain_named F o t : plain t -> exists n, function_name F o (get_dtype t) = Ret n.
Proof.
  intros T. destruct (plain_shape t T) as (A & B & C & D). unfold function_name.
  assert (exists s, type_string F (elem_of (get_dtype t)) = Ret s) as [s ->]; [|eexists; reflexivity].
  destruct (get_dtype t) as [c e]. cbn [elems_of ctrl_of] in *. subst e.
  assert (exists c', elem_of (DT c None) = DT c' None /\ container c' = 0 /\ t0 c' < 2047) as (c' & -> & K1 & K2).
  { unfold elem_of. cbn [elems_of ctrl_of]. eexists. split; [reflexivity|].
    destruct (is_map _ || is_unordered_map _); (split; [reflexivity|]); cbn [set_container set_t0 t0]; [|assumption].
    rewrite wrapu_id; [assumption|]. destruct B as (_ & _ & _ & B & _). unfold in_u, DATA_COMPLEX_OBJECT in *. pows. lia. }
  unfold type_string.
  assert (exists b, ptr_to (elem_of (DT c' None)) = Ret b) as [b ->].
  { unfold elem_of, is_map, is_unordered_map. cbn [elems_of ctrl_of]. rewrite K1. cbn [Z.eqb orb COLLECTION_MAP COLLECTION_UNORDERED_MAP].
    unfold ptr_to, is_complex. cbn [ctrl_of elems_of set_container t0]. 
    destruct (Z.eqb_spec (t0 c') DATA_COMPLEX_OBJECT) as [Q|Q]; [unfold DATA_COMPLEX_OBJECT in Q; revert Q; pows; lia|]. eexists; reflexivity. }
  cbn [obind]. destruct (is_empty _); [eexists; reflexivity|].
  unfold is_collection. cbn [ctrl_of]. rewrite K1. cbn [Z.eqb negb]. eexists; reflexivity.
Qed.

Definition cache_ok (F : factory) (c : name_cache) : Prop :=
  forall k n, In (k, n) c -> exists o t, plain t /\ k = (op_code o, control (ctrl_of (get_dtype t))) /\
    function_name F (op_str o) (get_dtype t) = Ret n.
Lemma cached_one F o t c : plain t -> cache_ok F c ->
  exists c' n, cached_name F o (get_dtype t) c = Ret (c', n) /\ function_name F (op_str o) (get_dtype t) = Ret n /\ cache_ok F c'.
Proof.
  intros T C. unfold cached_name. cbv zeta. cbn [fst snd].
  destruct (find _ c) as [[k n]|] eqn:E.
  - apply find_some in E. destruct E as [I E]. apply andb_true_iff in E. destruct E as [E1 E2]. cbn [fst snd] in *.
    apply Z.eqb_eq in E1. apply Z.eqb_eq in E2. destruct (C _ _ I) as (o' & t' & T' & -> & N). cbn [fst snd] in *.
    exists c, n. split; [reflexivity|]. split; [|assumption].
    assert (o' = o) as -> by (apply optok_eqb_eq; unfold optok_eqb; now apply Z.eqb_eq).
    now rewrite <- (plain_same t' t T' T E2).
  - destruct (plain_named F (op_str o) t T) as [n N]. rewrite N. cbn [obind]. eexists. exists n. split; [reflexivity|].
    split; [reflexivity|]. intros k m [[= <- <-]|I]; [|now apply C]. exists o, t. auto.
Qed.
Lemma cached_all F calls : Forall (fun call => plain (snd call)) calls ->
  exists ns, cached_names F (map (fun call => (fst call, get_dtype (snd call))) calls) [] = Ret ns /\
    Forall2 (fun call n => function_name F (op_str (fst call)) (get_dtype (snd call)) = Ret n) calls ns.
Proof.
  assert (cache_ok F []) as C by (intros ? ? []). revert C. generalize (@nil ((Z * Z) * text)) as c.
  induction calls as [|[o t] calls IH]; intros c C H; cbn [map cached_names].
  - exists []. split; [reflexivity|constructor].
  - inversion H as [|? ? T H']; subst. cbn [fst snd] in *. destruct (cached_one F o t c T C) as (c' & n & -> & N & C').
    cbn [obind]. destruct (IH c' C' H') as (ns & -> & F2). cbn [obind]. exists (n :: ns). split; [reflexivity|]. now constructor.
Qed.

(** ** Member functions *)
Lemma split_at a b x y : no_underscore a -> no_underscore b -> a ++ lit "_" ++ x = b ++ lit "_" ++ y -> a = b /\ x = y.
Proof.
  revert b. induction a as [|c a IH]; intros [|d b] A B E; cbn in *.
  - now injection E.
  - injection E as E1 E2. destruct B as [B _]. now rewrite E1 in B.
  - injection E as E1 E2. destruct A as [A _]. now rewrite E1 in A.
  - injection E as -> E2. destruct (IH b (proj2 A) (proj2 B) E2) as [-> ->]. auto.
Qed.

(** ** Names of user types *)
Lemma first_type_app l m n : first_type (l ++ m) n = match first_type l n with Some f => Some f | None => first_type m n end.
Proof. induction l as [|[k f] l IH]; cbn; [reflexivity|]. destruct (text_eqb k n); [reflexivity|exact IH]. Qed.
Lemma control_base f : 1 <= f < LIM -> control (ctrl_of (get_dtype (CBase f))) = f * 128.
Proof.
  intros H. rewrite (shape_base LIM) by (exact LIM_ok || exact H). unfold control. cbn. pows. lia.
Qed.

(** The two maps after entries [seen]: [by_name] answers the first type of each name, [by_type] the first name. *)
Definition same_names (F : factory) (seen : list (text * Z)) : Prop :=
  (forall n, find_text (by_name F) n = option_map (fun f => get_dtype (CBase f)) (first_type seen n)) /\
  (forall f, 1 <= f < LIM -> find_type (by_type F) (get_dtype (CBase f)) = first_name seen [] f).
Lemma first_name_app l m s f :
  first_name (l ++ m) s f = match first_name l s f with Some n => Some n | None => first_name m (s ++ l) f end.
Proof.
  revert s. induction l as [|[n g] l IH]; intros s; cbn; [now rewrite app_nil_r|].
  destruct (first_type s n).
  - rewrite IH, <- app_assoc. reflexivity.
  - destruct (g =? f); [reflexivity|]. rewrite IH, <- app_assoc. reflexivity.
Qed.
Lemma add_one F seen n f : 1 <= f < LIM -> same_names F seen ->
  snd (add_name n (get_dtype (CBase f)) F) = match first_type seen n with Some _ => false | None => true end /\
  same_names (fst (add_name n (get_dtype (CBase f)) F)) (seen ++ [(n, f)]).
Proof.
  intros B [H1 H2]. unfold add_name. pose proof (H1 n) as Hn. rewrite Hn. destruct (first_type seen n) as [g|] eqn:E; cbn [option_map fst snd].
  - split; [reflexivity|]. split; intros.
    + rewrite H1, first_type_app. destruct (first_type seen n0) eqn:E0; [reflexivity|]. cbn.
      destruct (text_eqb n n0) eqn:T; [|reflexivity]. apply text_eqb_eq in T. subst. congruence.
    + rewrite H2 by assumption. rewrite first_name_app. destruct (first_name seen [] f0); [reflexivity|]. cbn [app first_name]. rewrite E. reflexivity.
  - split; [reflexivity|]. split; cbn [by_name by_type]; intros.
    + cbn [find_text]. rewrite first_type_app. cbn [first_type]. destruct (text_eqb n n0) eqn:T.
      * apply text_eqb_eq in T. subst n0. rewrite E. reflexivity.
      * rewrite H1. destruct (first_type seen n0); reflexivity.
    + rewrite first_name_app. cbn [app first_name]. rewrite E. specialize (H2 f B) as Hf.
      destruct (find_type (by_type F) (get_dtype (CBase f))) as [m|] eqn:Em.
      * rewrite H2 by assumption. destruct (first_name seen [] f0) eqn:E0; [reflexivity|].
        destruct (Z.eqb_spec f f0); [|reflexivity]. subst. congruence.
      * unfold find_type. cbn [find fst]. rewrite !control_base by assumption.
        destruct (Z.eqb_spec f f0) as [->|N].
        { rewrite Z.eqb_refl. cbn [option_map snd]. rewrite <- Hf. reflexivity. }
        { replace (f * 128 =? f0 * 128) with false by (symmetry; apply Z.eqb_neq; lia).
          specialize (H2 f0 H). unfold find_type in H2. rewrite control_base in H2 by assumption. rewrite H2.
          destruct (first_name seen [] f0); reflexivity. }
Qed.
Lemma add_all l F seen : Forall (fun e => 1 <= snd e < LIM) l -> same_names F seen ->
  snd (add_names (given l) F) = accepted_names l seen /\ same_names (fst (add_names (given l) F)) (seen ++ l).
Proof.
  revert F seen. induction l as [|[n f] l IH]; intros F seen H S; cbn [given map add_names accepted_names].
  - rewrite app_nil_r. split; [reflexivity|assumption].
  - inversion H as [|? ? B H']; subst. cbn [fst snd] in *. destruct (add_one F seen n f B S) as [A1 A2].
    destruct (add_name n (get_dtype (CBase f)) F) as [F' ok]. cbn [fst snd] in *.
    destruct (IH F' _ H' A2) as [I1 I2]. unfold given in I1, I2.
    destruct (add_names (map _ l) F') as [F'' r]. cbn [fst snd] in *. split; [now rewrite A1, I1|].
    now rewrite <- app_assoc in I2.
Qed.
Lemma names_kept l : Forall (fun e => 1 <= snd e < LIM) l ->
  let (F, ok) := add_names (given l) no_names in
  ok = accepted_names l [] /\
  (forall n, type_of_name F n = match first_type l n with Some f => get_dtype (CBase f) | None => dtype_invalid end) /\
  (forall f, 25 <= f < LIM -> name_of_type F (get_dtype (CBase f)) = match first_name l [] f with Some n => n | None => [] end).
Proof.
  intros H. assert (same_names no_names []) as S by (split; intros; reflexivity).
  destruct (add_all l no_names [] H S) as [A [B C]]. destruct (add_names (given l) no_names) as [F ok]. cbn [fst snd app] in *.
  split; [assumption|]. split.
  - intros n. unfold type_of_name. rewrite B. destruct (first_type l n); reflexivity.
  - intros f Hf. unfold name_of_type. assert (1 <= f < LIM) as Hf' by lia. rewrite (C f Hf').
    rewrite (shape_base LIM) by (exact LIM_ok || exact Hf'). unfold is_ptr, is_collection. cbn [ctrl_of ptr_bit container t0].
    cbn [Z.eqb negb orb]. destruct (Z.ltb_spec f 25); [lia|]. rewrite andb_false_r. reflexivity.
Qed.

Lemma first_name_type l s f n : first_name l s f = Some n -> first_type (s ++ l) n = Some f.
Proof.
  revert s. induction l as [|[m g] l IH]; intros s H; cbn in H; [discriminate|].
  destruct (first_type s m) eqn:E.
  - apply IH in H. now rewrite <- app_assoc in H.
  - destruct (Z.eqb_spec g f) as [->|N].
    + injection H as <-. rewrite first_type_app, E. cbn. now rewrite (proj2 (text_eqb_eq _ _) eq_refl).
    + apply IH in H. now rewrite <- app_assoc in H.
Qed.
Lemma name_round_trip l f n : Forall (fun e => 1 <= snd e < LIM) l -> 25 <= f < LIM -> n <> [] ->
  name_of_type (fst (add_names (given l) no_names)) (get_dtype (CBase f)) = n ->
  type_of_name (fst (add_names (given l) no_names)) n = get_dtype (CBase f).
Proof.
  intros H Hf N E. pose proof (names_kept l H) as K. destruct (add_names (given l) no_names) as [F ok]. cbn [fst] in *.
  destruct K as (_ & K1 & K2). rewrite K2 in E by assumption. rewrite K1.
  destruct (first_name l [] f) as [m|] eqn:Q; [|congruence]. subst m. apply first_name_type in Q. cbn in Q. now rewrite Q.
Qed.
Lemma member_names F t u m m' n a b :
  type_string F (get_dtype t) = Ret a -> type_string F (get_dtype u) = Ret b -> no_underscore a -> no_underscore b ->
  member_name F (get_dtype t) m = Ret n -> member_name F (get_dtype u) m' = Ret n -> a = b /\ m = m'.
Proof.
  intros A B NA NB. unfold member_name. rewrite A, B. cbn [obind]. intros E E'. apply split_at; try assumption. congruence.
Qed.
