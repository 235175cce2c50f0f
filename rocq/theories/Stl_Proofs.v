From Coq Require Import List Bool Arith ZArith Lia.
Import ListNotations.
From Verif Require Import Base StringView_Model StringView_Spec StringView_Proofs Stl_Model Stl_Spec.
Local Open Scope Z_scope.

(** ** Elements *)
Lemma scalar_passable : passable scalar_arg (fun _ => True).
Proof.
  split; [intros v _; exists v; split; reflexivity|].
  intros v w a b _ _ E1 E2. injection E1 as <-. injection E2 as <-.
  exists (v =? w). split; [reflexivity|apply Z.eqb_eq].
Qed.
Lemma string_passable junk : passable (string_arg junk) short_string.
Proof.
  split.
  - intros v (B & L). destruct (data_props junk v L) as (a & E & _ & D). exists a. split; assumption.
  - intros v w a b (Bv & Lv) (Bw & Lw) E1 E2.
    destruct (eq_props junk junk v w Bv Bw Lv Lw) as (a' & b' & r & E1' & E2' & Q & R).
    cbn [value string_arg] in E1, E2. rewrite E1 in E1'. rewrite E2 in E2'. injection E1' as <-. injection E2' as <-.
    exists r. split; assumption.
Qed.
Lemma string_default junk : exists a, no_value (string_arg junk) = Ret a /\ from (string_arg junk) a = Ret [].
Proof. eexists. split; [reflexivity|vm_compute; reflexivity]. Qed.
Lemma scalar_default : exists a, no_value scalar_arg = Ret a /\ from scalar_arg a = Ret 0.
Proof. exists 0. split; reflexivity. Qed.

Lemma unit_passable : passable unit_arg (fun _ => True).
Proof.
  split; [intros v _; exists v; split; reflexivity|]. intros [] [] a b _ _ _ _. exists true. split; [reflexivity|tauto].
Qed.

(** ** Vectors *)
Section Vec.
Variables V A : Type.
Variable T : arg_type V A.
Variable P : V -> Prop.
Hypothesis HT : passable T P.

Lemma first_at_cons (x v : V) l i : x <> v -> first_at l v i -> first_at (x :: l) v (i + 1).
Proof.
  intros N (I & E & F). split; [lia|]. replace (Z.to_nat (i + 1)) with (S (Z.to_nat i)) by lia. split; [exact E|].
  intros [|j] J; cbn; [congruence|apply F; lia].
Qed.
Lemma find_from_ok v a : P v -> value T v = Ret a -> forall l i, Forall P l ->
  (exists j, first_at l v j /\ find_from V A T i l a = Ret (wraps 32 (i + j))) \/
  (~ In v l /\ find_from V A T i l a = Ret (-1)).
Proof.
  intros Pv Ev. induction l as [|x l IH]; intros i F; [right; split; [intros []|reflexivity]|].
  inversion F as [|x' l' Px Fl]; subst x' l'.
  destruct (proj1 HT x Px) as (b & Eb & _).
  destruct (proj2 HT x v b a Px Pv Eb Ev) as (r & Er & R).
  cbn [find_from]. rewrite Eb. cbn [obind]. rewrite Er. cbn [obind]. destruct r.
  - left. exists 0. split.
    + split; [lia|]. split; [change (Z.to_nat 0) with 0%nat; cbn; f_equal; apply R; reflexivity|]. intros j J. lia.
    + f_equal. f_equal. lia.
  - assert (N : x <> v) by (intros E; apply R in E; discriminate).
    destruct (IH (i + 1) Fl) as [(j & J & E)|(NI & E)].
    + left. exists (j + 1). split; [apply first_at_cons; assumption|]. rewrite E. f_equal. f_equal. lia.
    + right. split; [|exact E]. intros [E'|I]; [contradiction|exact (NI I)].
Qed.
Lemma first_at_In (l : list V) v i : first_at l v i -> In v l /\ 0 <= i < Z.of_nat (length l).
Proof.
  intros (I & E & _). split; [exact (nth_error_In _ _ E)|].
  pose proof (proj1 (nth_error_Some l (Z.to_nat i)) ltac:(congruence)). lia.
Qed.
Lemma first_at_unique (l : list V) v i j : first_at l v i -> first_at l v j -> i = j.
Proof.
  intros (I & E & F) (J & E' & F').
  destruct (Nat.lt_trichotomy (Z.to_nat i) (Z.to_nat j)) as [L|[L|L]]; [exfalso; exact (F' _ L E)|lia|exfalso; exact (F _ L E')].
Qed.
Lemma wraps32_id z : 0 <= z < 2 ^ 31 -> wraps 32 z = z.
Proof. intros H. apply wraps_id; [lia|]. unfold in_s. pows. lia. Qed.
Lemma update_spec (l : list V) : forall i v, 0 <= i < Z.of_nat (length l) -> set_at l i v (update V (Z.to_nat i) v l).
Proof.
  assert (U : forall (l : list V) n v, (n < length l)%nat ->
            length (update V n v l) = length l /\
            forall j, nth_error (update V n v l) j = if (j =? n)%nat then Some v else nth_error l j).
  { clear. induction l as [|x l IH]; intros n v N; [cbn in N; lia|].
    destruct n as [|n]; cbn [update].
    - split; [reflexivity|]. intros [|j]; reflexivity.
    - destruct (IH n v) as (L & E); [cbn in N; lia|]. split; [cbn; congruence|].
      intros [|j]; [reflexivity|]. cbn. apply E. }
  intros i v I. destruct (U l (Z.to_nat i) v) as (L & E); [lia|].
  split; [exact L|]. intros j. rewrite E.
  destruct (Nat.eqb_spec j (Z.to_nat i)); destruct (Z.eqb_spec (Z.of_nat j) i); try lia; [|reflexivity].
  replace (i <? Z.of_nat (length l)) with true by (symmetry; apply Z.ltb_lt; lia). reflexivity.
Qed.
Lemma update_P l : forall n v, P v -> Forall P l -> Forall P (update V n v l).
Proof.
  induction l as [|x l IH]; intros n v Pv F; [destruct n; constructor|]. inversion F; subst.
  destruct n; cbn [update]; constructor; auto.
Qed.

Lemma vec_step_ok l o : Forall P l -> op_value P o -> in_range (Z.of_nat (length l)) [o] -> Z.of_nat (length l) <= 2 ^ 31 ->
  exists l' r, vec_step V A T (Some l) o = Ret (Some l', r) /\ vec_call l o l' r /\ Forall P l' /\
    length l' = (length l + match o with VAdd _ => 1 | _ => 0 end)%nat.
Proof.
  intros F Pv R L. destruct o as [i|v|v|v|i v|]; cbn [vec_step op_value in_range] in *.
  - destruct R as (I & _). unfold vec_get.
    replace (i <? Z.of_nat (length l)) with true by (symmetry; apply Z.ltb_lt; lia).
    destruct (nth_error l (Z.to_nat i)) as [v|] eqn:E; [|apply nth_error_None in E; lia].
    pose proof (proj1 (Forall_forall P l) F v (nth_error_In _ _ E)) as Px.
    destruct (proj1 HT v Px) as (a & Ea & Fa). rewrite Ea. cbn [obind]. rewrite Fa. cbn [obind].
    exists l, (RElement v). repeat split; auto.
  - destruct (proj1 HT v Pv) as (a & Ea & _). rewrite Ea. cbn [obind vec_find].
    destruct (find_from_ok v a Pv Ea l 0 F) as [(j & J & E)|(N & E)]; rewrite E; cbn [obind].
    + destruct (first_at_In _ _ _ J) as (_ & B). exists l, (RIndex j). rewrite Z.add_0_l, wraps32_id by lia.
      split; [reflexivity|]. split; [split; [reflexivity|left; exact J]|]. split; [exact F|lia].
    + exists l, (RIndex (-1)). repeat split; auto.
  - destruct (proj1 HT v Pv) as (a & Ea & _). rewrite Ea. cbn [obind]. unfold vec_contains. cbn [vec_find].
    destruct (find_from_ok v a Pv Ea l 0 F) as [(j & J & E)|(N & E)]; rewrite E; cbn [obind].
    + destruct (first_at_In _ _ _ J) as (I & B). exists l, (RBool true). rewrite Z.add_0_l, wraps32_id by lia.
      replace (-1 <? j) with true by (symmetry; apply Z.ltb_lt; lia). repeat split; auto.
    + exists l, (RBool false). split; [reflexivity|]. split; [split; [reflexivity|split; intros H; [discriminate|contradiction]]|].
      split; [exact F|lia].
  - destruct (proj1 HT v Pv) as (a & Ea & Fa). rewrite Ea. cbn [obind vec_add]. rewrite Fa. cbn [obind].
    exists (l ++ [v]), RVoid. split; [reflexivity|]. split; [reflexivity|].
    split; [apply Forall_app; auto|rewrite app_length; reflexivity].
  - destruct (proj1 HT v Pv) as (a & Ea & Fa). rewrite Ea. cbn [obind vec_set].
    destruct (Z.ltb_spec i (Z.of_nat (length l))) as [I|I].
    + rewrite Fa. cbn [obind]. exists (update V (Z.to_nat i) v l), RVoid.
      pose proof (update_spec l i v ltac:(lia)) as S. split; [reflexivity|]. split; [exact S|].
      split; [apply update_P; assumption|destruct S as (S & _); lia].
    + exists l, RVoid. split; [reflexivity|]. split; [|split; [exact F|lia]].
      split; [reflexivity|]. intros j. replace (i <? Z.of_nat (length l)) with false by (symmetry; apply Z.ltb_ge; lia).
      rewrite andb_false_r. reflexivity.
  - exists l, (RSize (Z.of_nat (length l))). repeat split; auto.
Qed.
Lemma in_range_cons n o (os : list (vec_op V)) : in_range n (o :: os) ->
  in_range n [o] /\ in_range (n + match o with VAdd _ => 1 | _ => 0 end) os.
Proof. destruct o; cbn [in_range]; rewrite ?Z.add_0_r; tauto. Qed.
Lemma vec_run_ok os : forall l, Forall P l -> Forall (op_value P) os -> in_range (Z.of_nat (length l)) os ->
  Z.of_nat (length l) + Z.of_nat (length os) <= 2 ^ 31 ->
  exists l' rs, vec_run V A T (Some l) os = Ret (Some l', rs) /\ vec_calls l os l' rs.
Proof.
  induction os as [|o os IH]; intros l F Po R L; [exists l, []; split; [reflexivity|constructor]|].
  inversion Po as [|o' os' Po1 Po2]; subst o' os'. apply in_range_cons in R. destruct R as (R1 & R2).
  cbn [length] in L.
  destruct (vec_step_ok l o F Po1 R1 ltac:(lia)) as (l1 & r & E & C & F1 & L1).
  destruct (IH l1 F1 Po2) as (l2 & rs & E2 & C2).
  - rewrite L1. replace (Z.of_nat _) with (Z.of_nat (length l) + match o with VAdd _ => 1 | _ => 0 end); [exact R2|].
    destruct o; lia.
  - destruct o; lia.
  - exists l2, (r :: rs). cbn [vec_run]. rewrite E. cbn [obind]. rewrite E2. cbn [obind].
    split; [reflexivity|econstructor; eassumption].
Qed.
Lemma find_far l v i : Forall P l -> P v -> first_at l v i -> 2 ^ 31 <= i < 2 ^ 32 ->
  vec_step V A T (Some l) (VFind v) = Ret (Some l, RIndex (i - 2 ^ 32)) /\
  vec_step V A T (Some l) (VContains v) = Ret (Some l, RBool false).
Proof.
  intros F Pv I B. destruct (proj1 HT v Pv) as (a & Ea & _). cbn [vec_step]. rewrite Ea. cbn [obind].
  unfold vec_contains. cbn [vec_find].
  destruct (find_from_ok v a Pv Ea l 0 F) as [(j & J & E)|(N & E)].
  - rewrite (first_at_unique _ _ _ _ J I) in E. rewrite E. cbn [obind]. rewrite Z.add_0_l.
    assert (W : wraps 32 i = i - 2 ^ 32).
    { unfold wraps, wrapu. rewrite Z.mod_small by lia. pows.
      destruct (Z.ltb_spec i 2147483648); lia. }
    rewrite W. split; [reflexivity|]. replace (-1 <? i - 2 ^ 32) with false by (symmetry; apply Z.ltb_ge; lia). reflexivity.
  - destruct (first_at_In _ _ _ I) as (I' & _). contradiction.
Qed.
End Vec.
Lemma far_exists : exists (l : list Z) v i, first_at l v i /\ 2 ^ 31 <= i < 2 ^ 32.
Proof.
  exists (repeat 0 (Z.to_nat (2 ^ 31)) ++ [1]), 1, (2 ^ 31).
  assert (H : forall n, nth_error (repeat 0 n ++ [1]) n = Some 1 /\
                        forall j, (j < n)%nat -> nth_error (repeat 0 n ++ [1]) j <> Some 1).
  { intros n. split.
    - rewrite nth_error_app2 by (rewrite repeat_length; lia). rewrite repeat_length, Nat.sub_diag. reflexivity.
    - intros j J. rewrite nth_error_app1 by (rewrite repeat_length; lia). intros E.
      apply nth_error_In, repeat_spec in E. discriminate. }
  split; [|pows; lia]. split; [pows; lia|]. apply H.
Qed.

(** ** Maps *)
Section Maps.
Variables K KA V VA : Type.
Variable key_eqb : K -> K -> bool.
Hypothesis key_ok : forall a b, key_eqb a b = true <-> a = b.
Variable TK : arg_type K KA.
Variable TV : arg_type V VA.
Variable P : K -> Prop.
Variable Q : V -> Prop.
Hypothesis HK : passable TK P.
Hypothesis HV : passable TV Q.
Variable dflt : V.
Hypothesis HD : exists b, no_value TV = Ret b /\ from TV b = Ret dflt.

Notation fv := (first_value K V key_eqb).
Lemma fv_app k h h' : fv k (h ++ h') = match fv k h with Some v => Some v | None => fv k h' end.
Proof. induction h as [|(k', v) h IH]; [reflexivity|]. cbn [app first_value]. destruct (key_eqb k' k); [reflexivity|exact IH]. Qed.
Lemma std_find_nil k : std_find K V key_eqb k [] = None.
Proof. reflexivity. Qed.
Lemma std_find_cons k k' v m : std_find K V key_eqb k ((k', v) :: m) = if key_eqb k' k then Some v else std_find K V key_eqb k m.
Proof. unfold std_find. cbn [find fst]. destruct (key_eqb k' k); reflexivity. Qed.
(** the map agrees with the history, and has as many entries as there are keys *)
Definition agrees (h m : list (K * V)) : Prop :=
  (forall k, std_find K V key_eqb k m = fv k h) /\ length m = distinct K V key_eqb h /\ Forall (fun e => Q (snd e)) m.
Lemma distinct_app k v h : distinct K V key_eqb (h ++ [(k, v)]) =
  (distinct K V key_eqb h + match fv k h with Some _ => 0 | None => 1 end)%nat.
Proof.
  induction h as [|(k', v') h IH]; [reflexivity|]. cbn [app distinct first_value]. rewrite existsb_app. cbn [existsb fst].
  rewrite orb_false_r, IH.
  assert (X : existsb (fun e => key_eqb (fst e) k') h = match fv k' h with Some _ => true | None => false end).
  { clear IH. induction h as [|(k2, v2) h IH]; [reflexivity|]. cbn [existsb first_value fst].
    destruct (key_eqb k2 k'); [reflexivity|exact IH]. }
  rewrite X.
  destruct (key_eqb k' k) eqn:E.
  - apply key_ok in E. subst k'. replace (key_eqb k k) with true by (symmetry; apply key_ok; reflexivity).
    rewrite orb_true_r. destruct (fv k h); lia.
  - replace (key_eqb k k') with false; [rewrite orb_false_r; destruct (fv k' h), (fv k h); lia|].
    symmetry. destruct (key_eqb k k') eqn:E'; [|reflexivity]. apply key_ok in E'. subst k'. rewrite <- E.
    symmetry. apply key_ok. reflexivity.
Qed.
Lemma fv_last k k' v h : fv k (h ++ [(k', v)]) =
  match fv k h with Some w => Some w | None => if key_eqb k' k then Some v else None end.
Proof. rewrite fv_app. reflexivity. Qed.
Lemma agrees_insert h m k v : agrees h m -> Q v ->
  agrees (h ++ [(k, v)]) (fst (std_emplace K V key_eqb k v m)) /\
  snd (std_emplace K V key_eqb k v m) = match fv k h with Some _ => false | None => true end.
Proof.
  intros (A1 & A2 & A3) Qv. unfold std_emplace. rewrite (A1 k). destruct (fv k h) as [w|] eqn:E; cbn [fst snd].
  - split; [|reflexivity]. split; [|split].
    + intros k'. rewrite A1, fv_last. destruct (fv k' h) eqn:E'; [reflexivity|].
      destruct (key_eqb k k') eqn:X; [|reflexivity]. apply key_ok in X. congruence.
    + rewrite distinct_app, E. lia.
    + exact A3.
  - split; [|reflexivity]. split; [|split].
    + intros k'. rewrite std_find_cons, A1, fv_last. destruct (key_eqb k k') eqn:X; [|destruct (fv k' h); reflexivity].
      apply key_ok in X. subst k'. rewrite E. reflexivity.
    + rewrite distinct_app, E. cbn [length]. lia.
    + constructor; assumption.
Qed.
Lemma find_Q m k v : Forall (fun e => Q (snd e)) m -> std_find K V key_eqb k m = Some v -> Q v.
Proof.
  induction m as [|(k', w) m IH]; intros F E; [discriminate|]. inversion F; subst. rewrite std_find_cons in E.
  destruct (key_eqb k' k); [injection E as <-; assumption|auto].
Qed.
Lemma map_run_ok os : forall h m, agrees h m -> Forall (map_op_value P Q) os ->
  exists m', map_run K KA V VA key_eqb TK TV (Some m) os = Ret (Some m', map_answers K V key_eqb dflt h os).
Proof.
  induction os as [|o os IH]; intros h m A F; [exists m; reflexivity|].
  inversion F as [|o' os' Po Fo]; subst o' os'. cbn [map_run].
  destruct o as [k|k|k v|]; cbn [map_step map_answers map_op_value] in *.
  - destruct (proj1 HK k Po) as (a & Ea & Fa). rewrite Ea. cbn [obind map_contains]. rewrite Fa. cbn [obind].
    destruct (IH h m A Fo) as (m' & E). rewrite E. cbn [obind]. exists m'. rewrite (proj1 A k). reflexivity.
  - destruct (proj1 HK k Po) as (a & Ea & Fa). rewrite Ea. cbn [obind map_get]. rewrite Fa. cbn [obind].
    destruct (IH h m A Fo) as (m' & E). rewrite <- (proj1 A k). destruct (std_find K V key_eqb k m) as [v|] eqn:Ek.
    + destruct (proj1 HV v (find_Q _ _ _ (proj2 (proj2 A)) Ek)) as (b & Eb & Fb). rewrite Eb. cbn [obind]. rewrite Fb. cbn [obind].
      rewrite E. exists m'. reflexivity.
    + destruct HD as (b & Eb & Fb). rewrite Eb. cbn [obind]. rewrite Fb. cbn [obind]. rewrite E. exists m'. reflexivity.
  - destruct Po as (Pk & Qv).
    destruct (proj1 HK k Pk) as (a & Ea & Fa). rewrite Ea. cbn [obind].
    destruct (proj1 HV v Qv) as (b & Eb & Fb). rewrite Eb. cbn [obind map_insert]. rewrite Fa. cbn [obind]. rewrite Fb. cbn [obind].
    destruct (agrees_insert h m k v A Qv) as (A' & R).
    destruct (std_emplace K V key_eqb k v m) as (m1, ok). cbn [fst snd obind] in *.
    destruct (IH _ m1 A' Fo) as (m' & E). rewrite E. cbn [obind]. exists m'. rewrite R. reflexivity.
  - destruct (IH h m A Fo) as (m' & E). cbn [obind]. rewrite E. exists m'. cbn [obind]. unfold map_size.
    rewrite (proj1 (proj2 A)). reflexivity.
Qed.
Lemma map_history os : Forall (map_op_value P Q) os ->
  exists m', map_run K KA V VA key_eqb TK TV (Some []) os = Ret (Some m', map_answers K V key_eqb dflt [] os).
Proof. intros F. apply map_run_ok; [|exact F]. split; [reflexivity|]. split; [reflexivity|constructor]. Qed.
End Maps.

(** ** Objects *)
Lemma find_address_ok size p : 0 < size -> forall n addr i,
  (exists j, 0 <= j < Z.of_nat n /\ p = addr + j * size /\ find_address i addr size n p = Ret (wraps 32 (i + j))) \/
  ((forall j, 0 <= j < Z.of_nat n -> p <> addr + j * size) /\ find_address i addr size n p = Ret (-1)).
Proof.
  intros S. induction n as [|n IH]; intros addr i; [right; split; [intros j J; lia|reflexivity]|].
  cbn [find_address]. destruct (Z.eqb_spec addr p) as [E|E].
  - left. exists 0. split; [lia|]. split; [lia|]. f_equal. f_equal. lia.
  - destruct (IH (addr + size) (i + 1)) as [(j & J & E1 & E2)|(N & E2)].
    + left. exists (j + 1). split; [lia|]. split; [lia|]. rewrite E2. f_equal. f_equal. lia.
    + right. split; [|exact E2]. intros j J E'. destruct (Z.eq_dec j 0) as [->|D]; [lia|].
      apply (N (j - 1)); lia.
Qed.
Lemma objects_find_outside {V} (v : object_vector V) p : 0 < stride v ->
  p < base v \/ base v + stride v * Z.of_nat (length (objects v)) <= p -> objects_find v p = Ret (-1).
Proof.
  intros S O. unfold objects_find. destruct (find_address_ok (stride v) p S (length (objects v)) (base v) 0) as [(j & J & E & _)|(_ & E)]; [|exact E].
  exfalso. nia.
Qed.
Lemma set_history K KA key_eqb (key_ok : forall a b : K, key_eqb a b = true <-> a = b) (TK : arg_type K KA) P (HK : passable TK P) os :
  Forall (map_op_value P (fun _ => True)) os ->
  exists m', map_run K KA unit unit key_eqb TK unit_arg (Some []) os = Ret (Some m', map_answers K unit key_eqb tt [] os).
Proof.
  intros F. refine (map_history K KA unit unit key_eqb key_ok TK unit_arg P (fun _ => True) HK unit_passable tt _ os F).
  exists tt. split; reflexivity.
Qed.
Lemma get_outside V A (T : arg_type V A) l i : Z.of_nat (length l) <= i -> vec_step V A T (Some l) (VGet i) = Err.
Proof.
  intros L. cbn [vec_step vec_get]. replace (i <? Z.of_nat (length l)) with false by (symmetry; apply Z.ltb_ge; lia). reflexivity.
Qed.
Lemma null_ok V A (T : arg_type V A) P (HT : passable T P) v i : P v ->
  vec_step V A T None (VFind v) = Ret (None, RIndex (-1)) /\ vec_step V A T None (VContains v) = Ret (None, RBool false) /\ vec_step V A T None VSize = Ret (None, RSize 0) /\ vec_step V A T None (VGet i) = Err /\ vec_step V A T None (VSet i v) = Err /\ vec_step V A T None (VAdd v) = UB.
Proof.
  intros Pv. destruct (proj1 HT v Pv) as (a & E & _). cbn [vec_step vec_get]. rewrite E. cbn. repeat split; reflexivity.
Qed.

Lemma null_map K KA V VA (key_eqb : K -> K -> bool) (TK : arg_type K KA) (TV : arg_type V VA) P Q : passable TK P -> passable TV Q ->
  forall k v, P k -> Q v ->
  map_step K KA V VA key_eqb TK TV None (MContains k) = Ret (None, RBool false) /\
  map_step K KA V VA key_eqb TK TV None (MInsert k v) = Ret (None, RBool false) /\
  map_step K KA V VA key_eqb TK TV None MSize = Ret (None, RSize 0) /\
  map_step K KA V VA key_eqb TK TV None (MGet k) = Err.
Proof.
  intros HK HV k v Pk Qv. destruct (proj1 HK k Pk) as (a & E & _). destruct (proj1 HV v Qv) as (b & E' & _). cbn [map_step]. rewrite E, E'. repeat split; reflexivity.
Qed.
