(** Histories of calls. *)
From Coq Require Import List Bool Arith ZArith Lia Sorted Permutation.
Import ListNotations.
From Verif Require Import Base Simd_Spec Vector_Spec Vector_Model Vector_Proofs Simd_Model Simd_Proofs
  Table_Model Table_Spec Table_Proofs TableRows_Proofs TableColumns_Proofs TableGroup_Proofs TableDedup_Proofs.
Local Open Scope Z_scope.

Section T.
Context {V : Type}.
Variables (lanes64 lanes8 garbage : Z).
Hypothesis LN : machine lanes64 lanes8.
Variables (veq : V -> V -> bool) (hashable : V -> bool)
  (sort_order : list V -> bool -> list nat) (partial_order : list V -> nat -> bool -> list nat)
  (shuffle : forall A : Type, list A -> list A) (le : V -> V -> Prop).
Hypothesis EQ : equality veq.
Hypothesis SO : sorts le sort_order.
Hypothesis PO : selects le partial_order.
Hypothesis SH : forall A (l : list A), Permutation (shuffle A l) l.
Notation table := (@table V).
Notation call := (call lanes64 lanes8 garbage veq hashable sort_order partial_order shuffle).
Notation calls := (calls lanes64 lanes8 garbage veq hashable sort_order partial_order shuffle).

Definition news (t : table) : list (@column V) := map (fun _ => new_column) (sc_columns (t_schema t)).
Lemma made h (t t' : table) : table_ok h t -> t_schema t' = t_schema t -> of_schema t' -> aligned t' -> t_columns t' = news t -> table_ok h t'.
Proof. intros (P & _) S O A C. apply (made_ok h t' (sc_columns (t_schema t))); auto; congruence. Qed.
Lemma Filter_cols m (t t' : table) : Filter lanes64 garbage m t = Ret t' -> t_columns t' = news t.
Proof. unfold Filter, DoFilter. destruct (each_rows _ _); try discriminate. cbn. intros H. injection H as <-. apply unload_new. Qed.
Lemma Split_cols m (t a b : table) : Split lanes64 lanes8 garbage m t = Ret (a, b) -> t_columns a = news t /\ t_columns b = news t.
Proof.
  unfold Split. destruct (bits_not _ _ _ _ _); try discriminate. cbn [obind]. destruct (Filter lanes64 garbage m t) eqn:E1; try discriminate. cbn [obind].
  destruct (Filter lanes64 garbage (mk_bits _ _) t) eqn:E2; try discriminate. cbn [obind]. intros H. injection H as <- <-. eauto using Filter_cols.
Qed.
Lemma Head_cols k (t t' : table) : Head k t = Another t' -> t_columns t' = news t.
Proof. unfold Head. destruct (Nat.leb _ _); [discriminate|]. intros H. injection H as <-. apply unload_new. Qed.
Lemma Tail_cols k (t t' : table) : Tail k t = Another t' -> t_columns t' = news t.
Proof. unfold Tail. destruct (Nat.leb _ _); [discriminate|]. intros H. injection H as <-. apply unload_new. Qed.
Lemma OrderBy_cols keys w d (t t' : table) ks : OrderBy lanes64 garbage sort_order keys w d t = Ret (t', ks) -> t_columns t' = news t.
Proof.
  unfold OrderBy. destruct (_ || _); [discriminate|]. destruct (pick keys _); try discriminate. cbn [obind].
  destruct (pick _ _); try discriminate. cbn [obind]. destruct (each_rows _ _); try discriminate. cbn [obind]. intros H. injection H as <- <-. apply unload_new.
Qed.
Lemma Topk_cols keys w k d (t t' : table) ks : Topk lanes64 garbage partial_order keys w k d t = Ret (t', ks) -> t_columns t' = news t.
Proof.
  unfold Topk. destruct (_ || _); [discriminate|]. destruct (pick keys _); try discriminate. cbn [obind].
  destruct (pick _ _); try discriminate. cbn [obind]. destruct (each_rows _ _); try discriminate. cbn [obind]. intros H. injection H as <- <-. apply unload_new.
Qed.
Lemma Concat_cols (o t t' : table) : Concat o t = Ret t' -> t_columns t' = news t.
Proof. unfold Concat, DoConcat. cbn. destruct (negb _); [discriminate|]. intros H. injection H as <-. apply unload_new. Qed.

Lemma new_ok h (sc : schema) : proper sc -> table_ok h (@new_table V sc).
Proof.
  intros P. apply (made_ok h _ (sc_columns sc)); auto.
  - split; cbn; [rewrite map_map; apply map_id|now rewrite map_length].
  - intros r H. cbn in H. apply in_map_iff in H. destruct H as (s & <- & H). cbn. destruct (sc_rows sc); auto.
Qed.
Lemma Tail_table_ok h k (t t' : table) : table_ok h t -> Tail k t = Another t' -> table_ok h t'.
Proof.
  intros T E. pose proof T as (P & O & A & C). unfold Tail in E. destruct (Nat.leb_spec (Count t) k); [discriminate|]. injection E as <-.
  apply (made h t); auto; [| |apply unload_new].
  - split; cbn; [rewrite map_map; apply O|rewrite !map_length; reflexivity].
  - intros r Hr. cbn in Hr |- *. apply in_map_iff in Hr. destruct Hr as (r0 & <- & Hr). cbn [fst snd].
    pose proof (A r0 Hr) as L. unfold Count in *. destruct (t_rows t) as [|[s o] rs]; [easy|]. cbn in L |- *.
    unfold Truncate_from. rewrite L. destruct (Nat.leb_spec (length o) (length o - k)); [exact L|].
    rewrite !firstn_length, !skipn_length, L. reflexivity.
Qed.
Lemma schema_of_add h given (t t' : table) : table_ok h t -> acceptable given (t_schema t) -> AddRows given t = (t', true) -> table_ok h t'.
Proof.
  intros (P & O & A & C) AC E. destruct (AddRows_ok given t O A AC) as (t1 & E1 & S1 & O1 & A1 & _).
  rewrite E1 in E. injection E as ->. split; [now rewrite S1|]. split; [exact O1|]. split; [exact A1|].
  rewrite (AddRows_true given t O AC) in E1. injection E1 as <-. cbn. eapply unload_cols_ok. exact C.
Qed.
Lemma insert_table_ok h pos given (t t' : table) : table_ok h t -> sc_rows (t_schema t) <> [] -> map fst given = sc_rows (t_schema t) ->
  (pos <= Count t)%nat -> InsertRow pos given t = (t', true) -> table_ok h t'.
Proof.
  intros (P & O & A & C) N F L E. destruct (InsertRow_ok pos given t O A N F L) as (t1 & E1 & S1 & O1 & A1 & _).
  rewrite E1 in E. injection E as ->. split; [now rewrite S1|]. split; [exact O1|]. split; [exact A1|].
  unfold InsertRow in E1. destruct (existsb _ given); [discriminate|]. destruct (negb _); [discriminate|].
  destruct (insert_each _ _ _) as [rs ok]. destruct ok; [|discriminate]. injection E1 as <-. cbn. eapply unload_cols_ok. exact C.
Qed.
Lemma add_any_ok h given (t t' : table) ok : table_ok h t -> (length (sc_rows (t_schema t)) = 1)%nat \/ acceptable given (t_schema t) ->
  AddRows given t = (t', ok) -> table_ok h t'.
Proof.
  intros T D E. pose proof T as (_ & O & _). destruct ok.
  - apply (schema_of_add h given t); auto. eapply AddRows_accepts; eauto.
  - destruct D as [D|D].
    + destruct (sc_rows (t_schema t)) as [|s [|]] eqn:SR; try discriminate. now rewrite (AddRows_single given t t' s O SR E).
    + rewrite (AddRows_true given t O D) in E. discriminate.
Qed.
Lemma insert_any_ok h pos given (t t' : table) ok : table_ok h t ->
  (length (sc_rows (t_schema t)) = 1)%nat \/ sc_rows (t_schema t) <> [] /\ map fst given = sc_rows (t_schema t) /\ (pos <= Count t)%nat ->
  InsertRow pos given t = (t', ok) -> table_ok h t'.
Proof.
  intros T D E. pose proof T as (_ & O & A & _).
  assert (N : sc_rows (t_schema t) <> []). { destruct D as [D|(D & _)]; auto. intros X. rewrite X in D. discriminate. }
  destruct ok.
  - destruct (InsertRow_accepts pos given t t' O N E) as (F & L). exact (insert_table_ok h pos given t t' T N F L E).
  - destruct D as [D|(_ & F & L)].
    + destruct (sc_rows (t_schema t)) as [|s [|]] eqn:SR; try discriminate. now rewrite (InsertRow_single pos given t t' s O SR E).
    + destruct (InsertRow_ok pos given t O A N F L) as (t1 & E1 & _). rewrite E1 in E. discriminate.
Qed.

Definition state_ok (st : @state V) : Prop := Forall (table_ok (fst st)) (snd st).
Lemma put_forall (P : table -> Prop) x t ts : P t -> Forall P ts -> Forall P (put x t ts).
Proof.
  intros H F. unfold put. apply Forall_app. split.
  - rewrite <- (firstn_skipn x) in F. apply Forall_app in F. apply F.
  - constructor; auto. rewrite <- (firstn_skipn (S x)) in F. apply Forall_app in F. apply F.
Qed.
Lemma groups_ok h (t : table) gs ts : table_ok h t -> Forall2 (table_of_group t) gs ts -> Forall (table_ok h) ts.
Proof.
  intros T. induction 1 as [|g t' gs ts (S & O & A & _ & C) _ IH]; constructor; auto. apply (made h t); auto.
Qed.
Lemma single_schema_ok h (sc : schema) s objs : proper sc -> sc_rows sc = [s] -> table_ok h (with_rows [(s, objs)] (@new_table V sc)).
Proof.
  intros P S. destruct (single_ok (V := V) sc s objs S) as (X1 & X2 & X3 & _). apply (made_ok h _ (sc_columns sc)); auto.
Qed.

Lemma call_ok o st : state_ok st -> valid hashable o st -> exists st' ok, call o st = Ret (st', ok) /\ state_ok st' /\ fst st' = fst st.
Proof.
  destruct st as [h ts]. intros ST VA. unfold state_ok in *. cbn [fst snd] in *.
  assert (TOK : forall x t, nth_error ts x = Some t -> table_ok h t).
  { intros x t E. rewrite Forall_forall in ST. apply ST. eauto using nth_error_In. }
  unfold Table_Spec.call, valid in *. cbv zeta in *.
  destruct o as [sc|x given|x pos given|x m|x m|x k|x k|x keys w d|x keys w k d|x col d|x keys|x cols|x col k|x cols|x cols merge|x y|x y cols merge|x sc s f|x sc s f|x col|x col|x col u data w|x col];
    try contradiction;
    try (destruct (nth_error ts x) as [t|] eqn:EX; [pose proof (TOK x t EX) as T; pose proof T as (TP & TO & TA & TC)|
      eexists _, _; split; [reflexivity|]; split; [exact ST|reflexivity]]).
  - (* new *) eexists _, _. split; [reflexivity|]. split; [|reflexivity]. cbn. apply Forall_app. split; auto. constructor; auto. now apply new_ok.
  - (* add *) destruct (AddRows given t) as [t' ok] eqn:E. eexists _, _. split; [reflexivity|]. split; [|reflexivity]. cbn.
    apply put_forall; auto. apply (add_any_ok h given t t' ok); auto.
  - (* insert *) destruct (InsertRow pos given t) as [t' ok] eqn:E. eexists _, _. split; [reflexivity|]. split; [|reflexivity]. cbn.
    apply put_forall; auto. apply (insert_any_ok h pos given t t' ok); auto.
  - (* filter *) destruct (Filter_ok lanes64 lanes8 garbage LN m t TO TA (VA t eq_refl)) as (t' & E & S & O & A & _). rewrite E. cbn [obind].
    eexists _, _. split; [reflexivity|]. split; [|reflexivity]. cbn. apply Forall_app. split; auto. constructor; auto.
    apply (made h t); auto. eapply Filter_cols; eauto.
  - (* split *) destruct (VA t eq_refl) as (M & Z).
    destruct (Split_ok lanes64 lanes8 garbage LN m t TO TA M Z) as (a & b & E & (S1 & O1 & A1 & _) & (S2 & O2 & A2 & _)). rewrite E. cbn [obind].
    destruct (Split_cols m t a b E) as (C1 & C2).
    eexists _, _. split; [reflexivity|]. split; [|reflexivity]. cbn. apply Forall_app. split; auto. constructor; [now apply (made h t)|]. constructor; [now apply (made h t)|auto].
  - (* head *) eexists _, _. split; [reflexivity|]. split; [|reflexivity]. cbn. destruct (Head k t) as [|t'] eqn:E; auto. cbn. apply Forall_app. split; auto. constructor; auto.
    assert (K : (k < Count t)%nat) by (unfold Head in E; destruct (Nat.leb_spec (Count t) k); [discriminate|auto]).
    destruct (Head_ok k t TO TA K) as (t1 & E1 & S & O & A & _). rewrite E1 in E. injection E as ->. apply (made h t); auto. eapply Head_cols; eauto.
  - (* tail *) eexists _, _. split; [reflexivity|]. split; [|reflexivity]. cbn. destruct (Tail k t) as [|t'] eqn:E; auto. cbn. apply Forall_app. split; auto. constructor; auto.
    eapply Tail_table_ok; eauto.
  - (* order *) destruct (negb w || negb (Nat.eqb (length keys) (Count t))) eqn:D.
    + unfold OrderBy. rewrite D. cbn. eexists _, _. split; [reflexivity|]. auto.
    + apply orb_false_iff in D. destruct D as (D1 & D2). apply negb_false_iff in D1, D2. apply Nat.eqb_eq in D2. subst w.
      destruct (OrderBy_ok lanes64 lanes8 garbage LN sort_order le keys d t TO TA D2 SO) as (ord & t' & keys' & E & S & O & A & _). rewrite E. cbn [obind].
      eexists _, _. split; [reflexivity|]. split; [|reflexivity]. cbn. apply Forall_app. split; auto. constructor; auto. apply (made h t); auto. eapply OrderBy_cols; eauto.
  - (* topk *) destruct (negb w || negb (Nat.eqb (length keys) (Count t))) eqn:D.
    + unfold Topk. rewrite D. cbn. eexists _, _. split; [reflexivity|]. auto.
    + apply orb_false_iff in D. destruct D as (D1 & D2). apply negb_false_iff in D1, D2. apply Nat.eqb_eq in D2. subst w.
      destruct (Topk_ok lanes64 lanes8 garbage LN partial_order le keys k d t TO TA D2 PO) as (ord & t' & keys' & E & S & O & A & _). rewrite E. cbn [obind].
      eexists _, _. split; [reflexivity|]. split; [|reflexivity]. cbn. apply Forall_app. split; auto. constructor; auto. apply (made h t); auto. eapply Topk_cols; eauto.
  - (* group *) destruct (Nat.eqb_spec (length keys) (Count t)) as [L|L].
    + destruct (GroupBy_ok lanes64 lanes8 garbage LN veq shuffle keys t TO TA L EQ SH) as (gs & l & E & _ & _ & G). rewrite E. cbn [obind].
      eexists _, _. split; [reflexivity|]. split; [|reflexivity]. cbn. apply Forall_app. split; auto. eapply (groups_ok h t); eauto.
    + unfold GroupBy. rewrite (proj2 (Nat.eqb_neq _ _) L). cbn. eexists _, _. split; [reflexivity|]. auto.
  - (* group by columns *) destruct (VA t eq_refl) as (fs & F & GK).
    destruct (GroupBy_columns_ok lanes64 lanes8 garbage LN veq hashable shuffle h t cols fs T F GK EQ SH) as (t' & gs & l & E & S & T' & _ & _ & G).
    rewrite E. cbn [obind]. eexists _, _. split; [reflexivity|]. split; [|reflexivity]. cbn. apply Forall_app. split; [now apply put_forall|]. eapply (groups_ok h t); eauto.
  - (* dedup *) specialize (VA t eq_refl). destruct (nth_error (sc_columns (t_schema t)) col) as [f|] eqn:F.
    + destruct (cf_bit f) eqn:B.
      * unfold Dedup. rewrite F. destruct (Load_ok h col f t T F) as (t' & c & -> & _). cbn [obind]. rewrite B. cbn. eexists _, _. split; [reflexivity|]. auto.
      * destruct (Dedup_ok garbage veq EQ h col k f t T F B VA) as (t' & m & E & S & T' & _). rewrite E. cbn [obind].
        eexists _, _. split; [reflexivity|]. split; [|reflexivity]. cbn. now apply put_forall.
    + unfold Dedup. rewrite F. cbn. eexists _, _. split; [reflexivity|]. auto.
  - (* distinct *) destruct VA as (NE & VA). destruct (VA t eq_refl) as (LC & fs & F & B).
    assert (NF : fs <> []). { intros ->. inversion F. congruence. }
    destruct (Distinct_ok lanes64 lanes8 garbage LN veq EQ h cols fs t T F NF B LC) as (t' & E & S & T' & _). rewrite E. cbn [obind].
    eexists _, _. split; [reflexivity|]. split; [|reflexivity]. cbn. now apply put_forall.
  - (* distinct with merging *) destruct (VA t eq_refl) as ((fs & F & GK) & W).
    destruct (DistinctMerge_ok veq hashable shuffle h t cols fs merge T F GK EQ SH W) as (t' & gs & E & S & T' & _). rewrite E. cbn [obind].
    eexists _, _. split; [reflexivity|]. split; [|reflexivity]. cbn. now apply put_forall.
  - (* concat *) destruct (nth_error ts y) as [t2|] eqn:EY; [|eexists _, _; split; [reflexivity|]; auto].
    pose proof (TOK y t2 EY) as (_ & TO2 & TA2 & _). destruct (Nat.eq_dec (sc_id (t_schema t)) (sc_id (t_schema t2))) as [D|D].
    + pose proof (VA t eq_refl t2 eq_refl D) as SS. destruct (Concat_ok t2 t TO TO2 SS (proj1 TP) TA TA2) as (t' & E & S & O & A & _). rewrite E. cbn [obind].
      eexists _, _. split; [reflexivity|]. split; [|reflexivity]. cbn. apply Forall_app. split; auto. constructor; auto. apply (made h t); auto. eapply Concat_cols; eauto.
    + rewrite Concat_other by auto. cbn. eexists _, _. split; [reflexivity|]. auto.
  - (* map *) unfold Map. destruct (sc_rows sc) as [|s' [|]] eqn:SR; try (cbn; eexists _, _; split; [reflexivity|]; now auto).
    destruct (Nat.eqb_spec s' s) as [->|]; [|cbn; eexists _, _; split; [reflexivity|]; now auto].
    rewrite (map_loop_ok f (t_rows t) TA) by (unfold Count; destruct (t_rows t) as [|[]]; cbn; lia). cbn [obind].
    eexists _, _. split; [reflexivity|]. split; [|reflexivity]. cbn. apply Forall_app. split; auto. constructor; auto. now apply single_schema_ok.
  - (* flat map *) unfold FlatMap. destruct (sc_rows sc) as [|s' [|]] eqn:SR; try (cbn; eexists _, _; split; [reflexivity|]; now auto).
    destruct (Nat.eqb_spec s' s) as [->|]; [|cbn; eexists _, _; split; [reflexivity|]; now auto].
    rewrite (flatmap_loop_ok f (t_rows t) TA) by (unfold Count; destruct (t_rows t) as [|[]]; cbn; lia). cbn [obind].
    eexists _, _. split; [reflexivity|]. split; [|reflexivity]. cbn. apply Forall_app. split; auto. constructor; auto. now apply single_schema_ok.
  - (* get *) unfold Get. destruct (nth_error (t_columns t) col) as [c|] eqn:EC; [|cbn; eexists _, _; split; [reflexivity|]; now auto].
    destruct (memory c).
    + cbn. eexists _, _. split; [reflexivity|]. split; [|reflexivity]. cbn. now apply put_forall.
    + assert (F : exists f, nth_error (sc_columns (t_schema t)) col = Some f).
      { destruct (nth_error (sc_columns (t_schema t)) col) eqn:F; eauto. apply nth_error_None in F. rewrite (Forall2_len _ _ _ TC) in F. apply nth_error_None in F. congruence. }
      destruct F as (f & F). destruct (Load_ok h col f t T F) as (t' & c' & E & S & T' & _). rewrite E. cbn [obind].
      eexists _, _. split; [reflexivity|]. split; [|reflexivity]. cbn. now apply put_forall.
  - (* read *) destruct (nth_error (sc_columns (t_schema t)) col) as [f|] eqn:F.
    + destruct (Load_ok h col f t T F) as (t' & c' & E & S & T' & _). rewrite E. cbn [obind].
      eexists _, _. split; [reflexivity|]. split; [|reflexivity]. cbn. now apply put_forall.
    + unfold LoadColumnBase. rewrite F. destruct (nth_error (t_columns t) col); cbn; eexists _, _; (split; [reflexivity|]; now auto).
  - (* unload *) eexists _, _. split; [reflexivity|]. split; [|reflexivity]. cbn. apply put_forall; auto. unfold UnloadColumn.
    destruct (nth_error (t_columns t) col) as [c|] eqn:EC; auto.
    assert (SR : same_rows t (set_column col (Unload c) t)) by (split; reflexivity).
    split; [exact TP|]. split; [|split; [exact TA|]].
    + apply (same_of t); auto. apply upd_len.
    + cbn. destruct (nth_error (sc_columns (t_schema t)) col) as [f|] eqn:F.
      * apply (Forall2_upd _ _ _ (cols_ok_same h t _ _ _ SR TC) col f); auto.
        pose proof (Forall2_nth _ _ _ TC col f c F EC) as (M & _). split; [exact M|now left].
      * apply nth_error_None in F. rewrite (Forall2_len _ _ _ TC) in F. apply nth_error_None in F. congruence.
Qed.

Lemma calls_ok : forall l st, state_ok st ->
  careful lanes64 lanes8 garbage veq hashable sort_order partial_order shuffle l st ->
  exists st' oks, calls l st = Ret (st', oks) /\ state_ok st' /\ fst st' = fst st.
Proof.
  induction l as [|o l IH]; intros st ST C.
  - exists st, []. split; [reflexivity|]. auto.
  - cbn [careful] in C. destruct C as (VA & C). destruct (call_ok o st ST VA) as (st1 & ok & E & ST1 & H1).
    destruct (IH st1 ST1 (C st1 ok E)) as (st2 & oks & E2 & ST2 & H2). exists st2, (ok :: oks). cbn [Table_Spec.calls]. rewrite E. cbn [obind].
    rewrite E2. cbn [obind]. split; [reflexivity|]. split; auto. congruence.
Qed.
Lemma history_reads l h : careful lanes64 lanes8 garbage veq hashable sort_order partial_order shuffle l (h, []) ->
  exists ts oks, calls l (h, []) = Ret ((h, ts), oks) /\
    forall x t, nth_error ts x = Some t -> aligned t /\
      forall k f, nth_error (sc_columns (t_schema t)) k = Some f ->
        exists t' c, LoadColumnBase h k t = Ret (t', c) /\ same_rows t t' /\ elements c = Ret (column_values h t f).
Proof.
  intros C. destruct (calls_ok l (h, []) ltac:(constructor) C) as ([h' ts] & oks & E & ST & H). cbn in H. subst h'.
  exists ts, oks. split; [exact E|]. intros x t EX. unfold state_ok in ST. cbn in ST. rewrite Forall_forall in ST.
  specialize (ST t (nth_error_In _ _ EX)). split; [apply ST|]. intros k f F.
  destruct (Load_ok h k f t ST F) as (t' & c & L & S & _ & El & _). exists t', c. auto.
Qed.
End T.

Lemma Merge_other {V} veq hashable shuffle h ks merge (other t : @table V) : sc_id (t_schema t) <> sc_id (t_schema other) ->
  Merge veq hashable shuffle h other ks merge t = Err.
Proof. intros D. unfold Merge, DoConcat. now rewrite (proj2 (Nat.eqb_neq _ _) D). Qed.
