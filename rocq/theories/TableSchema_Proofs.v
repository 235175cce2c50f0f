From Coq Require Import Ascii String List Bool Arith ZArith Lia.
Import ListNotations.
From Verif Require Import Base TableSchema_Model TableSchema_Spec.

Lemma existsb_in l n : existsb (String.eqb n) l = true <-> In n l.
Proof.
  rewrite existsb_exists. split.
  - intros (x & H & E). apply String.eqb_eq in E. now subst.
  - intros H. exists n. split; auto. apply String.eqb_refl.
Qed.
Lemma allowed_b o n : IsAllowed o n = visible_b (include_fields o) (exclude_fields o) n.
Proof.
  unfold IsAllowed, visible_b, count. destruct (include_fields o) as [|i l]; cbn [length Nat.eqb negb].
  - destruct (exclude_fields o) as [|e l]; cbn [length Nat.eqb negb]; auto. now destruct (existsb _ _).
  - now destruct (existsb _ _).
Qed.
Lemma visible_ok i e n : visible_b i e n = true <-> visible i e n.
Proof.
  unfold visible_b, visible. destruct i as [|x i].
  - rewrite negb_true_iff, <- not_true_iff_false, existsb_in. split; [intros H; split; [contradiction|auto]|intros (_ & H); auto].
  - rewrite existsb_in. split; [intros H; split; [auto|discriminate]|intros (H & _); apply H; discriminate].
Qed.
Lemma allowed_visible o n : IsAllowed o n = true <-> visible (include_fields o) (exclude_fields o) n.
Proof. rewrite allowed_b. apply visible_ok. Qed.

Lemma column_name_pre o n : column_name o n = (prefix o ++ n)%string.
Proof. unfold column_name. destruct (String.eqb_spec (prefix o) ""); auto. now rewrite e. Qed.

Definition given (o : options) (row idx : nat) (fs : list field) : list column :=
  flat_map (fun f => match f_type (snd f) with
                     | Some ty => if visible_b (include_fields o) (exclude_fields o) (f_name (snd f))
                                  then [mk_column (prefix o ++ f_name (snd f))%string ty row (fst f)] else []
                     | None => []
                     end) (combine (seq idx (length fs)) fs).
(** Exactly what the loop does. *)
Lemma add_fields_shape o row fs : forall idx s v s' v' ok, add_fields o row idx fs s v = (s', v', ok) ->
  rows s' = rows s /\ made s' = made s /\ exists k, columns s' = columns s ++ firstn k (given o row idx fs) /\
    (v' = v + length (firstn k (given o row idx fs))) /\
    (ok = true -> columns s' = columns s ++ given o row idx fs /\
      forall f, In f fs -> f_type f = None -> ignore_unsupported o = true \/ visible_b (include_fields o) (exclude_fields o) (f_name f) = false) /\
    (ok = false -> (exists f, In f fs /\ f_type f = None /\ visible_b (include_fields o) (exclude_fields o) (f_name f) = true /\ ignore_unsupported o = false) \/
      ~ NoDup (map c_name (columns s ++ given o row idx fs))).
Proof.
  induction fs as [|f fs IH]; intros idx s v s' v' ok E; cbn [add_fields] in E.
  - injection E as <- <- <-. split; auto. split; auto. exists 0. cbn. rewrite app_nil_r. split; auto. split; [lia|].
    split; [intros _; split; auto; intros ? []|discriminate].
  - change (given o row idx (f :: fs)) with
      ((match f_type f with
        | Some ty => if visible_b (include_fields o) (exclude_fields o) (f_name f) then [mk_column (prefix o ++ f_name f)%string ty row idx] else []
        | None => [] end) ++ given o row (S idx) fs).
    rewrite allowed_b in E. destruct (visible_b _ _ (f_name f)) eqn:VB; cbn [negb] in E.
    + destruct (f_type f) as [ty|] eqn:FT.
      * unfold AddColumn in E. rewrite column_name_pre in E. destruct (existsb _ (columns s)) eqn:EX.
        -- injection E as <- <- <-. split; auto. split; auto. exists 0. cbn. rewrite app_nil_r. split; auto. split; [lia|].
           split; [discriminate|]. intros _. right. intros ND. apply existsb_exists in EX. destruct EX as (c & Hc & Ec). apply String.eqb_eq in Ec.
           rewrite map_app in ND. cbn [map c_name] in ND. apply NoDup_remove_2 in ND. apply ND. apply in_or_app. left. rewrite <- Ec. now apply in_map.
        -- apply IH in E. destruct E as (R1 & M1 & k & C1 & V1 & T1 & F1). cbn [columns rows made] in *. split; auto. split; auto. exists (S k).
           cbn [app firstn]. rewrite <- app_assoc in C1. cbn [app] in C1. split; [exact C1|]. split; [cbn [length]; lia|]. split.
           ++ intros OK. destruct (T1 OK) as (T2 & T3). rewrite <- app_assoc in T2. split; [exact T2|]. intros g [<-|G] N; [congruence|auto].
           ++ intros OK. destruct (F1 OK) as [(g & G & H)|ND]; [left; exists g; split; [now right|auto]|right]. now rewrite <- app_assoc in ND.
      * destruct (ignore_unsupported o) eqn:IG.
        -- apply IH in E. destruct E as (R1 & M1 & k & C1 & V1 & T1 & F1). split; auto. split; auto. exists k. cbn [app]. split; auto. split; auto. split.
           ++ intros OK. destruct (T1 OK) as (T2 & T3). split; [exact T2|]. intros g _ _. now left.
           ++ intros OK. destruct (F1 OK) as [(g & G & H)|ND]; [left; exists g; split; [now right|exact H]|right; auto].
        -- injection E as <- <- <-. split; auto. split; auto. exists 0. cbn. rewrite app_nil_r. split; auto. split; [lia|]. split; [discriminate|].
           intros _. left. exists f. split; [now left|]. auto.
    + apply IH in E. destruct E as (R1 & M1 & k & C1 & V1 & T1 & F1). split; auto. split; auto.
      assert (X : match f_type f with Some ty => if false then [mk_column (prefix o ++ f_name f)%string ty row idx] else [] | None => [] end = []) by now destruct (f_type f).
      rewrite X. cbn [app]. exists k. split; auto. split; auto. split.
      * intros OK. destruct (T1 OK) as (T2 & T3). split; [exact T2|]. intros g [<-|G] N; [now right|auto].
      * intros OK. destruct (F1 OK) as [(g & G & H)|ND]; [left; exists g; split; [now right|auto]|right; auto].
Qed.

(** A successful call adds the columns of the type. *)
Lemma AddColumns_true o fs s s' : AddColumns o fs s = (s', true) ->
  columns s' = columns s ++ columns_of_type (include_fields o) (exclude_fields o) (prefix o) (made s) fs /\
  rows s' = rows s ++ [made s] /\ made s' = S (made s).
Proof.
  unfold AddColumns. destruct (add_fields _ _ _ _ _ _) as [[s1 v] ok] eqn:E. apply add_fields_shape in E. destruct E as (R1 & M1 & k & C1 & V1 & T1 & F1).
  destruct ok; cbn [andb]; [|discriminate]. destruct (negb _); [|discriminate]. intros X. injection X as <-. cbn in *. destruct (T1 eq_refl) as (T2 & _).
  split; [exact T2|]. split; [now rewrite R1|auto].
Qed.
(** Names are never given twice. *)
Lemma add_fields_nodup o row fs : forall idx s v, NoDup (map c_name (columns s)) -> NoDup (map c_name (columns (fst (fst (add_fields o row idx fs s v))))).
Proof.
  induction fs as [|f fs IH]; intros idx s v ND; cbn [add_fields]; auto. destruct (negb _); [now apply IH|]. destruct (f_type f) as [ty|].
  - destruct (AddColumn _ _ _ _ _) as [s1|] eqn:E; auto. apply IH. unfold AddColumn in E. destruct (existsb _ _) eqn:EX; [discriminate|]. injection E as <-.
    cbn. rewrite map_app. cbn. apply NoDup_rev in ND. rewrite <- (rev_involutive (map c_name (columns s) ++ _)). apply NoDup_rev.
    rewrite rev_app_distr. cbn. constructor; auto. rewrite <- in_rev. intros H. apply in_map_iff in H. destruct H as (c & Ec & Hc).
    apply not_true_iff_false in EX. apply EX. apply existsb_exists. exists c. split; auto. now apply String.eqb_eq.
  - destruct (ignore_unsupported o); auto.
Qed.
Lemma AddColumns_nodup o fs s s' ok : NoDup (map c_name (columns s)) -> AddColumns o fs s = (s', ok) -> NoDup (map c_name (columns s')).
Proof.
  intros ND. unfold AddColumns. pose proof (add_fields_nodup o (made s) fs 0 (mk_schema (columns s) (rows s) (S (made s))) 0 ND) as H.
  destruct (add_fields _ _ _ _ _ _) as [[s1 v] k]. cbn in H. destruct (_ && _); intros X; injection X as <- _; auto.
Qed.
Lemma adds_nodup l : forall s s' oks, NoDup (map c_name (columns s)) -> adds l s = (s', oks) -> NoDup (map c_name (columns s')).
Proof.
  induction l as [|[o fs] l IH]; intros s s' oks ND E; cbn in E; [now injection E as <- _|].
  destruct (AddColumns o fs s) as [s1 ok] eqn:E1. destruct (adds l s1) as [s2 oks2] eqn:E2. injection E as <- <-. eauto using AddColumns_nodup.
Qed.
(** If all calls succeed every column's row schema is there. *)
Lemma given_row o row fs : forall idx c, In c (given o row idx fs) -> c_row c = row.
Proof.
  intros idx c H. unfold given in H. apply in_flat_map in H. destruct H as ((i & f) & _ & H). cbn [fst snd] in H.
  destruct (f_type f); [|easy]. destruct (visible_b _ _ _); [|easy]. destruct H as [<-|[]]. reflexivity.
Qed.
Lemma adds_sound l : forall s s' oks, sound s -> adds l s = (s', oks) -> Forall (fun ok => ok = true) oks -> sound s'.
Proof.
  induction l as [|[o fs] l IH]; intros s s' oks SO E F; cbn in E; [now injection E as <- _|].
  destruct (AddColumns o fs s) as [s1 ok] eqn:E1. destruct (adds l s1) as [s2 oks2] eqn:E2. injection E as <- <-.
  inversion F as [|? ? F1 F2]; subst. apply (IH s1 s2 oks2); auto. apply AddColumns_true in E1. destruct E1 as (C1 & R1 & _).
  intros c H. rewrite C1 in H. rewrite R1. apply in_app_or in H. apply in_or_app. destruct H as [H|H]; [left; now apply SO|right].
  rewrite (given_row o (made s) fs 0 c H). now left.
Qed.
(** A failed call keeps the columns it had added; their row schema is freed. *)
Definition fresh_rows (s : schema) : Prop := forall r, In r (rows s) -> r < made s.
Lemma AddColumns_failed o f fs f' rest s ty : f_type f = Some ty -> visible (include_fields o) (exclude_fields o) (f_name f) ->
  ~ In (prefix o ++ f_name f)%string (map c_name (columns s)) -> fs = f :: f' :: rest ->
  f_type f' = None -> visible (include_fields o) (exclude_fields o) (f_name f') -> ignore_unsupported o = false -> fresh_rows s ->
  exists s', AddColumns o fs s = (s', false) /\ columns s' = columns s ++ [mk_column (prefix o ++ f_name f) ty (made s) 0] /\ ~ sound s'.
Proof.
  intros FT VF NI -> FT' VF' IG FR. apply visible_ok in VF, VF'. unfold AddColumns. cbn [add_fields]. rewrite allowed_b, VF, FT. cbn [negb].
  unfold AddColumn. rewrite column_name_pre. cbn [columns].
  assert (EX : existsb (fun c => String.eqb (c_name c) (prefix o ++ f_name f)) (columns s) = false).
  { apply not_true_iff_false. intros X. apply existsb_exists in X. destruct X as (c & Hc & Ec). apply String.eqb_eq in Ec. apply NI. rewrite <- Ec. now apply in_map. }
  rewrite EX. rewrite allowed_b, VF', FT', IG. cbn [negb andb]. eexists. split; [reflexivity|]. cbn. split; [reflexivity|].
  intros SO. specialize (SO (mk_column (prefix o ++ f_name f) ty (made s) 0)). cbn in SO. assert (In (made s) (rows s)) as H.
  { apply SO. apply in_or_app. right. now left. }
  apply FR in H. lia.
Qed.
Lemma adds_fresh l : forall s s' oks, fresh_rows s -> adds l s = (s', oks) -> fresh_rows s'.
Proof.
  induction l as [|[o fs] l IH]; intros s s' oks FR E; cbn in E; [now injection E as <- _|].
  destruct (AddColumns o fs s) as [s1 ok] eqn:E1. destruct (adds l s1) as [s2 oks2] eqn:E2. injection E as <- <-.
  apply (IH s1 s2 oks2); auto. unfold AddColumns in E1. destruct (add_fields _ _ _ _ _ _) as [[s0 v] k] eqn:EA. apply add_fields_shape in EA.
  destruct EA as (R1 & M1 & _). cbn in *. unfold fresh_rows in *. destruct (_ && _); injection E1 as <- _; cbn; intros r H.
  - rewrite R1 in H. rewrite M1. apply in_app_or in H. destruct H as [H|[<-|[]]]; [apply Nat.lt_lt_succ_r; auto|lia].
  - rewrite R1 in H. rewrite M1. apply Nat.lt_lt_succ_r. auto.
Qed.
Lemma failed_after l s oks o f f' rest ty : adds l new_schema = (s, oks) -> f_type f = Some ty -> visible (include_fields o) (exclude_fields o) (f_name f) ->
  ~ In (prefix o ++ f_name f)%string (map c_name (columns s)) ->
  f_type f' = None -> visible (include_fields o) (exclude_fields o) (f_name f') -> ignore_unsupported o = false ->
  exists s', AddColumns o (f :: f' :: rest) s = (s', false) /\ columns s' = columns s ++ [mk_column (prefix o ++ f_name f) ty (made s) 0] /\ ~ sound s'.
Proof.
  intros E FT VF NI FT' VF' IG. eapply AddColumns_failed; eauto. apply (adds_fresh l new_schema s oks); auto. intros r [].
Qed.
(** When a call succeeds. *)
Lemma AddColumns_succeeds o fs s :
  let new := columns_of_type (include_fields o) (exclude_fields o) (prefix o) (made s) fs in
  NoDup (map c_name (columns s ++ new)) -> new <> [] ->
  (forall f, In f fs -> f_type f = None -> visible (include_fields o) (exclude_fields o) (f_name f) -> ignore_unsupported o = true) ->
  exists s', AddColumns o fs s = (s', true).
Proof.
  intros new ND NE U. unfold AddColumns. destruct (add_fields _ _ _ _ _ _) as [[s1 v] ok] eqn:E. apply add_fields_shape in E. destruct E as (R1 & M1 & k & C1 & V1 & T1 & F1).
  destruct ok.
  - destruct (T1 eq_refl) as (T2 & _). cbn [columns] in *. rewrite T2 in C1. apply app_inv_head in C1. rewrite <- C1 in V1. change (given o (made s) 0 fs) with new in V1.
    destruct new; [contradiction|]. cbn in V1. subst v. cbn. eauto.
  - destruct (F1 eq_refl) as [(f & Hf & N & VF & IG)|X].
    + apply visible_ok in VF. rewrite (U f Hf N VF) in IG. discriminate.
    + exfalso. apply X. exact ND.
Qed.
