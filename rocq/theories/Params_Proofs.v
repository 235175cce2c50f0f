(** Proofs for C28. *)
From Coq Require Import List Bool Arith ZArith Lia.
Import ListNotations.
From Verif Require Import Base Lexer_Model Lexer_Proofs Params_Model Params_Spec.

Lemma node_ret h a n : node h a = Ret n <-> nth_error h a = Some n.
Proof. unfold node. destruct (nth_error h a); split; congruence. Qed.
Lemma nth_firstn {A} (l : list A) a b : b < a -> nth_error (firstn a l) b = nth_error l b.
Proof. revert a b. induction l as [|x l IH]; intros [|a] [|b] H; try lia; auto. cbn. apply IH. lia. Qed.
Lemma nth_skipn {A} (l : list A) a b : nth_error (skipn a l) b = nth_error l (a + b).
Proof. revert a. induction l as [|x l IH]; intros [|a]; cbn [skipn]; auto. destruct b; reflexivity. apply IH. Qed.
Lemma store_length a n h : a < length h -> length (store a n h) = length h.
Proof. intros H. unfold store. rewrite app_length, firstn_length. cbn [length]. rewrite skipn_length. lia. Qed.
Lemma store_same a n h : a < length h -> nth_error (store a n h) a = Some n.
Proof. intros H. unfold store. rewrite nth_error_app2; rewrite firstn_length; [|lia]. replace (a - Nat.min a (length h)) with 0 by lia. reflexivity. Qed.
Lemma store_other a b n h : a < length h -> b <> a -> nth_error (store a n h) b = nth_error h b.
Proof.
  intros H N. unfold store. destruct (lt_dec b a) as [L|L].
  - rewrite nth_error_app1 by (rewrite firstn_length; lia). apply nth_firstn; lia.
  - rewrite nth_error_app2 by (rewrite firstn_length; lia). rewrite firstn_length. replace (Nat.min a (length h)) with a by lia.
    destruct (b - a) as [|k] eqn:E; [lia|]. cbn [nth_error]. rewrite nth_skipn. f_equal. lia.
Qed.

(** *** Chains *)
Lemma chain_valid h a l : chain h a l -> forall x, In x l -> x < length h.
Proof. induction 1 as [a n H Hp|a n q l H Hp HC IH]; intros x [<-|I]; try destruct I; auto; apply nth_error_Some; congruence. Qed.
Lemma chain_head h a l : chain h a l -> exists l', l = a :: l'.
Proof. destruct 1; eauto. Qed.
Lemma chain_fun h a l : chain h a l -> forall l', chain h a l' -> l = l'.
Proof.
  induction 1 as [a n H Hp|a n q l H Hp HC IH]; intros l' H'; inversion H' as [? n' H1 Hp1|? n' q' l1 H1 Hp1 HC1]; subst.
  - reflexivity.
  - congruence.
  - congruence.
  - rewrite H in H1. injection H1 as <-. rewrite Hp in Hp1. injection Hp1 as <-. f_equal. auto.
Qed.
Lemma chain_suffix h a l : chain h a l -> forall x, In x l -> exists pre l', l = pre ++ l' /\ chain h x l'.
Proof.
  induction 1 as [a n H Hp|a n q l H Hp HC IH]; intros x [<-|I]; try destruct I.
  - exists [], [a]. split; [reflexivity|]. econstructor; eauto.
  - exists [], (a :: l). split; [reflexivity|]. econstructor 2; eauto.
  - destruct (IH x I) as (pre & l' & -> & C). exists (a :: pre), l'. auto.
Qed.
Lemma chain_nodup h a l : chain h a l -> NoDup l.
Proof.
  induction 1 as [a n H Hp|a n q l H Hp HC IH]; [repeat constructor; intros []|]. constructor; [|assumption]. intros I.
  destruct (chain_suffix _ _ _ HC a I) as (pre & l' & E & C). assert (chain h a (a :: l)) as C1 by (econstructor 2; eauto). pose proof (chain_fun _ _ _ C1 _ C) as E'.
  assert (length l = length (pre ++ l')) as L by congruence. rewrite app_length in L. rewrite <- E' in L. cbn [length] in L. lia.
Qed.
Lemma last_default {A} (l : list A) a b : l <> [] -> last l a = last l b.
Proof. induction l as [|x l IH]; intros H; [contradiction|]. destruct l; [reflexivity|]. cbn [last] in *. apply IH. discriminate. Qed.
Lemma chain_last h a l : chain h a l -> exists n, nth_error h (last l a) = Some n /\ p_parent n = None /\ In (last l a) l.
Proof.
  induction 1 as [a n H Hp|a n q l H Hp HC IH]; [exists n; cbn; auto|]. destruct IH as (m & M1 & M2 & M3). destruct (chain_head _ _ _ HC) as (l' & ->).
  replace (last (a :: q :: l') a) with (last (q :: l') q). exists m. repeat split; auto. now right.
  change (last (a :: q :: l') a) with (last (q :: l') a). apply last_default. discriminate.
Qed.
(** The same parents: the same chain *)
Lemma chain_keep h h' a l : chain h a l ->
  (forall x n, In x l -> nth_error h x = Some n -> exists n', nth_error h' x = Some n' /\ p_parent n' = p_parent n) -> chain h' a l.
Proof.
  induction 1 as [a n H Hp|a n q l H Hp HC IH]; intros K.
  - destruct (K a n (or_introl eq_refl) H) as (n' & H' & P'). apply chain_root with (n := n'); congruence.
  - destruct (K a n (or_introl eq_refl) H) as (n' & H' & P'). apply chain_up with (n := n') (q := q); [congruence|congruence|]. apply IH. intros x m I. apply K. now right.
Qed.

(** *** Get *)
Lemma get_chain h a l name : chain h a l -> forall fuel, length l <= fuel -> get fuel h a name = Ret (nearest h l name).
Proof.
  induction 1 as [a n H Hp|a n q l H Hp HC IH]; intros [|fuel] L; cbn [length] in L; try lia; cbn [get nearest]; unfold node, own; rewrite H; cbn [obind].
  - destruct (find_text (p_members n) name); [reflexivity|]. now rewrite Hp.
  - destruct (find_text (p_members n) name); [reflexivity|]. rewrite Hp. apply IH. lia.
Qed.
Lemma contains_chain h a l name : chain h a l -> plain_objects h l -> forall fuel, length l <= fuel ->
  contains fuel h a name = Ret (match nearest h l name with Some _ => true | None => false end).
Proof.
  induction 1 as [a n H Hp|a n q l H Hp HC IH]; intros PO [|fuel] L; cbn [length] in L; try lia; cbn [contains nearest]; unfold node, own; rewrite H; cbn [obind];
    pose proof (PO a n (or_introl eq_refl) H) as T; destruct (find_text (p_members n) name) eqn:F.
  - rewrite T by (intros E; rewrite E in F; discriminate). reflexivity.
  - rewrite andb_false_r. now rewrite Hp.
  - rewrite T by (intros E; rewrite E in F; discriminate). reflexivity.
  - rewrite andb_false_r, Hp. apply IH; [|lia]. intros x m I. apply PO. now right.
Qed.

(** *** SetParent *)
Lemma set_parent_mono p h x : forall fuel fuel' a, fuel <= fuel' -> set_parent fuel a p h = Ret x -> set_parent fuel' a p h = Ret x.
Proof.
  induction fuel as [|fuel IH]; intros fuel' a L H; [discriminate|]. destruct fuel' as [|fuel']; [lia|]. cbn [set_parent] in *.
  destruct (node h a) as [n| | |]; try discriminate. cbn [obind] in *. destruct p as [q|]; [|exact H]. destruct (a =? q); [exact H|]. destruct (p_parent n) as [r|]; [|exact H]. destruct (r =? q); [exact H|]. apply IH; [lia|exact H].
Qed.
Lemma set_parent_in h a l q : chain h a l -> In q l -> forall fuel, length l <= fuel -> set_parent fuel a (Some q) h = Ret h.
Proof.
  induction 1 as [a n H Hp|a n r l H Hp HC IH]; intros I [|fuel] L; cbn [length] in L; try lia; cbn [set_parent]; unfold node; rewrite H; cbn [obind].
  - destruct I as [->|[]]. now rewrite Nat.eqb_refl.
  - destruct (Nat.eqb_spec a q) as [E|E]; [reflexivity|]. rewrite Hp. destruct (r =? q); [reflexivity|]. apply IH; [|lia]. destruct I; [contradiction|assumption].
Qed.
Lemma set_parent_new h a l q : chain h a l -> ~ In q l -> forall n, nth_error h (last l a) = Some n -> forall fuel, length l <= fuel ->
  set_parent fuel a (Some q) h = Ret (store (last l a) (with_parent (Some q) n) h).
Proof.
  induction 1 as [a n H Hp|a n r l H Hp HC IH]; intros I m Hm [|fuel] L; cbn [length] in L; try lia; cbn [set_parent]; unfold node; rewrite H; cbn [obind].
  - destruct (Nat.eqb_spec a q) as [E|E]; [exfalso; apply I; now left|]. rewrite Hp. cbn [last] in *. congruence.
  - destruct (Nat.eqb_spec a q) as [E|E]; [exfalso; apply I; now left|]. rewrite Hp. destruct (chain_head _ _ _ HC) as (l' & ->). destruct (Nat.eqb_spec r q) as [E'|E']; [exfalso; apply I; right; now left|].
    change (last (a :: r :: l') a) with (last (r :: l') a) in *. rewrite (last_default (r :: l') a r) in * by discriminate. apply IH; auto; [intros J; apply I; now right|lia].
Qed.

(** *** Ownership of members and elements *)
Definition kids (n : pnode) : list nat := map snd (p_members n) ++ p_array n.
Definition all_kids (h : heap) : list nat := flat_map kids h.
Record owned (h : heap) : Prop := { o_nodup : NoDup (all_kids h); o_valid : Forall (fun c => c < length h) (all_kids h) }.

Lemma split_at (h : heap) a n : nth_error h a = Some n -> h = firstn a h ++ n :: skipn (S a) h.
Proof. revert a. induction h as [|x h IH]; intros [|a] H; try discriminate; cbn in H |- *. now injection H as <-. f_equal. now apply IH. Qed.
Lemma store_kids a n h : all_kids (store a n h) = all_kids (firstn a h) ++ kids n ++ all_kids (skipn (S a) h).
Proof. unfold all_kids, store. now rewrite flat_map_app. Qed.

Lemma nodup_app {A} (l m : list A) : NoDup (l ++ m) <-> NoDup l /\ NoDup m /\ (forall x, In x l -> ~ In x m).
Proof.
  induction l as [|a l IH]; cbn [app]; [split; [intros H; repeat split; auto; constructor|tauto]|]. rewrite !NoDup_cons_iff, IH, in_app_iff. cbn [In]. split.
  - intros (N & H1 & H2 & H3). repeat split; auto. intros x [<-|I]; auto.
  - intros ((N & H1) & H2 & H3). repeat split; auto. intros [I|I]; [auto|]. now apply (H3 a (or_introl eq_refl)).
Qed.
Lemma kids_of h a n c : nth_error h a = Some n -> In c (kids n) -> In c (all_kids h).
Proof. intros H I. apply in_flat_map. exists n. split; auto. eapply nth_error_In; eauto. Qed.
Lemma owned_node h a n : owned h -> nth_error h a = Some n -> NoDup (kids n) /\ Forall (fun c => c < length h) (kids n).
Proof.
  intros [N V] H. rewrite (split_at _ _ _ H) in N. unfold all_kids in N. rewrite flat_map_app in N. cbn [flat_map] in N. apply nodup_app in N as (_ & N & _). apply nodup_app in N as (N & _). split; [exact N|].
  apply Forall_forall. intros c I. rewrite Forall_forall in V. apply V. eapply kids_of; eauto.
Qed.
Lemma repeat_kids k : all_kids (repeat fresh k) = [].
Proof. induction k; auto. Qed.
Lemma owned_update h a n n' k : owned h -> nth_error h a = Some n -> NoDup (kids n') ->
  (forall c, In c (kids n') -> In c (kids n) \/ length h <= c < length h + k) -> owned (store a n' (h ++ repeat fresh k)).
Proof.
  intros O H N K. assert (a < length h) as La by (apply nth_error_Some; congruence). pose proof O as [N0 V0]. rewrite Forall_forall in V0.
  assert (length (store a n' (h ++ repeat fresh k)) = length h + k) as Len by (rewrite store_length, app_length, repeat_length; [lia|rewrite app_length; lia]).
  assert (firstn a (h ++ repeat fresh k) = firstn a h) as E1 by (rewrite firstn_app; replace (a - length h) with 0 by lia; cbn; now rewrite app_nil_r).
  assert (skipn (S a) (h ++ repeat fresh k) = skipn (S a) h ++ repeat fresh k) as E2 by (rewrite skipn_app; replace (S a - length h) with 0 by lia; reflexivity).
  assert (all_kids h = all_kids (firstn a h) ++ kids n ++ all_kids (skipn (S a) h)) as EK by (rewrite (split_at _ _ _ H) at 1; unfold all_kids; now rewrite flat_map_app).
  assert (all_kids (store a n' (h ++ repeat fresh k)) = all_kids (firstn a h) ++ kids n' ++ all_kids (skipn (S a) h)) as EK'.
  { rewrite store_kids, E1, E2. unfold all_kids at 2. rewrite flat_map_app. fold (all_kids (repeat fresh k)). rewrite repeat_kids, app_nil_r. reflexivity. }
  rewrite EK in N0. apply nodup_app in N0 as (NA & NB & D1). apply nodup_app in NB as (NK & NC & D2).
  constructor.
  - rewrite EK'. apply nodup_app. split; [exact NA|]. split; [apply nodup_app; split; [exact N|]; split; [exact NC|]|].
    + intros x I J. destruct (K x I) as [I'|I']; [exact (D2 x I' J)|]. assert (x < length h); [|lia]. apply V0. rewrite EK. apply in_or_app. right. apply in_or_app. now right.
    + intros x I J. apply in_app_or in J as [J|J].
      * destruct (K x J) as [I'|I']; [apply (D1 x I); apply in_or_app; now left|]. assert (x < length h); [|lia]. apply V0. rewrite EK. apply in_or_app. now left.
      * apply (D1 x I). apply in_or_app. now right.
  - rewrite EK', Len. apply Forall_forall. intros x I. apply in_app_or in I as [I|I]; [|apply in_app_or in I as [I|I]].
    + assert (x < length h); [|lia]. apply V0. rewrite EK. apply in_or_app. now left.
    + destruct (K x I) as [I'|I']; [|lia]. assert (x < length h); [|lia]. apply V0. rewrite EK. apply in_or_app. right. apply in_or_app. now left.
    + assert (x < length h); [|lia]. apply V0. rewrite EK. apply in_or_app. right. apply in_or_app. now right.
Qed.
Lemma owned_grow h k : owned h -> owned (h ++ repeat fresh k).
Proof.
  intros [N V]. assert (all_kids (h ++ repeat fresh k) = all_kids h) as E by (unfold all_kids; rewrite flat_map_app; fold (all_kids (repeat fresh k)); now rewrite repeat_kids, app_nil_r).
  constructor; rewrite E; auto. eapply Forall_impl; [|exact V]. intros c H. cbn beta in H. rewrite app_length. lia.
Qed.
Lemma owned_same h a n n' : owned h -> nth_error h a = Some n -> kids n' = kids n -> owned (store a n' h).
Proof.
  intros O H E. rewrite <- (app_nil_r h). change (@nil pnode) with (repeat fresh 0). eapply owned_update; eauto; rewrite E; [apply (owned_node _ _ _ O H)|auto].
Qed.

(** *** What calls do to the heap *)
(** Parents of old objects stay, new objects have none. *)
Definition keeps (h h' : heap) : Prop :=
  length h <= length h' /\
  (forall a n, nth_error h a = Some n -> exists n', nth_error h' a = Some n' /\ p_parent n' = p_parent n) /\
  (forall a n, length h <= a -> nth_error h' a = Some n -> p_parent n = None).
Lemma keeps_store h k a n n' : nth_error h a = Some n -> p_parent n' = p_parent n -> keeps h (store a n' (h ++ repeat fresh k)).
Proof.
  intros H P. assert (a < length h) as La by (apply nth_error_Some; congruence). assert (a < length (h ++ repeat fresh k)) as La' by (rewrite app_length; lia). split; [|split].
  - rewrite store_length, app_length by assumption. lia.
  - intros b m Hb. destruct (Nat.eq_dec b a) as [->|Nb]. { exists n'. split; [now apply store_same|]. congruence. }
    exists m. split; [|reflexivity]. rewrite store_other by assumption. rewrite nth_error_app1; [assumption|apply nth_error_Some; congruence].
  - intros b m Lb Hb. rewrite store_other in Hb by (assumption || lia). rewrite nth_error_app2 in Hb by assumption. apply nth_error_In, repeat_spec in Hb. now subst m.
Qed.
Lemma keeps_store0 h a n n' : nth_error h a = Some n -> p_parent n' = p_parent n -> keeps h (store a n' h).
Proof. intros H P. rewrite <- (app_nil_r h) at 2. apply (keeps_store h 0 a n n' H P). Qed.
Lemma keeps_grow h k : keeps h (h ++ repeat fresh k).
Proof.
  split; [rewrite app_length; lia|]. split.
  - intros a n H. exists n. split; [|reflexivity]. rewrite nth_error_app1; [assumption|apply nth_error_Some; congruence].
  - intros b m Lb Hb. rewrite nth_error_app2 in Hb by assumption. apply nth_error_In, repeat_spec in Hb. now subst m.
Qed.
Lemma keeps_refl h : keeps h h.
Proof. rewrite <- (app_nil_r h) at 2. apply (keeps_grow h 0). Qed.
Lemma keeps_chain h h' a l : keeps h h' -> chain h a l -> chain h' a l.
Proof. intros (_ & K & _) C. apply (chain_keep h); [assumption|]. intros x n _. apply K. Qed.
Lemma keeps_acyclic h h' : keeps h h' -> acyclic h -> acyclic h'.
Proof.
  intros K A a La. destruct (lt_dec a (length h)) as [L|L].
  - destruct (A a L) as (l & C). exists l. eapply keeps_chain; eauto.
  - destruct (nth_error h' a) as [n|] eqn:E; [|apply nth_error_None in E; lia]. exists [a]. apply chain_root with (n := n); [assumption|]. apply (proj2 (proj2 K) a n); [lia|assumption].
Qed.
Lemma keeps_trans h1 h2 h3 : keeps h1 h2 -> keeps h2 h3 -> keeps h1 h3.
Proof.
  intros (L1 & K1 & N1) (L2 & K2 & N2). split; [lia|]. split.
  - intros a n H. destruct (K1 a n H) as (n' & H' & P'). destruct (K2 a n' H') as (n2 & H2 & P2). exists n2. split; congruence.
  - intros a n L H. destruct (lt_dec a (length h2)) as [La|La]; [|apply (N2 a n); [lia|assumption]]. destruct (nth_error h2 a) as [m|] eqn:E; [|apply nth_error_None in E; lia].
    destruct (K2 a m E) as (n' & H' & P'). assert (n' = n) as -> by congruence. rewrite P'. now apply (N1 a m).
Qed.
Lemma create_many_eq k h : create_many k h = (seq (length h) k, h ++ repeat fresh k).
Proof.
  revert h. induction k as [|k IH]; intros h; cbn [create_many seq repeat]; [now rewrite app_nil_r|]. unfold create. rewrite IH, app_length. cbn [length]. rewrite Nat.add_1_r, <- app_assoc. reflexivity.
Qed.

Lemma set_value_ok h a v h' : owned h -> set_value a v h = Ret h' -> owned h' /\ keeps h h'.
Proof.
  intros O H. unfold set_value in H. destruct (node h a) as [n| | |] eqn:E; try discriminate. apply node_ret in E. injection H as <-.
  split; [apply (owned_same h a n); auto; destruct v; reflexivity|apply (keeps_store0 h a n); auto; destruct v; reflexivity].
Qed.
Lemma member_ref_cases h a name c h' : member_ref a name h = Ret (c, h') -> exists n, nth_error h a = Some n /\
  ((find_text (p_members n) name = Some c /\ h' = store a (with_type P_object n) h) \/
   (find_text (p_members n) name = None /\ c = length h /\ h' = store a (with_members ((name, c) :: p_members n) (with_type P_object n)) (h ++ repeat fresh 1))).
Proof.
  unfold member_ref. intros H. destruct (node h a) as [n| | |] eqn:E; try discriminate. apply node_ret in E. exists n. split; [exact E|]. cbn [obind] in H. destruct (find_text (p_members n) name) as [d|] eqn:F.
  - injection H as <- <-. now left.
  - cbn [create] in H. injection H as <- <-. right. auto.
Qed.
Lemma member_ref_ok h a name c h' : owned h -> member_ref a name h = Ret (c, h') -> owned h' /\ keeps h h'.
Proof.
  intros O H. destruct (member_ref_cases _ _ _ _ _ H) as (n & E & [(F & ->)|(F & -> & ->)]).
  - split; [apply (owned_same h a n); auto|apply (keeps_store0 h a n); auto].
  - split; [|apply (keeps_store h 1 a n); auto]. destruct (owned_node _ _ _ O E) as [N V]. rewrite Forall_forall in V. apply (owned_update h a n); auto.
    + unfold kids in *. cbn [with_members p_members p_array map snd app]. constructor; [|exact N]. intros I. specialize (V _ I). lia.
    + intros d [<-|I]; [right; cbn; lia|left; exact I].
Qed.
Lemma resize_ok h a n k l h1 : owned h -> nth_error h a = Some n -> resize (p_array n) k h = (l, h1) ->
  owned (store a (with_array l (with_type P_array n)) h1) /\ keeps h (store a (with_array l (with_type P_array n)) h1).
Proof.
  intros O E R. destruct (owned_node _ _ _ O E) as [N V]. rewrite Forall_forall in V. unfold kids in N, V. unfold resize in R. destruct (Nat.leb_spec k (length (p_array n))) as [L|L].
  - injection R as <- <-. split; [|apply (keeps_store0 h a n); auto]. rewrite <- (app_nil_r h) at 1. apply (owned_update h a n _ 0); auto; unfold kids; cbn [with_array with_type p_members p_array].
    + apply nodup_app in N as (N1 & N2 & N3). apply nodup_app. split; [exact N1|]. rewrite <- (firstn_skipn k (p_array n)) in N2, N3. apply nodup_app in N2 as (N2 & _ & _). split; [exact N2|]. intros x I J. apply (N3 x I), in_or_app. now left.
    + intros c I. left. apply in_app_or in I as [I|I]; apply in_or_app; [now left|right]. rewrite <- (firstn_skipn k). apply in_or_app. now left.
  - rewrite create_many_eq in R. injection R as <- <-. split; [|apply (keeps_store h _ a n); auto]. apply (owned_update h a n); auto; unfold kids; cbn [with_array with_type p_members p_array].
    + rewrite app_assoc. apply nodup_app. split; [exact N|]. split; [apply seq_NoDup|]. intros x I J. apply in_seq in J. specialize (V x I). lia.
    + intros c I. rewrite app_assoc in I. apply in_app_or in I as [I|I]; [now left|]. right. apply in_seq in I. lia.
Qed.
Lemma index_ok h fuel a name c h' : owned h -> index fuel a name h = Ret (c, h') -> owned h' /\ keeps h h'.
Proof.
  intros O H. unfold index in H. destruct (get fuel h a name) as [[d|]| | |]; try discriminate; cbn [obind] in H.
  - destruct (node h d) as [m| | |]; try discriminate. cbn [obind] in H. destruct (negb _); [injection H as <- <-; split; [assumption|apply keeps_refl]|]. eapply member_ref_ok; eauto.
  - eapply member_ref_ok; eauto.
Qed.
Lemma put_ok h a name v h' : owned h -> put a name v h = Ret h' -> owned h' /\ keeps h h'.
Proof.
  intros O H. unfold put in H. destruct (member_ref a name h) as [[c h1]| | |] eqn:E; try discriminate. destruct (member_ref_ok _ _ _ _ _ O E) as [O1 K1]. destruct (set_value_ok _ _ _ _ O1 H) as [O2 K2]. split; [assumption|]. eapply keeps_trans; eauto.
Qed.

(** Giving an object without parent a parent *)
Lemma adopt_acyclic h r n q lq : acyclic h -> nth_error h r = Some n -> p_parent n = None -> chain h q lq -> ~ In r lq ->
  acyclic (store r (with_parent (Some q) n) h).
Proof.
  intros A H P C N. assert (r < length h) as Lr by (apply nth_error_Some; congruence). set (h' := store r (with_parent (Some q) n) h).
  assert (forall a l, chain h a l -> ~ In r l -> chain h' a l) as Away.
  { intros a l Ca Na. apply (chain_keep h); [assumption|]. intros x m I Hx. exists m. split; [|reflexivity]. unfold h'. rewrite store_other; auto. intros ->. contradiction. }
  assert (chain h' r (r :: lq)) as Cr by (apply chain_up with (n := with_parent (Some q) n) (q := q); [now apply store_same|reflexivity|apply Away; auto]).
  intros a La. unfold h' in La. rewrite store_length in La by assumption. destruct (A a La) as (l & Ca).
  clear La. induction Ca as [a m Hm Pm|a m b l Hm Pm Cb IH].
  - destruct (Nat.eq_dec a r) as [->|Na]; [eauto|]. exists [a]. apply chain_root with (n := m); [unfold h'; now rewrite store_other|assumption].
  - destruct (Nat.eq_dec a r) as [->|Na]; [eauto|]. destruct IH as (l' & C'). exists (a :: l'). apply chain_up with (n := m) (q := b); [unfold h'; now rewrite store_other|assumption|assumption].
Qed.

Record fine (h : heap) : Prop := { f_owned : owned h; f_acyclic : acyclic h }.
Lemma orphan_acyclic h a n : acyclic h -> nth_error h a = Some n -> acyclic (store a (with_parent None n) h).
Proof.
  intros A H. assert (a < length h) as La by (apply nth_error_Some; congruence). intros b Lb. rewrite store_length in Lb by assumption. destruct (A b Lb) as (l & C). clear Lb.
  induction C as [b m Hm Pm|b m q l Hm Pm Cb IH]; (destruct (Nat.eq_dec b a) as [->|Nb]; [exists [a]; apply chain_root with (n := with_parent None n); [now apply store_same|reflexivity]|]).
  - exists [b]. apply chain_root with (n := m); [now rewrite store_other|assumption].
  - destruct IH as (l' & C'). exists (b :: l'). apply chain_up with (n := m) (q := q); [now rewrite store_other|assumption|assumption].
Qed.
Lemma exec_fine fuel c h h' : fine h -> careful h c -> exec fuel c h = Ret h' -> fine h'.
Proof.
  intros [O A] Ca H. destruct c as [|a p|a v|a name v|a name|a|a i]; cbn [exec] in H.
  - injection H as <-. cbn [create snd]. split; [apply (owned_grow h 1 O)|apply (keeps_acyclic h); [apply (keeps_grow h 1)|assumption]].
  - destruct p as [q|].
    + destruct (node h q) as [nq| | |] eqn:Eq; try discriminate. apply node_ret in Eq. cbn [obind] in H. destruct (nth_error h a) as [na|] eqn:Ea.
      2: { destruct fuel; cbn [set_parent] in H; [discriminate|]. unfold node in H. rewrite Ea in H. discriminate. }
      assert (a < length h) as La by (apply nth_error_Some; congruence). assert (q < length h) as Lq by (apply nth_error_Some; congruence).
      destruct (A a La) as (la & Cla). destruct (A q Lq) as (lq & Clq). pose proof (set_parent_mono _ _ _ _ (Nat.max fuel (length la)) _ (Nat.le_max_l _ _) H) as H'.
      destruct (in_dec Nat.eq_dec q la) as [I|I].
      * rewrite (set_parent_in h a la q Cla I) in H' by lia. injection H' as <-. now split.
      * destruct (chain_last _ _ _ Cla) as (n & Hn & Pn & _). rewrite (set_parent_new h a la q Cla I n Hn) in H' by lia. injection H' as <-.
        destruct (Ca la lq Cla Clq) as [J|J]; [contradiction|]. split; [apply (owned_same h _ n); auto|apply (adopt_acyclic h _ n q lq); auto].
    + destruct fuel; cbn [set_parent] in H; [discriminate|]. destruct (node h a) as [n| | |] eqn:Ea; try discriminate. apply node_ret in Ea. cbn [obind] in H. injection H as <-. split; [apply (owned_same h a n); auto|now apply orphan_acyclic].
  - destruct (set_value_ok _ _ _ _ O H) as [O' K]. split; [assumption|eapply keeps_acyclic; eauto].
  - destruct (put_ok _ _ _ _ _ O H) as [O' K]. split; [assumption|eapply keeps_acyclic; eauto].
  - destruct (index fuel a name h) as [[c h1]| | |] eqn:E; try discriminate. injection H as <-. destruct (index_ok _ _ _ _ _ _ O E) as [O' K]. split; [assumption|eapply keeps_acyclic; eauto].
  - unfold add in H. destruct (node h a) as [n| | |] eqn:Ea; try discriminate. apply node_ret in Ea. cbn [obind] in H. destruct (resize (p_array n) (S (length (p_array n))) h) as [l h1] eqn:R. destruct (nth_error l _); [|discriminate]. injection H as <-.
    destruct (resize_ok _ _ _ _ _ _ O Ea R) as [O' K]. split; [assumption|eapply keeps_acyclic; eauto].
  - unfold index_at in H. destruct (node h a) as [n| | |] eqn:Ea; try discriminate. apply node_ret in Ea. cbn [obind] in H. destruct (if ptype_eqb (p_type n) P_array then nth_error (p_array n) i else None); [injection H as <-; now split|].
    destruct (resize (p_array n) (S i) h) as [l h1] eqn:R. destruct (nth_error l _); [|discriminate]. injection H as <-.
    destruct (resize_ok _ _ _ _ _ _ O Ea R) as [O' K]. split; [assumption|eapply keeps_acyclic; eauto].
Qed.
Lemma reachable_fine h : reachable h -> fine h.
Proof.
  induction 1 as [|fuel c h h' R IH Ca H]; [|eapply exec_fine; eauto]. split; [constructor; constructor|]. intros a L. cbn in L. lia.
Qed.

(** *** Reading what was put *)
Lemma text_eqb_sym (x y : text) : text_eqb x y = text_eqb y x.
Proof. destruct (text_eqb x y) eqn:E; [apply text_eqb_eq in E as ->; symmetry; now apply text_eqb_eq|]. destruct (text_eqb y x) eqn:F; [|reflexivity]. apply text_eqb_eq in F as ->. rewrite (proj2 (text_eqb_eq x x) eq_refl) in E. discriminate. Qed.
Lemma find_text_in {A} (t : list (text * A)) k v : find_text t k = Some v -> In (k, v) t.
Proof. induction t as [|[k' v'] t IH]; cbn [find_text]; [discriminate|]. destruct (text_eqb k' k) eqn:E; [intros [= ->]; apply text_eqb_eq in E; subst; now left|]. right. auto. Qed.
Lemma one_owner h : NoDup (all_kids h) -> forall a b n m c, nth_error h a = Some n -> nth_error h b = Some m -> In c (kids n) -> In c (kids m) -> a = b.
Proof.
  induction h as [|x h IH]; intros N a b n m c Ha Hb In_n In_m; [destruct a; discriminate|]. unfold all_kids in N. cbn [flat_map] in N. fold (all_kids h) in N. apply nodup_app in N as (N1 & N2 & D).
  destruct a as [|a], b as [|b]; cbn in Ha, Hb.
  - reflexivity.
  - injection Ha as <-. exfalso. apply (D c In_n). eapply kids_of; eauto.
  - injection Hb as <-. exfalso. apply (D c In_m). eapply kids_of; eauto.
  - f_equal. eapply IH; eauto.
Qed.
Lemma one_name (l : list (text * nat)) x y c : NoDup (map snd l) -> In (x, c) l -> In (y, c) l -> x = y.
Proof.
  induction l as [|[k d] l IH]; cbn [map]; intros N I J; [destruct I|]. apply NoDup_cons_iff in N as [N1 N2]. destruct I as [[= -> ->]|I], J as [E|J].
  - congruence.
  - exfalso. apply N1. now apply (in_map snd) in J.
  - injection E as -> ->. exfalso. apply N1. now apply (in_map snd) in I.
  - auto.
Qed.
Lemma own_unique h a b x y c : owned h -> own h a x = Some c -> own h b y = Some c -> a = b /\ x = y.
Proof.
  intros O Ha Hb. unfold own in Ha, Hb. destruct (nth_error h a) as [n|] eqn:En; [|discriminate]. destruct (nth_error h b) as [m|] eqn:Em; [|discriminate]. apply find_text_in in Ha, Hb.
  assert (a = b) as ->. { apply (one_owner h (o_nodup _ O) a b n m c); auto; unfold kids; apply in_or_app; left; [now apply (in_map snd) in Ha|now apply (in_map snd) in Hb]. }
  split; [reflexivity|]. assert (n = m) as -> by congruence. destruct (owned_node _ _ _ O Em) as [N _]. apply nodup_app in N as [N _]. eapply one_name; eauto.
Qed.
Lemma own_valid h a x c : owned h -> own h a x = Some c -> c < length h.
Proof.
  intros O H. unfold own in H. destruct (nth_error h a) as [n|] eqn:E; [|discriminate]. destruct (owned_node _ _ _ O E) as [_ V]. rewrite Forall_forall in V. apply V. unfold kids. apply in_or_app. left. apply find_text_in in H. now apply (in_map snd) in H.
Qed.

(** What Put does to every object *)
Lemma own_put h a name v h' b x : owned h -> put a name v h = Ret h' -> own h' b x = if (b =? a) && text_eqb x name then Some (match own h a name with Some c => c | None => length h end) else own h b x.
Proof.
  intros O H. unfold put in H. destruct (member_ref a name h) as [[c h1]| | |] eqn:E; try discriminate. cbn [obind] in H. unfold set_value in H. destruct (node h1 c) as [nc| | |] eqn:Ec; try discriminate. apply node_ret in Ec. injection H as <-.
  assert (c < length h1) as Lc by (apply nth_error_Some; congruence).
  assert (own (store c (put_value v nc) h1) b x = own h1 b x) as ->.
  { unfold own. destruct (Nat.eq_dec b c) as [->|N]; [rewrite store_same by assumption; rewrite Ec; destruct v; reflexivity|now rewrite store_other]. }
  destruct (member_ref_cases _ _ _ _ _ E) as (n & En & [(F & ->)|(F & -> & ->)]); assert (a < length h) as La by (apply nth_error_Some; congruence); unfold own at 2; rewrite En, F; unfold own.
  - destruct (Nat.eqb_spec b a) as [->|N].
    + rewrite store_same by assumption. rewrite En. cbn [with_type p_members andb]. destruct (text_eqb x name) eqn:X; [apply text_eqb_eq in X as ->; exact F|reflexivity].
    + rewrite store_other by assumption. reflexivity.
  - destruct (Nat.eqb_spec b a) as [->|N].
    + rewrite store_same by (rewrite app_length; lia). rewrite En. cbn [with_members p_members find_text andb]. rewrite (text_eqb_sym name x). destruct (text_eqb x name) eqn:X; reflexivity.
    + rewrite store_other by (assumption || (rewrite app_length; lia)). cbn [andb]. destruct (lt_dec b (length h)) as [L|L]; [now rewrite nth_error_app1|].
      rewrite nth_error_app2 by lia. replace (nth_error h b) with (@None pnode) by (symmetry; apply nth_error_None; lia). destruct (b - length h) as [|[|k]]; reflexivity.
Qed.
Lemma content_put h a name v h' c : owned h -> put a name v h = Ret h' -> c < length h' ->
  value_of h' (Some c) = if c =? (match own h a name with Some c => c | None => length h end) then Some v else if c =? a then None else value_of h (Some c).
Proof.
  intros O H Lc. unfold put in H. destruct (member_ref a name h) as [[d h1]| | |] eqn:E; try discriminate. cbn [obind] in H. unfold set_value in H. destruct (node h1 d) as [nd| | |] eqn:Ed; try discriminate. apply node_ret in Ed. injection H as <-.
  assert (d < length h1) as Ld by (apply nth_error_Some; congruence). rewrite store_length in Lc by assumption.
  assert ((match own h a name with Some c => c | None => length h end) = d) as ->. { destruct (member_ref_cases _ _ _ _ _ E) as (n & En & [(F & _)|(F & -> & _)]); unfold own; rewrite En, F; reflexivity. }
  unfold value_of. destruct (Nat.eqb_spec c d) as [->|N]; [rewrite store_same by assumption; destruct v; reflexivity|]. rewrite store_other by assumption.
  destruct (member_ref_cases _ _ _ _ _ E) as (n & En & [(F & ->)|(F & -> & ->)]); assert (a < length h) as La by (apply nth_error_Some; congruence).
  - destruct (Nat.eqb_spec c a) as [->|Na]; [rewrite store_same by assumption; reflexivity|]. now rewrite store_other.
  - assert (a < length (h ++ repeat fresh 1)) as La' by (rewrite app_length; lia). rewrite store_length, app_length in Lc by assumption. cbn [length repeat] in Lc.
    destruct (Nat.eqb_spec c a) as [->|Na]; [rewrite store_same by assumption; reflexivity|]. rewrite store_other by assumption. rewrite nth_error_app1 by lia. reflexivity.
Qed.
Lemma nearest_in h l x c : nearest h l x = Some c -> exists b, In b l /\ own h b x = Some c.
Proof. induction l as [|b l IH]; cbn [nearest]; [discriminate|]. destruct (own h b x) as [d|] eqn:E; [intros [= ->]; exists b; split; [now left|assumption]|]. intros H. destruct (IH H) as (b' & I & Hb). exists b'. split; [now right|assumption]. Qed.
Lemma nearest_put h a name v h' : owned h -> put a name v h = Ret h' -> forall l x,
  nearest h' l x = if text_eqb x name && decides h a l name then Some (match own h a name with Some c => c | None => length h end) else nearest h l x.
Proof.
  intros O H. induction l as [|b l IH]; intros x; cbn [nearest decides]; [now rewrite andb_false_r|]. rewrite (own_put _ _ _ _ _ b x O H), IH. rewrite (Nat.eqb_sym a b).
  destruct (text_eqb x name) eqn:X; [apply text_eqb_eq in X as ->|now rewrite andb_false_r]. rewrite andb_true_r. cbn [andb]. destruct (b =? a); [reflexivity|]. destruct (own h b name); reflexivity.
Qed.
Lemma decides_owner h a l name c : owned h -> own h a name = Some c -> nearest h l name = Some c -> decides h a l name = true.
Proof.
  intros O Ha. induction l as [|b l IH]; cbn [nearest decides]; [discriminate|]. destruct (Nat.eqb_spec a b) as [->|N]; [reflexivity|]. destruct (own h b name) as [d|] eqn:E; [|exact IH]. intros [= ->]. destruct (own_unique h a b name name c O Ha E). contradiction.
Qed.
Lemma put_read h a name v h' b l x : owned h -> put a name v h = Ret h' -> chain h b l ->
  value_of h' (nearest h' l x) =
    if text_eqb x name && decides h a l name then Some v
    else match nearest h l x with
         | Some c => if c =? a then None else value_of h (Some c)
         | None => None
         end.
Proof.
  intros O H C. rewrite (nearest_put _ _ _ _ _ O H). destruct (put_ok _ _ _ _ _ O H) as [O' (Le & _)].
  destruct (text_eqb x name && decides h a l name) eqn:D.
  - rewrite (content_put _ _ _ _ _ _ O H); [now rewrite Nat.eqb_refl|]. apply andb_prop in D as [_ D].
    assert (own h' a name = Some (match own h a name with Some c => c | None => length h end)) as W by (rewrite (own_put _ _ _ _ _ a name O H), Nat.eqb_refl, (proj2 (text_eqb_eq name name) eq_refl); reflexivity).
    eapply own_valid; [exact O'|exact W].
  - destruct (nearest h l x) as [c|] eqn:N; [|reflexivity]. destruct (nearest_in _ _ _ _ N) as (d & Id & Od). pose proof (own_valid _ _ _ _ O Od) as Lc.
    rewrite (content_put _ _ _ _ _ _ O H) by lia. destruct (Nat.eqb_spec c (match own h a name with Some c => c | None => length h end)) as [E|E]; [|reflexivity]. exfalso.
    destruct (own h a name) as [c'|] eqn:Oa; [subst c'|lia]. destruct (own_unique _ _ _ _ _ _ O Oa Od) as [-> ->].
    rewrite (proj2 (text_eqb_eq x x) eq_refl) in D. cbn [andb] in D. rewrite (decides_owner h d l x c O Oa N) in D. discriminate.
Qed.

(** *** Cycles *)
Lemma round_hangs h s : round h s -> forall fuel a name, In a s -> (forall b, In b s -> own h b name = None) -> get fuel h a name = Hang.
Proof.
  intros R. induction fuel as [|fuel IH]; intros a name I N; [reflexivity|]. destruct (R a I) as (n & q & Hn & Pq & Iq). cbn [get]. unfold node. rewrite Hn. cbn [obind]. specialize (N a I) as Na. unfold own in Na. rewrite Hn in Na. rewrite Na, Pq. now apply IH.
Qed.

(** *** Arrays *)
Lemma index_at_ok h a i c h' n : owned h -> nth_error h a = Some n -> p_type n = P_array -> index_at a i h = Ret (c, h') ->
  at_index h' a i = Ret (Some c) /\ (forall j d, at_index h a j = Ret (Some d) -> at_index h' a j = Ret (Some d)) /\
  (length (p_array n) <= i -> forall j d, length (p_array n) <= j -> at_index h' a j = Ret (Some d) -> nth_error h' d = Some fresh).
Proof.
  intros O H T I. assert (a < length h) as La by (apply nth_error_Some; congruence). destruct (owned_node _ _ _ O H) as [N V]. rewrite Forall_forall in V. unfold index_at in I. unfold node in I. rewrite H in I. cbn [obind] in I. rewrite T in I. change (ptype_eqb P_array P_array) with true in I. cbn match in I.
  destruct (nth_error (p_array n) i) as [d|] eqn:E.
  - injection I as <- <-. split; [unfold at_index, node; rewrite H; cbn [obind]; rewrite T; change (ptype_eqb P_array P_array) with true; cbn match; now rewrite E|]. split; [auto|]. intros L. apply nth_error_None in L. congruence.
  - apply nth_error_None in E. unfold resize in I. destruct (Nat.leb_spec (S i) (length (p_array n))) as [L|L]; [lia|]. rewrite create_many_eq in I. set (k := S i - length (p_array n)) in *.
    destruct (nth_error (p_array n ++ seq (length h) k) i) as [e|] eqn:F; [|discriminate]. injection I as <- <-.
    assert (a < length (h ++ repeat fresh k)) as La' by (rewrite app_length; lia).
    assert (forall j, at_index (store a (with_array (p_array n ++ seq (length h) k) (with_type P_array n)) (h ++ repeat fresh k)) a j = Ret (nth_error (p_array n ++ seq (length h) k) j)) as A by (intros j; unfold at_index, node; rewrite store_same by assumption; reflexivity).
    split; [rewrite A, F; reflexivity|]. split.
    + intros j d Hj. unfold at_index, node in Hj. rewrite H in Hj. cbn [obind] in Hj. rewrite T in Hj. change (ptype_eqb P_array P_array) with true in Hj. cbn match in Hj. injection Hj as Hj. rewrite A. f_equal. rewrite nth_error_app1; [assumption|]. apply nth_error_Some. congruence.
    + intros _ j d Lj Hj. rewrite A in Hj. injection Hj as Hj. rewrite nth_error_app2 in Hj by assumption. apply nth_error_In, in_seq in Hj. rewrite store_other by (assumption || lia). rewrite nth_error_app2 by lia.
      destruct (nth_error (repeat fresh k) (d - length h)) as [m|] eqn:M; [apply nth_error_In, repeat_spec in M; now subst|]. apply nth_error_None in M. rewrite repeat_length in M. lia.
Qed.

(** *** Calls return *)
Lemma chain_short h a l : chain h a l -> length l <= length h.
Proof.
  intros C. rewrite <- (seq_length (length h) 0). apply NoDup_incl_length; [eapply chain_nodup; eauto|]. intros x I. apply in_seq. pose proof (chain_valid _ _ _ C x I). lia.
Qed.
Lemma member_ref_returns h a name : a < length h -> owned h -> exists c h', member_ref a name h = Ret (c, h') /\ c < length h'.
Proof.
  intros L O. destruct (nth_error h a) as [n|] eqn:E; [|apply nth_error_None in E; lia]. unfold member_ref, node. rewrite E. cbn [obind]. destruct (find_text (p_members n) name) as [c|] eqn:F.
  - do 2 eexists. split; [reflexivity|]. rewrite store_length by assumption. apply (own_valid h a name c O). unfold own. now rewrite E.
  - cbn [create]. do 2 eexists. split; [reflexivity|]. rewrite store_length; rewrite app_length; cbn [length]; lia.
Qed.
Lemma exec_returns fuel h c : fine h -> on_existing h c -> length h <= fuel -> exists h', exec fuel c h = Ret h'.
Proof.
  intros [O A] E F. destruct c as [|a p|a v|a name v|a name|a|a i]; cbn [exec on_existing] in *.
  - eauto.
  - destruct p as [q|].
    + destruct E as [Ea Eq]. destruct (nth_error h q) as [nq|] eqn:Hq; [|apply nth_error_None in Hq; lia]. unfold node. rewrite Hq. cbn [obind]. destruct (A a Ea) as (l & C). pose proof (chain_short _ _ _ C).
      destruct (in_dec Nat.eq_dec q l) as [I|I]; [rewrite (set_parent_in h a l q C I) by lia; eauto|]. destruct (chain_last _ _ _ C) as (n & Hn & _ & _). rewrite (set_parent_new h a l q C I n Hn) by lia. eauto.
    + destruct (nth_error h a) as [n|] eqn:Hn; [|apply nth_error_None in Hn; lia]. destruct fuel; [lia|]. cbn [set_parent]. unfold node. rewrite Hn. cbn [obind]. eauto.
  - destruct (nth_error h a) as [n|] eqn:Hn; [|apply nth_error_None in Hn; lia]. unfold set_value, node. rewrite Hn. cbn [obind]. eauto.
  - destruct (member_ref_returns h a name E O) as (c & h' & M & L). unfold put. rewrite M. cbn [obind]. destruct (nth_error h' c) as [n|] eqn:Hn; [|apply nth_error_None in Hn; lia]. unfold set_value, node. rewrite Hn. cbn [obind]. eauto.
  - destruct (A a E) as (l & C). pose proof (chain_short _ _ _ C). unfold index. rewrite (get_chain h a l name C) by lia. cbn [obind]. destruct (member_ref_returns h a name E O) as (c & h' & M & L).
    destruct (nearest h l name) as [d|] eqn:N; [|rewrite M; cbn [obind]; eauto]. destruct (nearest_in _ _ _ _ N) as (b & Ib & Ob). pose proof (own_valid _ _ _ _ O Ob). destruct (nth_error h d) as [n|] eqn:Hn; [|apply nth_error_None in Hn; lia]. unfold node. rewrite Hn. cbn [obind].
    destruct (negb _); [cbn [obind]; eauto|]. rewrite M. cbn [obind]. eauto.
  - destruct (nth_error h a) as [n|] eqn:Hn; [|apply nth_error_None in Hn; lia]. unfold add, node. rewrite Hn. cbn [obind]. unfold resize. destruct (Nat.leb_spec (S (length (p_array n))) (length (p_array n))); [lia|]. rewrite create_many_eq.
    replace (S (length (p_array n)) - length (p_array n)) with 1 by lia. rewrite nth_error_app2 by lia. rewrite Nat.sub_diag. cbn. eauto.
  - destruct (nth_error h a) as [n|] eqn:Hn; [|apply nth_error_None in Hn; lia]. unfold index_at, node. rewrite Hn. cbn [obind]. destruct (if ptype_eqb (p_type n) P_array then nth_error (p_array n) i else None); [cbn [obind]; eauto|].
    unfold resize. destruct (Nat.leb_spec (S i) (length (p_array n))) as [L|L].
    + destruct (nth_error (firstn (S i) (p_array n)) i) eqn:N; [cbn [obind]; eauto|]. apply nth_error_None in N. rewrite firstn_length in N. lia.
    + rewrite create_many_eq. destruct (nth_error (p_array n ++ _) i) eqn:N; [cbn [obind]; eauto|]. apply nth_error_None in N. rewrite app_length, seq_length in N. lia.
Qed.
Lemma lookup_nearest h a fuel name : reachable h -> a < length h -> length h <= fuel -> exists l, chain h a l /\ get fuel h a name = Ret (nearest h l name).
Proof.
  intros R L F. destruct (reachable_fine h R) as [O A]. destruct (A a L) as (l & C). exists l. split; [exact C|]. apply get_chain; [exact C|]. pose proof (chain_short _ _ _ C). lia.
Qed.
Lemma put_then_read h a name v h' b l x fuel : reachable h -> put a name v h = Ret h' -> chain h b l -> length h <= fuel ->
  exists r, get fuel h' b x = Ret r /\ 
    value_of h' r = if text_eqb x name && decides h a l name then Some v
      else match nearest h l x with Some c => if c =? a then None else value_of h (Some c) | None => None end.
Proof.
  intros R P C F. destruct (reachable_fine h R) as [O A]. destruct (put_ok _ _ _ _ _ O P) as [O' K]. exists (nearest h' l x). split; [|eapply put_read; eauto].
  apply get_chain; [eapply keeps_chain; eauto|]. pose proof (chain_short _ _ _ C). lia.
Qed.
Lemma reach_all fuel : forall cs h h', reachable h -> (forall h c, In c cs -> careful h c) -> exec_all fuel cs h = Ret h' -> reachable h'.
Proof.
  induction cs as [|c cs IH]; intros h h' R Ca H; cbn [exec_all] in H; [congruence|]. destruct (exec fuel c h) as [h1| | |] eqn:E; try discriminate. apply (IH h1); [|intros; apply Ca; now right|exact H].
  eapply reach_call; [exact R|apply Ca; now left|exact E].
Qed.

(** *** Ancestors after SetParent *)
Lemma adopt_chain h a la q lq n : chain h a la -> chain h q lq -> ~ In (last la a) lq -> nth_error h (last la a) = Some n ->
  chain (store (last la a) (with_parent (Some q) n) h) a (la ++ lq).
Proof.
  intros C Cq N H. assert (last la a < length h) as Lr by (apply nth_error_Some; congruence).
  assert (chain (store (last la a) (with_parent (Some q) n) h) q lq) as Cq'.
  { apply (chain_keep h); [assumption|]. intros x m I Hx. exists m. split; [|reflexivity]. rewrite store_other; auto. intros ->. contradiction. }
  clear Cq. induction C as [a m Ha Pa|a m r l Ha Pa Ca IH].
  - cbn [last app] in *. apply chain_up with (n := with_parent (Some q) n) (q := q); [now apply store_same|reflexivity|assumption].
  - assert (last (a :: l) a = last l r) as E.
    { destruct (chain_head _ _ _ Ca) as (l' & ->). change (last (a :: r :: l') a) with (last (r :: l') a). apply last_default. discriminate. }
    rewrite E in *. specialize (IH N H Lr Cq'). cbn [app]. apply chain_up with (n := m) (q := r); [|assumption|assumption].
    rewrite store_other; auto. intros D. destruct (chain_last _ _ _ Ca) as (_ & _ & _ & I). rewrite <- D in I. assert (NoDup (a :: l)) as ND by (eapply chain_nodup, chain_up; eauto). apply NoDup_cons_iff in ND as [ND _]. contradiction.
Qed.
Lemma set_parent_chain fuel h a p h' la : reachable h -> careful h (C_parent a p) -> chain h a la -> exec fuel (C_parent a p) h = Ret h' ->
  match p with
  | None => chain h' a [a]
  | Some q => exists lq, chain h q lq /\ chain h' a (if in_dec Nat.eq_dec q la then la else la ++ lq)
  end.
Proof.
  intros R Ca C H. destruct (reachable_fine h R) as [O A]. destruct p as [q|]; cbn [exec] in H.
  - destruct (node h q) as [nq| | |] eqn:Eq; try discriminate. apply node_ret in Eq. cbn [obind] in H. assert (q < length h) as Lq by (apply nth_error_Some; congruence). destruct (A q Lq) as (lq & Clq). exists lq. split; [assumption|].
    pose proof (set_parent_mono _ _ _ _ (Nat.max fuel (length la)) _ (Nat.le_max_l _ _) H) as H'.
    destruct (in_dec Nat.eq_dec q la) as [I|I].
    + rewrite (set_parent_in h a la q C I) in H' by lia. injection H' as <-. assumption.
    + destruct (chain_last _ _ _ C) as (n & Hn & Pn & _). rewrite (set_parent_new h a la q C I n Hn) in H' by lia. injection H' as <-.
      destruct (Ca la lq C Clq) as [J|J]; [contradiction|]. now apply adopt_chain.
  - destruct fuel; cbn [set_parent] in H; [discriminate|]. destruct (node h a) as [n| | |] eqn:Ea; try discriminate. apply node_ret in Ea. cbn [obind] in H. injection H as <-.
    apply chain_root with (n := with_parent None n); [|reflexivity]. apply store_same. apply nth_error_Some. congruence.
Qed.
(** *** Add *)
Lemma add_ok h a c h' n : owned h -> nth_error h a = Some n -> add a h = Ret (c, h') ->
  at_index h' a (length (p_array n)) = Ret (Some c) /\ nth_error h' c = Some fresh /\
  (forall j d, nth_error (p_array n) j = Some d -> at_index h' a j = Ret (Some d)) /\ at_index h' a (S (length (p_array n))) = Ret None.
Proof.
  intros O H I. assert (a < length h) as La by (apply nth_error_Some; congruence). unfold add, node in I. rewrite H in I. cbn [obind] in I. unfold resize in I. destruct (Nat.leb_spec (S (length (p_array n))) (length (p_array n))); [lia|].
  rewrite create_many_eq in I. replace (S (length (p_array n)) - length (p_array n)) with 1 in I by lia. cbn [seq] in I. rewrite nth_error_app2, Nat.sub_diag in I by lia. cbn [nth_error] in I. injection I as <- <-.
  assert (a < length (h ++ repeat fresh 1)) as La' by (rewrite app_length; lia).
  assert (forall j, at_index (store a (with_array (p_array n ++ [length h]) (with_type P_array n)) (h ++ repeat fresh 1)) a j = Ret (nth_error (p_array n ++ [length h]) j)) as A by (intros j; unfold at_index, node; rewrite store_same by assumption; reflexivity).
  split; [rewrite A, nth_error_app2, Nat.sub_diag by lia; reflexivity|]. split; [rewrite store_other by (assumption || lia); rewrite nth_error_app2, Nat.sub_diag by lia; reflexivity|].
  split; [intros j d Hj; rewrite A; f_equal; rewrite nth_error_app1; [assumption|]; apply nth_error_Some; congruence|]. rewrite A. f_equal. apply nth_error_None. rewrite app_length. cbn [length]. lia.
Qed.
(** *** The mutable operator[] *)
Lemma index_ref h a l name fuel c h' : reachable h -> chain h a l -> length h <= fuel -> index fuel a name h = Ret (c, h') ->
  (forall d n, nearest h l name = Some d -> nth_error h d = Some n -> p_type n <> P_invalid) ->
  match nearest h l name with
  | Some d => c = d /\ h' = h
  | None => get fuel h' a name = Ret (Some c) /\ nth_error h' c = Some fresh
  end.
Proof.
  intros R C F H V. destruct (reachable_fine h R) as [O A]. pose proof (chain_short _ _ _ C) as S0. unfold index in H. rewrite (get_chain h a l name C) in H by lia. cbn [obind] in H. destruct (nearest h l name) as [d|] eqn:N.
  - destruct (node h d) as [n| | |] eqn:E; try discriminate. apply node_ret in E. cbn [obind] in H. specialize (V d n eq_refl E). destruct (p_type n); try (cbn in H; injection H as <- <-; auto); contradiction.
  - destruct (member_ref_cases _ _ _ _ _ H) as (n & E & [(W & ->)|(W & -> & ->)]).
    + exfalso. destruct (chain_head _ _ _ C) as (l' & ->). cbn [nearest] in N. unfold own in N. rewrite E, W in N. discriminate.
    + assert (a < length h) as La by (apply nth_error_Some; congruence). assert (a < length (h ++ repeat fresh 1)) as La' by (rewrite app_length; lia). split.
      * destruct fuel as [|fuel]; [lia|]. cbn [get]. unfold node. rewrite store_same by assumption. cbn [obind with_members p_members find_text]. rewrite (proj2 (text_eqb_eq name name) eq_refl). reflexivity.
      * rewrite store_other by (assumption || lia). rewrite nth_error_app2, Nat.sub_diag by lia. reflexivity.
Qed.
